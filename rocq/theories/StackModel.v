(** Stacks of calibration frames: corgidrp/calibrate_nonlin.py
    nonlin_dataset_2_stack 834-931, the checks 265-322 and the illumination
    drift correction 493-683 of calibrate_nonlin; corgidrp/calibrate_kgain.py
    kgain_dataset_2_list 796-915.

    Header numbers are exact rationals.  The pixels of a frame are an abstract
    value; frames of one dataset have one shape, so np.stack and np.vstack only
    concatenate. *)
From Coq Require Import List Arith Bool QArith ZArith String.
From Verif Require Import Base CosmicModel DqModel.
Import ListNotations.
Local Open Scope list_scope.
Local Open Scope nat_scope.

(** np.unique / the group keys of split_dataset (data.py 236-243) for one
    numeric keyword: distinct values in ascending order. *)
Fixpoint qinsert (x : Q) (l : list Q) : list Q :=
  match l with
  | [] => [x]
  | y :: t => if Qeq_bool x y then l else if Qle_bool x y then x :: l else y :: qinsert x t
  end.
Definition quniq (l : list Q) : list Q := fold_right qinsert [] l.
(** split_dataset on one keyword with values [key] (KeyError when missing). *)
Definition qgroups {F} (key : F -> option Q) (fs : list F) : result (list Q * list (list F)) :=
  do ks <- mapR (fun f => getkey (key f)) fs;
  let us := quniq ks in
  Ok (us, map (fun u => filter (fun f => match key f with Some q => Qeq_bool q u | None => false end) fs) us).

Section Stack.
Context {A : Type}.

(** OBSNAME, EXPTIME (with its type: is it a Python float?), DATETIME (Some None:
    not a string), the gain cards, the pixels *)
Record sframe : Type := mksf {
  sf_obs : option string; sf_t : option (bool * Q); sf_dt : option (option string); sf_h : cr_header; sf_px : A }.
Definition sf_time (f : sframe) : option Q := option_map snd (sf_t f).

(** 901-909, and calibrate_kgain.py 871-879: one frame's part of [gains] and
    record_gain; the flag is only cleared in the except branch. *)
Definition record (gains : list Q) (flag : bool) (f : sframe) : result (list Q * bool) :=
  if flag then
    match h_gm (sf_h f) with
    | Some g => Ok (gains ++ [g], true)
    | None => do a <- getkey (h_ga (sf_h f));
              if negb (Qle_bool a 0) then Ok (gains ++ [a], false)
              else do c <- getkey (h_gc (sf_h f)); Ok (gains ++ [c], false)
    end
  else Ok (gains, flag).

(** 857-870: what the loops collect. [x_sub]: sub_stack of the current set. *)
Record nst : Type := mkn {
  x_cal : list (list A); x_mean : list A; x_rec : option Q; x_times : list Q; x_dts : list string;
  x_gains : list Q; x_sub : list A; x_flag : bool }.
Definition n0 : nst := mkn [] [] None [] [] [] [] true.

(** 890-900: exposure time and date of a calibration frame *)
Definition time_of (f : sframe) : result Q :=
  do t <- getkey (sf_t f);
  if negb (fst t) then Raise PyException else if Qle_bool (snd t) 0 then Raise PyException else Ok (snd t).
Definition date_of (f : sframe) : result string :=
  do d <- getkey (sf_dt f); match d with Some s => Ok s | None => Raise PyException end.

(** 876-911, one frame *)
Definition nl_frame (s : nst) (f : sframe) : result nst :=
  do obs <- getkey (sf_obs f);
  if String.eqb obs "MNFRAME" then
    do t <- getkey (sf_time f);
    let m := match x_rec s with Some m => m | None => t end in
    if negb (Qeq_bool t m) then Raise PyException
    else do c <- getkey (h_gc (sf_h f));
    if negb (Qeq_bool c 1) then Raise PyException
    else Ok (mkn (x_cal s) (x_mean s ++ [sf_px f]) (Some m) (x_times s) (x_dts s) (x_gains s) (x_sub s) (x_flag s))
  else if String.eqb obs "KGAIN" || String.eqb obs "NONLIN" then
    do t <- time_of f;
    do d <- date_of f;
    do g <- record (x_gains s) (x_flag s) f;
    Ok (mkn (x_cal s) (x_mean s) (x_rec s) (x_times s ++ [t]) (x_dts s ++ [d]) (fst g) (x_sub s ++ [sf_px f]) (snd g))
  else Raise PyException.

Fixpoint foldR {S F} (step : S -> F -> result S) (s : S) (l : list F) : result S :=
  match l with [] => Ok s | x :: t => do s' <- step s x; foldR step s' t end.

(** 871-916, one set of frames with one commanded gain; len_sstack is the list
    of the lengths of [x_cal]. *)
Definition nl_set (s : nst) (g : list sframe) : result nst :=
  do s' <- foldR nl_frame (mkn (x_cal s) (x_mean s) (x_rec s) (x_times s) (x_dts s) (x_gains s) [] true) g;
  Ok (match x_sub s' with [] => s' | _ :: _ => mkn (x_cal s' ++ [x_sub s']) (x_mean s') (x_rec s') (x_times s') (x_dts s') (x_gains s') (x_sub s') (x_flag s') end).

Fixpoint nodupb (l : list string) : bool :=
  match l with [] => true | x :: t => negb (existsb (String.eqb x) t) && nodupb t end.

Record nl_out : Type := mkno {
  o_cal : list A; o_mean : list A; o_times : list Q; o_dts : list string; o_len : list nat; o_gains : list Q }.

(** 834-931 *)
Definition nonlin_dataset_2_stack (fs : list sframe) : result nl_out :=
  do g <- qgroups (fun f => h_gc (sf_h f)) fs;
  do s <- foldR nl_set n0 (snd g);
  if negb (nodupb (x_dts s)) then Raise PyException
  else match x_cal s with
  | [] => Raise PyException
  | _ :: _ =>
    if existsb (fun q => negb (Qle_bool 1 q)) (fst g) then Raise PyException
    else if existsb (fun q => negb (Qle_bool 1 q)) (x_gains s) then Raise PyException
    else match x_mean s with
    | [] => Raise ValueError
    | _ :: _ => Ok (mkno (List.concat (x_cal s)) (x_mean s) (x_times s) (x_dts s) (map (@List.length A) (x_cal s)) (x_gains s))
    end
  end.

(** calibrate_nonlin 265-273, 294, 300, 317 on that result (the order of dates
    276-287, the repeated exposures 303-316 and the parameters 323-331 are not
    modelled) *)
Definition nonlin_checks (n_cal n_mean : nat) (min_exp : Q) (o : nl_out) : result unit :=
  if Nat.ltb (List.length (o_len o)) 1 then Raise PyException
  else if negb (Nat.eqb (fold_right Nat.add 0 (o_len o)) (List.length (o_cal o))) then Raise PyException
  else if existsb (fun n => Nat.ltb n n_cal) (o_len o) then Raise PyException
  else if Nat.ltb (List.length (o_mean o)) n_mean then Raise PyException
  else if existsb (fun t => Qle_bool t min_exp) (o_times o) then Raise PyException
  else if negb (Nat.eqb (List.length (o_len o)) (List.length (o_gains o))) then Raise PyException
  else Ok tt.

(** * calibrate_kgain.py *)
Record kst : Type := mkk {
  y_stack : list (list A); y_mean : list A; y_dts : list string; y_ems : list Q; y_lens : list nat; y_gains : list Q;
  y_sub : list A; y_rect : option Q; y_rlen : bool; y_flag : bool }.
Definition k0 : kst := mkk [] [] [] [] [] [] [] None true true.

(** 840-879, one frame of a set of [n] frames; 860-862 only check the time. *)
Definition kg_frame (n : nat) (s : kst) (f : sframe) : result kst :=
  do t <- getkey (sf_time f);
  let m := match y_rect s with Some m => m | None => t end in
  if negb (Qeq_bool t m) then Raise PyException
  else
  do obs <- getkey (sf_obs f);
  if String.eqb obs "MNFRAME" then
    do c <- getkey (h_gc (sf_h f));
    if negb (Qeq_bool c 1) then Raise PyException
    else Ok (mkk (y_stack s) (y_mean s ++ [sf_px f]) (y_dts s) (y_ems s) (y_lens s) (y_gains s) (y_sub s) (Some m) (y_rlen s) (y_flag s))
  else
    let lens := if y_rlen s then y_lens s ++ [n] else y_lens s in
    do _ <- time_of f;
    do d <- date_of f;
    do c <- getkey (h_gc (sf_h f));
    if negb (Qle_bool 1 c) then Raise PyException
    else
    do g <- record (y_gains s) (y_flag s) f;
    Ok (mkk (y_stack s) (y_mean s) (y_dts s ++ [d]) (y_ems s ++ [c]) lens (fst g) (y_sub s ++ [sf_px f]) (Some m) false (snd g)).

(** 834-883, one set *)
Definition kg_set (s : kst) (g : list sframe) : result kst :=
  do s' <- foldR (kg_frame (List.length g)) (mkk (y_stack s) (y_mean s) (y_dts s) (y_ems s) (y_lens s) (y_gains s) [] None true true) g;
  Ok (match y_sub s' with [] => s' | _ :: _ =>
        mkk (y_stack s' ++ [y_sub s']) (y_mean s') (y_dts s') (y_ems s') (y_lens s') (y_gains s') (y_sub s') (y_rect s') (y_rlen s') (y_flag s') end).

(** 900-902: [reps] pieces of [n] frames *)
Fixpoint pieces (n reps : nat) (l : list A) : list (list A) :=
  match reps with O => [] | S r => firstn n l :: pieces n r (skipn n l) end.
(** 892-902 *)
Fixpoint resplit (n : nat) (stack : list (list A)) : result (list (list A)) :=
  match stack with
  | [] => Ok []
  | sub :: t =>
    do here <- (if Nat.eqb (List.length sub) n then Ok [sub]
                else if negb (Nat.eqb (List.length sub mod n) 0) then Raise PyException
                else Ok (pieces n (List.length sub / n) sub));
    do rest <- resplit n t;
    Ok (here ++ rest)
  end.
Definition list_min (l : list nat) : option nat := match l with [] => None | x :: t => Some (fold_left Nat.min t x) end.

Definition qsum (l : list Q) : Q := fold_right Qplus 0%Q l.
Definition qmean (l : list Q) : Q := (qsum l / inject_Z (Z.of_nat (List.length l)))%Q.

(** 796-915.  888: min of an empty list is a ValueError (the test in 890 comes
    too late). *)
Definition kgain_dataset_2_list (fs : list sframe) : result (list (list A) * list A * Q) :=
  do g <- qgroups sf_time fs;
  do s <- foldR kg_set k0 (snd g);
  match list_min (y_lens s) with
  | None => Raise ValueError
  | Some n =>
    do stack <- resplit n (y_stack s);
    if negb (nodupb (y_dts s)) then Raise PyException
    else if negb (Nat.eqb (List.length (quniq (y_ems s))) 1) then Raise PyException
    else if existsb (fun q => negb (Qle_bool 1 q)) (y_gains s) then Raise PyException
    else Ok (stack, y_mean s, qmean (y_gains s))
  end.
End Stack.
Arguments sframe : clear implicits.
Arguments nst : clear implicits.
Arguments nl_out : clear implicits.
Arguments kst : clear implicits.
