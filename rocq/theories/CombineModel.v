(** Parent file records (data.py 468-490) and frame combination (combine.py). *)
From Coq Require Import List Arith Bool String Ascii ZArith NArith Reals.
From Verif Require Import Base DatasetModel.
Import ListNotations.
Local Open Scope string_scope.
Local Open Scope list_scope.

(** * Parent records *)

(** The part of an Image that [_record_parent_filenames] and
    [combine_subexposures] read and write: file name, the DRPNFILE card, the
    FILE0, FILE1, ... cards, NUM_FR, and the remaining cards of the four
    headers (kept as they are). *)
Record himg : Type := mkhimg {
  p_name : string;
  p_nfile : option nat;
  p_file : nat -> option string;
  p_numfr : option Z;
  p_pri : header; p_ext : header; p_errh : header; p_dqh : header
}.

(** data.py 485-486: the parents of a frame. *)
Fixpoint parents_from (file : nat -> option string) (j n : nat) : result (list string) :=
  match n with
  | 0%nat => Ok []
  | S n' => match file j with
            | None => Raise KeyError
            | Some s => do t <- parents_from file (S j) n'; Ok (s :: t)
            end
  end.

(** data.py 479-486: the names added to the set, in order of addition. *)
Fixpoint all_parents (imgs : list himg) : result (list string) :=
  match imgs with
  | [] => Ok []
  | m :: t =>
    do ps <- match p_nfile m with None => Ok [] | Some n => parents_from (p_file m) 0 n end;
    do r <- all_parents t;
    Ok (p_name m :: ps ++ r)
  end.

(** data.py 468-490.  [order] is the iteration order of the Python set: the
    theorems assume only that it lists each added name once. *)
Definition record_parents (order : list string -> list string) (m : himg) (imgs : list himg) : result himg :=
  do names <- all_parents imgs;
  let l := order names in
  Ok (mkhimg (p_name m) (Some (List.length l))
        (fun i => match nth_error l i with Some s => Some s | None => p_file m i end)
        (p_numfr m) (p_pri m) (p_ext m) (p_errh m) (p_dqh m)).

(** * Combining images *)
Local Open Scope R_scope.

(** A float pixel; None is NaN. *)
Definition val := option R.

Inductive mode : Type := Mean | Median.

Definition lower_ascii (c : ascii) : ascii :=
  let n := nat_of_ascii c in
  if (Nat.leb 65 n && Nat.leb n 90)%bool then ascii_of_nat (n + 32) else c.
Fixpoint lower (s : string) : string :=
  match s with EmptyString => EmptyString | String c t => String (lower_ascii c) (lower t) end.

(** combine.py 34-39 [collapse.lower() == ...]. *)
Definition mode_of (s : string) : option mode :=
  if String.eqb (lower s) "mean" then Some Mean
  else if String.eqb (lower s) "median" then Some Median else None.

Fixpoint somes (l : list val) : list R :=
  match l with [] => [] | Some x :: t => x :: somes t | None :: t => somes t end.

Definition rsum (l : list R) : R := fold_right Rplus 0 l.

(** np.nanmean along the frame axis, at one pixel. *)
Definition nanmean (l : list val) : val :=
  match somes l with [] => None | g => Some (rsum g / INR (List.length g)) end.

Fixpoint rinsert (x : R) (l : list R) : list R :=
  match l with [] => [x] | y :: t => if Rle_dec x y then x :: l else y :: rinsert x t end.
Definition rsort (l : list R) : list R := fold_right rinsert [] l.

(** np.nanmedian along the frame axis, at one pixel. *)
Definition nanmedian (l : list val) : val :=
  let s := rsort (somes l) in
  let n := List.length s in
  match nth_error s (n / 2), nth_error s (n / 2 - 1) with
  | Some hi, Some lo => Some (if Nat.even n then (lo + hi) / 2 else hi)
  | _, _ => None
  end.

(** Arrays are functions of the index; [n] is the number of frames.
    combine.py 8-52. *)
Section Images.
Variable n : nat.
Variable data : nat -> nat -> val.            (* frame, pixel *)
Variable err : nat -> nat -> nat -> val.      (* frame, layer, pixel *)
Variable dq : nat -> nat -> N.                (* frame, pixel *)

Definition frames_idx : list nat := seq 0 n.

(** 26-29: bad samples become NaN. *)
Definition mdata (i p : nat) : val := if N.ltb 0 (dq i p) then None else data i p.
Definition merr (i l p : nat) : val := if N.ltb 0 (dq i p) then None else err i l p.

(** 31-33 *)
Definition n_samples (p : nat) : nat :=
  fold_right (fun i s => ((if N.ltb 0 (dq i p) then 0 else 1) + s)%nat) 0%nat frames_idx.

Definition vmap (f : R -> R) (v : val) : val := match v with Some x => Some (f x) | None => None end.

(** np.sqrt(np.nanmean(err_subset**2, axis=0)) / np.sqrt(n_samples); a division
    by sqrt 0 only happens when the numerator is NaN. *)
Definition err_mean (l p : nat) : val :=
  vmap (fun x => sqrt x / sqrt (INR (n_samples p)))
       (nanmean (map (fun i => vmap (fun x => x * x) (merr i l p)) frames_idx)).

Definition scale_by (scaling : bool) (v : val) : val :=
  if scaling then vmap (fun x => x * INR n) v else v.

Definition data_collapse (m : mode) (scaling : bool) (p : nat) : val :=
  scale_by scaling
    (match m with
     | Mean => nanmean (map (fun i => mdata i p) frames_idx)
     | Median => nanmedian (map (fun i => mdata i p) frames_idx)
     end).

Definition err_collapse (m : mode) (scaling : bool) (l p : nat) : val :=
  scale_by scaling
    (match m with
     | Mean => err_mean l p
     | Median => vmap (fun x => x * sqrt (PI / 2)) (err_mean l p)
     end).

(** 47-50 *)
Definition dq_or (p : nat) : N := fold_left (fun a i => N.lor a (dq i p)) frames_idx 0%N.
Definition dq_collapse (m : mode) (scaling : bool) (p : nat) : N :=
  match data_collapse m scaling p with
  | Some _ => if N.ltb 0 (dq_or p) then 0%N else dq_or p
  | None => dq_or p
  end.
End Images.

(** * combine_subexposures, combine.py 56-108 *)

(** A frame of a dataset: its row of the three cubes and its headers. *)
Record cframe : Type := mkcframe {
  c_data : nat -> val; c_err : nat -> nat -> val; c_dq : nat -> N; c_hdr : himg
}.

Definition set_numfr (g : Z) (name : string) (m : himg) : himg :=
  mkhimg name (p_nfile m) (p_file m) (Some g) (p_pri m) (p_ext m) (p_errh m) (p_dqh m).

(** combine.py 85-105 for one group; [grp] are the frames of the group.  The
    group is not empty when the function is called. *)
Definition combine_group (order : list string -> list string) (g : Z) (m : mode) (scaling : bool)
    (grp : list cframe) : result cframe :=
  match grp, last (map Some grp) None with
  | first :: _, Some lst =>
    let n := List.length grp in
    let at_ {A} (d : A) (f : cframe -> A) (i : nat) : A :=
      match nth_error grp i with Some fr => f fr | None => d end in
    let data i := at_ (fun _ => None) c_data i in
    let err i := at_ (fun _ _ => None) c_err i in
    let dq i := at_ (fun _ => 0%N) c_dq i in
    do h <- record_parents order (set_numfr g (p_name (c_hdr lst)) (c_hdr first)) (map c_hdr grp);
    Ok (mkcframe (data_collapse n data dq m scaling)
                 (fun l p => err_collapse n err dq m scaling l p)
                 (dq_collapse n data dq m scaling) h)
  | _, _ => Raise IndexError
  end.

Fixpoint combine_groups (order : list string -> list string) (g : nat) (m : mode) (scaling : bool)
    (k i : nat) (frames : list cframe) : result (list cframe) :=
  match k with
  | 0%nat => Ok []
  | S k' =>
    do c <- combine_group order (Z.of_nat g) m scaling (slice (g * i) (g * (i + 1)) frames);
    do r <- combine_groups order g m scaling k' (S i) frames;
    Ok (c :: r)
  end.

(** update_after_processing_step only appends HISTORY (data.py 124-130). *)
Definition add_history (msg : string) (c : cframe) : cframe :=
  let m := c_hdr c in
  mkcframe (c_data c) (c_err c) (c_dq c)
    (mkhimg (p_name m) (p_nfile m) (p_file m) (p_numfr m) (p_pri m) (hset "HISTORY" msg (p_ext m)) (p_errh m) (p_dqh m)).

(** combine.py 56-108.  A zero group size is a ZeroDivisionError; a negative
    divisor gives no group, and Dataset([]) raises. *)
Definition combine_subexposures (order : list string -> list string) (history : string)
    (frames : list cframe) (num : option Z) (collapse : string) (scaling : bool) : result (list cframe) :=
  let g := match num with None => Z.of_nat (List.length frames) | Some z => z end in
  if Z.eqb g 0 then Raise PyException
  else if negb (Z.eqb (Z.modulo (Z.of_nat (List.length frames)) g) 0) then Raise ValueError
  else match mode_of collapse with
       | None => Raise ValueError
       | Some m =>
         let groups := Z.to_nat (Z.of_nat (List.length frames) / g) in
         do r <- combine_groups order (Z.to_nat g) m scaling groups 0 frames;
         match r with
         | [] => Raise ValueError
         | _ :: _ => Ok (map (add_history history) r)
         end
       end.

(** combine.py 104 [input_dataset[g*i:g*(i+1)]]: the index lists of the slices
    taken from the input, whose effect on the heap is [SplitModel.take_groups].
    The pixel values are read from copies (82-84) and the headers are copied
    (90-95), so these slices are the only effect on the input. *)
Definition group_slices (g k : nat) : list (list nat) := map (fun i => seq (g * i) g) (seq 0 k).
