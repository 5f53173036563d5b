(** Noise maps: corgidrp/darks.py calibrate_darks_lsq 263-757 (with mean_combine 10-125).

    A frame is its image, an array of FlatModel (a value is a real number or None, NaN), the first layer of its errors, its DQ and the header
    numbers that are read; EXPTIME, EMGAIN_C and KGAINPAR are present.  The frames of a dataset have one shape (its
    constructor).  Numbers are exact reals: no rounding.  CalDarksLSQException, numpy's LinAlgError and the plain Exception of
    slice_section are all [PyException].  A shape that numpy would broadcast to that of the detector is refused.  Not
    modelled: the estimates that are computed and dropped (read noise, correlation, coefficient of determination, variances and means of the image
    area), warnings, headers other than the bias offset, parents and the file name. *)
From Coq Require Import List Arith Bool Reals ZArith String.
From Verif Require Import Base CombineModel DqModel GeomModel FlatModel CtModel.
Import ListNotations.
Local Open Scope R_scope.

Record frame : Type := mkframe { f_img : img; f_err : nat -> nat -> val; f_dq : nat -> nat -> Z;
  f_time : R; f_gain : R; f_kgain : R; f_measured : option R; f_applied : option R }.

(** ** Sub-stacks, 439: split_dataset by EXPTIME, EMGAIN_C and KGAINPAR; pandas sorts the groups by their keys *)
Notation key := (R * R * R)%type (only parsing).
Definition key_of (f : frame) : key := (f_time f, f_gain f, f_kgain f).
Definition reqb (x y : R) : bool := if Req_EM_T x y then true else false.
Definition rltb (x y : R) : bool := if Rlt_dec x y then true else false.
Definition key_eqb (a b : key) : bool := reqb (fst (fst a)) (fst (fst b)) && reqb (snd (fst a)) (snd (fst b)) && reqb (snd a) (snd b).
Definition key_ltb (a b : key) : bool :=
  rltb (fst (fst a)) (fst (fst b)) || reqb (fst (fst a)) (fst (fst b)) && (rltb (snd (fst a)) (snd (fst b)) || reqb (snd (fst a)) (snd (fst b)) && rltb (snd a) (snd b)).
Fixpoint insert_key (k : key) (l : list key) : list key :=
  match l with [] => [k] | y :: t => if key_eqb k y then l else if key_ltb k y then k :: l else y :: insert_key k t end.
Definition keys (fs : list frame) : list key := fold_right (fun f l => insert_key (key_of f) l) [] fs.
Definition substacks (fs : list frame) : list (list frame) := map (fun k => filter (fun f => key_eqb (key_of f) k) fs) (keys fs).

(** ** Indices of slices *)
Definition cut (n : nat) (lo hi : Z) : list nat := pyslice lo hi (seq 0 n).
Definition among (l : list nat) (r : nat) : bool := existsb (Nat.eqb r) l.
Definition cells (f : img) (s : section) : list (nat * nat) :=
  list_prod (cut (rows f) (s_r0 s) (s_r0 s + s_rows s)) (cut (cols f) (s_c0 s) (s_c0 s + s_cols s)).

Section Calibrate.
Variable rg : regions.
(** telem_rows_start, telem_rows_end, 445-447 *)
Variable tel : Z * option Z.
Definition telem (n : nat) : list nat := cut n (fst tel) (match snd tel with Some h => h | None => Z.of_nat n end).

(** 473-479 *)
Definition gain_used (f : frame) : result R :=
  match f_measured f with
  | Some g => Ok g
  | None => match f_applied f with None => Raise KeyError | Some a => Ok (if Rlt_dec 0 a then a else f_gain f) end
  end.

(** 491-497: slice_section of the image area, in which no value may be NaN once the telemetry rows are *)
Definition isnone (v : val) : bool := match v with None => true | Some _ => false end.
Definition check_frame (f : frame) : result unit :=
  do s <- unpack_geom rg "SCI" "image";
  match cells (f_img f) s with
  | [] => Raise PyException
  | ps => if existsb (fun p => among (telem (rows (f_img f))) (fst p) || isnone (pix (f_img f) (fst p) (snd p))) ps then Raise ValueError else Ok tt
  end.

(** ** Mean of a sub-stack at one pixel, 501-513 and mean_combine 86-125: of the frames whose DQ is 0 there; 0 if there are none.
    Under the mask of a pixel bad in all frames numpy keeps the value 0 in the standard deviation as well. *)
Definition good (r c : nat) (s : list frame) : list frame := filter (fun f => Z.eqb (f_dq f r c) 0) s.
(** 497: the telemetry rows are set to 0 *)
Definition value (f : frame) (r c : nat) : val := if among (telem (rows (f_img f))) r then Some 0 else pix (f_img f) r c.
Definition allsome (l : list val) : bool := forallb (fun v => negb (isnone v)) l.
Definition average (l : list val) : val :=
  match l with [] => Some 0 | _ => if allsome l then Some (rsum (somes l) / INR (List.length l)) else None end.
Definition mean_pix (s : list frame) (r c : nat) : val := average (map (fun f => value f r c) (good r c s)).
(** 502: mean_combine with err=True *)
Definition mean_err (s : list frame) (r c : nat) : val := option_map sqrt (average (map (fun f => option_map (fun e => e ^ 2) (f_err f r c)) (good r c s))).
(** 505-506 *)
Definition stat_std (s : list frame) (r c : nat) : val :=
  match average (map (fun f => value f r c) (good r c s)) with
  | None => None
  | Some m => match good r c s with
              | [] => Some 0
              | g => option_map (fun v => sqrt v / sqrt (INR (List.length g))) (average (map (fun f => option_map (fun x => (x - m) ^ 2) (value f r c)) g))
              end
  end.
(** 507 *)
Definition total_err (s : list frame) (r c : nat) : val :=
  match mean_err s r c, stat_std s r c with Some a, Some b => Some (sqrt (a ^ 2 + b ^ 2)) | _, _ => None end.

(** 464-520: the loop over the sub-stacks; [prev] is the number of frames of the one before.  The frames have one shape, that of the detector. *)
Fixpoint gather (a : area) (prev : option nat) (ss : list (list frame)) : result (list R) :=
  match ss with
  | [] => Ok []
  | s :: t =>
    do _ <- (match prev with Some n => if Nat.eqb n (List.length s) then Ok tt else Raise PyException | None => Ok tt end);
    match s with
    | [] => Raise IndexError
    | f :: _ =>
      do g <- gain_used f;
      do _ <- mapR check_frame s;
      if forallb (fun x => (Z.of_nat (rows (f_img x)) =? a_rows a) && (Z.of_nat (cols (f_img x)) =? a_cols a))%Z s
      then do l <- gather a (Some (List.length s)) t; Ok (g :: l)
      else Raise ValueError
    end
  end.

(** ** Flags, 518-519, 523-545 *)
Definition unreliable (ss : list (list frame)) (r c : nat) : nat := List.length (filter (fun s => Nat.ltb (2 * List.length (good r c s)) (List.length s)) ss).
Definition unfittable (ss : list (list frame)) (r c : nat) : nat := List.length (filter (fun s => Nat.eqb (List.length (good r c s)) 0) ss).
Definition flag (ss : list (list frame)) (r c : nat) : Z :=
  if Nat.leb (List.length ss - 3) (unfittable ss r c) then 1 else if Nat.leb (List.length ss - 3) (unreliable ss r c) then 256 else 0.

(** ** Settings, 541-563 *)
Definition all_equal (l : list R) : bool := match l with [] => true | x :: t => forallb (reqb x) t end.
Fixpoint repeated (l : list (R * R)) : bool :=
  match l with [] => false | p :: t => existsb (fun q => reqb (fst p) (fst q) && reqb (snd p) (snd q)) t || repeated t end.
Definition settings_bad (gs ts ks : list R) : bool :=
  all_equal gs || existsb (fun g => rltb g 1) gs || all_equal ts || existsb (fun t => rltb t 0) ts || existsb (fun k => negb (rltb 0 k)) ks || repeated (combine gs ts).
(** 571-576: the first of the sub-stacks with the least product of gain and time, and the gains above its own, of which the least is taken *)
Fixpoint least (best : R * R) (l : list (R * R)) : R * R :=
  match l with [] => best | p :: t => least (if Rlt_dec (fst p * snd p) (fst best * snd best) then p else best) t end.
Definition no_gain_above (gts : list (R * R)) : bool :=
  match gts with [] => true | p :: t => forallb (fun q => negb (rltb (fst (least p t)) (fst q))) gts end.

(** ** Least squares, 588-632, at one pixel: the observations are gain, time and mean.  pinv(X) is (X^T X)^-1 X^T, and inv(X^T X), 618,
    fails if the columns of X are dependent. *)
Record normal : Type := mknormal { n11 : R; n12 : R; n13 : R; n22 : R; n23 : R; n33 : R }.
Definition sum (f : R * R -> R) (l : list (R * R)) : R := rsum (map f l).
Definition normal_of (gts : list (R * R)) : normal :=
  mknormal (sum (fun _ => 1) gts) (sum fst gts) (sum (fun p => fst p * snd p) gts)
           (sum (fun p => fst p * fst p) gts) (sum (fun p => fst p * (fst p * snd p)) gts) (sum (fun p => (fst p * snd p) * (fst p * snd p)) gts).
Definition k11 m := n22 m * n33 m - n23 m * n23 m.
Definition k12 m := n13 m * n23 m - n12 m * n33 m.
Definition k13 m := n12 m * n23 m - n13 m * n22 m.
Definition k22 m := n11 m * n33 m - n13 m * n13 m.
Definition k23 m := n12 m * n13 m - n11 m * n23 m.
Definition k33 m := n11 m * n22 m - n12 m * n12 m.
Definition det (m : normal) : R := n11 m * k11 m + n12 m * k12 m + n13 m * k13 m.
Definition sumy (f : R * R -> R) (l : list (R * R * R)) : R := rsum (map (fun o => f (fst o) * snd o) l).
Definition fit (gts : list (R * R)) (ys : list R) : R * R * R :=
  let m := normal_of gts in let obs := combine gts ys in
  let b1 := sumy (fun _ => 1) obs in let b2 := sumy fst obs in let b3 := sumy (fun p => fst p * snd p) obs in
  ((k11 m * b1 + k12 m * b2 + k13 m * b3) / det m, (k12 m * b1 + k22 m * b2 + k23 m * b3) / det m, (k13 m * b1 + k23 m * b2 + k33 m * b3) / det m).
Definition residuals (gts : list (R * R)) (ys : list R) : list R :=
  let '(F, C, D) := fit gts ys in map (fun o => snd o - (F + fst (fst o) * C + fst (fst o) * snd (fst o) * D)) (combine gts ys).
(** 614-615: the variance estimate of the frame *)
Definition sigma2 (gts : list (R * R)) (ys : list R) : R := rsum (map (fun x => x ^ 2) (residuals gts ys)) / (INR (List.length gts) - 3).

(** The means of the sub-stacks at one pixel; all NaN in the telemetry rows, 514 *)
Definition observed (n : nat) (ss : list (list frame)) (r c : nat) : option (list R) :=
  if among (telem n) r then None else let l := map (fun s => mean_pix s r c) ss in if allsome l then Some (somes l) else None.
Definition parts (n : nat) (gts : list (R * R)) (ss : list (list frame)) (r c : nat) : option ((R * R * R) * (R * R * R)) :=
  match observed n ss r c with
  | None => None
  | Some ys => let m := normal_of gts in let s2 := sigma2 gts ys in
               Some (fit gts ys, (sqrt (s2 * (k11 m / det m)), sqrt (s2 * (k22 m / det m)), sqrt (s2 * (k33 m / det m))))
  end.
(** 596 *)
Definition stacks_err (ss : list (list frame)) (r c : nat) : val :=
  let l := map (fun s => total_err s r c) ss in
  if allsome l then Some (sqrt (rsum (map (fun e => e ^ 2) (somes l)) / sqrt (INR (List.length ss)))) else None.

(** ** Bias offset, 655-681: what is left in the prescan, for one sub-stack of gain g, time t and k gain k *)
Definition left_over (n : nat) (gts : list (R * R)) (ss : list (list frame)) (d : R) (s : list frame) (g t : R) (r c : nat) : val :=
  match parts n gts ss r c, stacks_err ss r c, mean_pix s r c with
  | Some ((F, C, D), (sF, sC, sD)), Some e, Some y => Some ((y + d * Rabs e) - g * (C - d * sC) - (F - d * sF) - g * t * (D - d * sD))
  | _, _, _ => None
  end.
(** The residual itself does not involve the errors. *)
Definition left_mid (n : nat) (gts : list (R * R)) (ss : list (list frame)) (s : list frame) (g t : R) (r c : nat) : val :=
  match parts n gts ss r c, mean_pix s r c with
  | Some ((F, C, D), _), Some y => Some (y - g * C - F - g * t * D)
  | _, _ => None
  end.
Definition offset_of (ps : list (nat * nat)) (res : nat -> nat -> val) (k : R) : val := vdiv (nanmedian (map (fun p => res (fst p) (snd p)) ps)) (Some k).
Definition mean_all (l : list val) : val := if allsome l then Some (rsum (somes l) / INR (List.length l)) else None.

Record maps : Type := mkmaps { m_rows : nat; m_cols : nat; m_fpn : nat -> nat -> val; m_cic : nat -> nat -> val; m_dc : nat -> nat -> val;
  e_fpn : nat -> nat -> val; e_cic : nat -> nat -> val; e_dc : nat -> nat -> val; m_dq : nat -> nat -> Z; m_off : R; m_off_err : R }.
Definition clip (v : val) : val := option_map (fun x => if Rlt_dec x 0 then 0 else x) v.
(** max(a, b) of Python, 738 *)
Definition pymax (a b : val) : val := match a, b with Some x, Some y => Some (if Rlt_dec x y then y else x) | Some x, None => Some x | None, _ => None end.

(** 263-757.  The cards B_O and B_O_ERR cannot be NaN (astropy raises ValueError). *)
Definition calibrate_darks (fs : list frame) : result maps :=
  let ss := substacks fs in
  if Nat.leb (List.length ss) 3 then Raise PyException else
  do a <- get_area rg "SCI";
  do gs <- gather a None ss;
  let ts := map (fun s => match s with f :: _ => f_time f | [] => 0 end) ss in
  let ks := map (fun s => match s with f :: _ => f_kgain f | [] => 0 end) ss in
  if settings_bad gs ts ks then Raise PyException else
  let gts := combine gs ts in
  if no_gain_above gts then Raise ValueError else
  do g <- imaging_area_geom rg "SCI";
  if Req_EM_T (det (normal_of gts)) 0 then Raise PyException else
  do pre <- unpack_geom rg "SCI" "prescan";
  let nr := Z.to_nat (a_rows a) in let nc := Z.to_nat (a_cols a) in
  let frame0 := mkimg nr nc (fun _ _ => None) in
  match cells frame0 pre with
  | [] => Raise PyException
  | ps =>
    let '(im_rows, im_cols, r0, c0) := g in
    let in_area r c := among (cut nr r0 (r0 + im_rows)) r && among (cut nc c0 (c0 + im_cols)) c in
    let per (res : list frame -> R -> R -> nat -> nat -> val) := mean_all (map (fun x => offset_of ps (res (fst (fst x)) (fst (snd (fst x))) (snd (snd (fst x)))) (snd x)) (combine (combine ss gts) ks)) in
    let bo := per (left_mid nr gts ss) in
    let up := per (left_over nr gts ss 1) in
    let low := per (left_over nr gts ss (-1)) in
    match bo, pymax (vsub up bo) (vsub bo low) with
    | Some b, Some be =>
      Ok (mkmaps nr nc
        (fun r c => option_map (fun q => fst (fst (fst q))) (parts nr gts ss r c))
        (fun r c => clip (option_map (fun q => snd (fst (fst q))) (parts nr gts ss r c)))
        (fun r c => if in_area r c then clip (option_map (fun q => snd (fst q)) (parts nr gts ss r c)) else if among (telem nr) r then None else Some 0)
        (fun r c => option_map (fun q => fst (fst (snd q))) (parts nr gts ss r c))
        (fun r c => match parts nr gts ss r c, stacks_err ss r c with Some q, Some e => Some (sqrt (snd (fst (snd q)) ^ 2 + e ^ 2)) | _, _ => None end)
        (fun r c => if in_area r c then option_map (fun q => snd (snd q)) (parts nr gts ss r c) else Some 0)
        (flag ss) b be)
    | _, _ => Raise ValueError
    end
  end.
End Calibrate.
