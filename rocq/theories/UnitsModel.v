(** The photometric steps with their error maps: corgidrp/l2a_to_l2b.py
    add_photon_noise 8-43, flat_division 118-155, convert_to_electrons 256-286;
    l2b_to_l3.py divide_by_exptime 73-110; data.py add_error_term 528-560 and
    rescale_error 562-583 on values.

    A frame is its list of pixels, its error layers (layer 0 is the combined
    error), and the header cards read.  Numbers are reals; [None] stands for any
    value that is not a finite number (NaN or, after a division by zero,
    infinity).  Headers, history and layer names: C08, C16. *)
From Coq Require Import List Arith Bool QArith String Reals Qreals.
From Verif Require Import Base CosmicModel DqModel DarkModel.
Import ListNotations.
Local Open Scope nat_scope.

Record uframe : Type := mku { u_data : list rl; u_err : list (list rl); u_cr : cr_header; u_t : option Q }.
Definition set_u (f : uframe) (d : list rl) (e : list (list rl)) : uframe := mku d e (u_cr f) (u_t f).

Definition rmul (x y : rl) : rl := match x, y with Some a, Some b => Some (a * b)%R | _, _ => None end.
Definition rdiv (x y : rl) : rl :=
  match x, y with Some a, Some b => if Req_EM_T b 0%R then None else Some (a / b)%R | _, _ => None end.
(** np.sqrt: NaN below 0 *)
Definition rsqrt (x : rl) : rl := match x with Some a => if Rlt_dec a 0%R then None else Some (sqrt a) | None => None end.

(** data.py 541-556; [track] is corgidrp.track_individual_errors.  err[0] on an
    empty stack of layers: IndexError. *)
Definition add_error (track : bool) (e : list rl) (ndata : nat) (layers : list (list rl)) : result (list (list rl)) :=
  if negb (Nat.eqb (List.length e) ndata) then Raise ValueError
  else match layers with
  | [] => Raise IndexError
  | l0 :: rest => do l0' <- zipR quad l0 e; Ok (l0' :: rest ++ (if track then [e] else []))
  end.
(** data.py 575-579 *)
Definition rescale (s : list rl) (ndata : nat) (layers : list (list rl)) : result (list (list rl)) :=
  if negb (Nat.eqb (List.length s) ndata) then Raise ValueError else mapR (fun l => zipR rmul l s) layers.

(** l2a_to_l2b.py 21-35, one frame; the gain: DqModel.em_gain_noise. *)
Definition photon_frame (track : bool) (f : uframe) : result uframe :=
  let phot := map rsqrt (u_data f) in
  let phot := if excess_noise (u_cr f) then map (rmul (Some (sqrt 2))) phot else phot in
  do e <- add_error track phot (List.length (u_data f)) (u_err f);
  Ok (set_u f (u_data f) e).
Definition add_photon_noise (track : bool) (fs : list uframe) : result (list uframe) := mapR (photon_frame track) fs.

(** l2a_to_l2b.py 133-155, one frame.  145: the data are not yet divided. *)
Definition flat_frame (track : bool) (flat ferr : list rl) (f : uframe) : result uframe :=
  do new <- zipR rdiv (u_data f) flat;
  do e1 <- rescale (map (rdiv (Some 1%R)) flat) (List.length (u_data f)) (u_err f);
  do dfe <- zipR rmul (u_data f) ferr;
  do term <- zipR rdiv dfe (map (fun x => rmul x x) flat);
  do e2 <- add_error track term (List.length (u_data f)) e1;
  Ok (set_u f new e2).
Definition flat_division (track : bool) (flat ferr : list rl) (fs : list uframe) : result (list uframe) := mapR (flat_frame track flat ferr) fs.

(** l2a_to_l2b.py 271-280, one frame: kgain_error is zero but for layer 0. *)
Definition electrons_frame (kg kerr : R) (f : uframe) : result uframe :=
  match u_err f with
  | [] => Raise IndexError
  | l0 :: rest =>
    do e0 <- zipR (fun e d => quad (rmul (Some kg) e) (rmul d (Some kerr))) l0 (u_data f);
    Ok (set_u f (map (fun d => rmul d (Some kg)) (u_data f)) (e0 :: map (map (fun _ => Some 0%R)) rest))
  end.
Definition convert_to_electrons (kg kerr : R) (fs : list uframe) : result (list uframe) := mapR (electrons_frame kg kerr) fs.

(** l2b_to_l3.py 89-104, one frame; 1/exposure_time raises ZeroDivisionError
    (here PyException). *)
Definition exptime_frame (f : uframe) : result uframe :=
  do t <- getkey (u_t f);
  let new := map (fun d => rdiv d (Some (Q2R t))) (u_data f) in
  if Qeq_bool t 0 then Raise PyException
  else
  do e <- rescale (map (fun _ => rmul (Some (/ Q2R t)%R) (Some 1%R)) (u_data f)) (List.length (u_data f)) (u_err f);
  Ok (set_u f new e).
Definition divide_by_exptime (fs : list uframe) : result (list uframe) := mapR exptime_frame fs.
