(** The steps that write DQ flags or use the EM gain of each frame:
    l1_to_l2a.py correct_nonlinearity 288-331 and the flag part of
    detect_cosmic_rays 160-286; l2a_to_l2b.py dark_subtraction 45-116,
    flat_division 118-155, em_gain_division 288-327, correct_bad_pixels 347-387;
    detector.py nan_flags 573-594, flag_nans 596-613.

    A frame is its list of pixels (value, DQ) with the error layers and the
    header cards the steps read.  Frames are values here; what the copies and
    views of a dataset do is in DatasetModel.  Error maps are modelled only in
    em_gain_division (the error terms of the other steps are C16). *)
From Coq Require Import List Arith Bool QArith NArith String.
From Verif Require Import Base FloatModel NonlinModel CosmicModel.
Import ListNotations.
Local Open Scope nat_scope.

Notation px := (fl * N)%type (only parsing).
Record frame : Type := mkframe { f_px : list px; f_err : list (list fl); f_hdr : cr_header }.
Definition set_px (f : frame) (p : list px) : frame := mkframe p (f_err f) (f_hdr f).

Fixpoint mapR {A B} (f : A -> result B) (l : list A) : result (list B) :=
  match l with
  | [] => Ok []
  | x :: t => do y <- f x; do r <- mapR f t; Ok (y :: r)
  end.

(** Pointwise combination; arrays of another shape: ValueError. *)
Fixpoint zipR {A B C} (f : A -> B -> C) (l : list A) (m : list B) : result (list C) :=
  match l, m with
  | [], [] => Ok []
  | x :: t, y :: u => do r <- zipR f t u; Ok (f x y :: r)
  | _, _ => Raise ValueError
  end.

(** The choice of the EM gain in correct_nonlinearity (l1_to_l2a.py 311-318) and
    em_gain_division (l2a_to_l2b.py 307-314). *)
Definition em_gain (h : cr_header) : result Q :=
  match h_gm h with
  | Some g => Ok g
  | None => do a <- getkey (h_ga h); if negb (Qle_bool a 0) then Ok a else getkey (h_gc h)
  end.

(** The choice in add_photon_noise (l2a_to_l2b.py 23-30): missing cards are 0. *)
Definition em_gain_noise (h : cr_header) : Q :=
  match h_gm h with
  | Some g => g
  | None => let a := match h_ga h with Some a => a | None => 0%Q end in
            if negb (Qle_bool a 0) then a else match h_gc h with Some c => c | None => 0%Q end
  end.
(** l2a_to_l2b.py 33: the excess noise factor sqrt(2) is applied. *)
Definition excess_noise (h : cr_header) : bool := negb (Qle_bool (em_gain_noise h) 1).

(** l1_to_l2a.py 321-324, one frame *)
Definition nonlin_frame (cal : option relcal) (thr : fl) (f : frame) : result frame :=
  do g <- em_gain (f_hdr f);
  let flagged := map (fun p => (fst p, if fgt (fst p) thr then N.lor (snd p) 64 else snd p)) (f_px f) in
  do rel <- get_relgains cal g (map fst flagged);
  do new <- zipR (fun p r => (fmul (fst p) r, snd p)) flagged rel;
  Ok (set_px f new).

(** l1_to_l2a.py 288-331 *)
Definition correct_nonlinearity (cal : option relcal) (thr : fl) (fs : list frame) : result (list frame) :=
  match fs with
  | [] => Raise IndexError
  | f0 :: _ => match h_gc (f_hdr f0) with
               | None => Raise ValueError
               | Some _ => mapR (nonlin_frame cal thr) fs
               end
  end.

(** l2a_to_l2b.py 307-316, one frame *)
Definition gain_frame (f : frame) : result frame :=
  do g <- em_gain (f_hdr f);
  Ok (mkframe (map (fun p => (fdiv (fst p) (Fin g), snd p)) (f_px f)) (map (map (fun e => fdiv e (Fin g))) (f_err f)) (f_hdr f)).

(** l2a_to_l2b.py 288-327; the split by EMGAIN_C at 318 only chooses the history
    message but needs the card in every frame. *)
Definition em_gain_division (fs : list frame) : result (list frame) :=
  do r <- mapR gain_frame fs;
  do _ <- mapR (fun f => getkey (h_gc (f_hdr f))) fs;
  Ok r.

(** The flag part of detect_cosmic_rays on arbitrary masks (which masks and
    limits: CosmicModel). *)
Definition cosmic_px (sat : Q) (p : px) (m : bool) : px :=
  (fst p, N.lor (N.lor (snd p) (if fge (fst p) (Fin sat) then 32 else 0)) (if m then 128 else 0)).
Definition flag_frame (f : frame) (sm : Q * list bool) : result frame :=
  do new <- zipR (cosmic_px (fst sm)) (f_px f) (snd sm); Ok (set_px f new).
Fixpoint flag_frames (fs : list frame) (sms : list (Q * list bool)) : result (list frame) :=
  match fs, sms with
  | [], [] => Ok []
  | f :: t, s :: u => do x <- flag_frame f s; do r <- flag_frames t u; Ok (x :: r)
  | _, _ => Raise ValueError
  end.

(** l2a_to_l2b.py 93-104 (data and dq): the checks before it are in
    DarkModel. *)
Definition subtract_dark (dark : list px) (f : frame) : result frame :=
  do new <- zipR (fun p d => (fsub (fst p) (fst d), N.lor (snd p) (snd d))) (f_px f) dark; Ok (set_px f new).

(** l2a_to_l2b.py 132-141 (data and dq) *)
Definition divide_flat (flat : list fl) (f : frame) : result frame :=
  do new <- zipR (fun p q => (fdiv (fst p) q, if feq q (Fin 0) then N.lor (snd p) 4 else snd p)) (f_px f) flat; Ok (set_px f new).

(** l2a_to_l2b.py 347-387: both masks are cast to 8 bits. *)
Definition bad_px (p : px) (b : N) : px :=
  let m := N.lor (snd p mod 256) (b mod 256) in
  if N.eqb m 0 then (fst p, m) else (NaN, N.lor m 2).
Definition bad_frame (bp : list N) (f : frame) : result frame :=
  do new <- zipR bad_px (f_px f) bp; Ok (set_px f new).
Definition correct_bad_pixels (bp : list N) (fs : list frame) : result (list frame) := mapR (bad_frame bp) fs.

(** detector.py 573-594 (data and dq) and 596-613 *)
Definition nan_flags_frame (thr : N) (f : frame) : frame :=
  set_px f (map (fun p => (if N.leb thr (snd p) then NaN else fst p, snd p)) (f_px f)).
Definition flag_nans_frame (v : N) (f : frame) : frame :=
  set_px f (map (fun p => (fst p, if is_nan (fst p) then v else snd p)) (f_px f)).

(** A processing step on the frames of a dataset. *)
Inductive step : Type :=
| SCosmic (sms : list (Q * list bool))
| SNonlin (cal : option relcal) (thr : fl)
| SGain
| SDark (dark : list px)
| SFlat (flat : list fl)
| SNanFlags (thr : N)
| SBad (bp : list N).

Definition run_step (s : step) (fs : list frame) : result (list frame) :=
  match s with
  | SCosmic sms => flag_frames fs sms
  | SNonlin cal thr => correct_nonlinearity cal thr fs
  | SGain => em_gain_division fs
  | SDark d => mapR (subtract_dark d) fs
  | SFlat q => mapR (divide_flat q) fs
  | SNanFlags thr => Ok (map (nan_flags_frame thr) fs)
  | SBad bp => correct_bad_pixels bp fs
  end.

Fixpoint run_steps (l : list step) (fs : list frame) : result (list frame) :=
  match l with [] => Ok fs | s :: t => do r <- run_step s fs; run_steps t r end.
