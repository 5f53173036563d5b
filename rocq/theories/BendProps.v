(** C69: the correction and the fit of distortion. *)
From Coq Require Import List Arith Bool Reals ZArith Lra Lia String.
From Verif Require Import Base SpotModel SpotSpec BendModel BendSpec BendProofs BendFitProofs BendCaseProofs.
Import ListNotations.
Local Open Scope R_scope.

(** Every pixel of the corrected image is read at its place less its displacement. *)
Theorem C69_image : forall mapc : image -> num -> num -> num, forall P im o l, legendre P -> (o <= 15)%nat -> List.length l = count_of o -> ny im = nx im ->
    exists im', bend mapc im (map Some l) (Z.of_nat o) = Ok im' /\ ny im' = ny im /\ nx im' = nx im /\
      forall i j, px im' i j = mapc im (Some (INR i - disp_y P o l (ny im) (INR j) (INR i))) (Some (INR j - disp_x P o l (ny im) (INR j) (INR i))).
Proof. exact (@bend_ok). Qed.
Print Assumptions C69_image.
(** When an image is refused. *)
Theorem C69_image_refused : forall mapc : image -> num -> num -> num, forall im cs o e, bend mapc im cs o = Raise e <->
    ((o < -1)%Z /\ e = ValueError) \/ (o = (-1)%Z /\ e = IndexError) \/ ((0 <= o)%Z /\ (List.length cs <> count_of (Z.to_nat o) \/ ny im <> nx im) /\ e = ValueError).
Proof. exact (@bend_refused). Qed.
Print Assumptions C69_image_refused.
(** From order sixteen on every pixel is read at NaN. *)
Theorem C69_high_order : forall mapc : image -> num -> num -> num, forall im cs o, (16 <= o)%nat -> List.length cs = count_of o -> ny im = nx im ->
    exists im', bend mapc im cs (Z.of_nat o) = Ok im' /\ forall i j, px im' i j = mapc im None None.
Proof. exact (@high_order). Qed.
Print Assumptions C69_high_order.
(** The polynomials are one family. *)
Theorem C69_polynomials : forall P Q, legendre P -> legendre Q -> forall n x, P n x = Q n x.
Proof. exact (@legendre_unique). Qed.
Print Assumptions C69_polynomials.
(** The units of the coefficients up to order three. *)
Theorem C69_units : forall k, (k <= 7)%nat -> unit_of k = 500 ^ k.
Proof. exact (@unit_small). Qed.
Print Assumptions C69_units.
(** Where the displacement is the way from a pixel, the value of that pixel comes. *)
Theorem C69_moves : forall mapc : image -> num -> num -> num, interpolates mapc -> forall P im v o l i j i' j', legendre P -> (o <= 15)%nat -> List.length l = count_of o -> ny im = nx im -> holds im v -> (i' < ny im)%nat -> (j' < nx im)%nat ->
    disp_y P o l (ny im) (INR j) (INR i) = INR i - INR i' -> disp_x P o l (ny im) (INR j) (INR i) = INR j - INR j' ->
    exists im', bend mapc im (map Some l) (Z.of_nat o) = Ok im' /\ px im' i j = Some (v i' j').
Proof. exact (@bend_moves). Qed.
Print Assumptions C69_moves.
(** Constant coefficients shift the image. *)
Theorem C69_shift : forall mapc : image -> num -> num -> num, interpolates mapc -> forall im v o a b, (1 <= o <= 15)%nat -> ny im = nx im -> holds im v ->
    exists im', bend mapc im (map Some (shift_coeffs o (INR a) (INR b))) (Z.of_nat o) = Ok im' /\ ny im' = ny im /\ nx im' = nx im /\
      forall i j, (i + b < ny im)%nat -> (j + a < nx im)%nat -> px im' (i + b)%nat (j + a)%nat = Some (v i j).
Proof. exact (@shift_moves). Qed.
Print Assumptions C69_shift.
(** The coefficients without distortion leave every image as it is. *)
Theorem C69_identity : forall mapc : image -> num -> num -> num, interpolates mapc -> forall im v o, (1 <= o <= 15)%nat -> ny im = nx im -> holds im v ->
    exists im', bend mapc im (map Some (default_coeffs o)) (Z.of_nat o) = Ok im' /\ ny im' = ny im /\ nx im' = nx im /\
      forall i j, (i < ny im)%nat -> (j < nx im)%nat -> px im' i j = Some (v i j).
Proof. exact (@identity). Qed.
Print Assumptions C69_identity.
(** Frame by frame: the data are mapped, errors and flags are kept, the history grows by one line. *)
Theorem C69_dataset : forall mapc : image -> num -> num -> num, forall fs cs r z out, toward_zero r z ->
    (distortion_correction mapc fs (cs ++ [Some r]) = Ok out <-> Forall2 (fun f g => bend mapc (f_data f) cs z = Ok (f_data g) /\ after f g) fs out).
Proof. exact (@corr_law). Qed.
Print Assumptions C69_dataset.
(** When a dataset is refused. *)
Theorem C69_dataset_refused : forall mapc : image -> num -> num -> num, forall fs c e, distortion_correction mapc fs c = Raise e <->
    (c = [] /\ e = IndexError) \/ (exists cs, c = cs ++ [None] /\ e = ValueError) \/
    (exists cs r z, c = cs ++ [Some r] /\ toward_zero r z /\ exists fs1 f fs2, fs = fs1 ++ f :: fs2 /\ bend mapc (f_data f) cs z = Raise e /\ forall g, In g fs1 -> exists im, bend mapc (f_data g) cs z = Ok im).
Proof. exact (@corr_refused). Qed.
Print Assumptions C69_dataset_refused.
(** What a calibration of given coefficients and order does to square frames. *)
Theorem C69_calibrated : forall mapc : image -> num -> num -> num, forall P fs l o, legendre P -> (o <= 15)%nat -> List.length l = count_of o -> Forall (fun f => ny (f_data f) = nx (f_data f)) fs ->
    exists out, distortion_correction mapc fs (distortion_part (l, o)) = Ok out /\
      Forall2 (fun f g => after f g /\ ny (f_data g) = ny (f_data f) /\ nx (f_data g) = nx (f_data f) /\
        forall i j, px (f_data g) i j = mapc (f_data f) (Some (INR i - disp_y P o l (ny (f_data f)) (INR j) (INR i))) (Some (INR j - disp_x P o l (ny (f_data f)) (INR j) (INR i)))) fs out.
Proof. exact (@corrected). Qed.
Print Assumptions C69_calibrated.
(** The residuals: of all separations, then of all angles. *)
Theorem C69_residuals : forall P o l ps rot pairs, legendre P -> (o <= 15)%nat -> List.length l = count_of o -> Forall (sound_pair ps) pairs ->
  exists rs, fit_distortion_solution (map Some l) o ps rot pairs = Ok (map Some (map fst rs ++ map snd rs)) /\ Forall2 (resides P o l ps rot) pairs rs.
Proof. exact (@fit_ok). Qed.
Print Assumptions C69_residuals.
(** Only coefficients of a wrong number are refused. *)
Theorem C69_residuals_refused : forall params o ps rot pairs e, fit_distortion_solution params o ps rot pairs = Raise e <-> List.length params <> count_of o /\ e = ValueError.
Proof. exact (@fit_refused). Qed.
Print Assumptions C69_residuals_refused.
(** The angle between direction and line is one. *)
Theorem C69_angle_unique : forall v t a b, norm v <> 0 -> line_angle v t a -> line_angle v t b -> - (PI / 2) < a -> - (PI / 2) < b -> a = b.
Proof. exact (@line_angle_unique). Qed.
Print Assumptions C69_angle_unique.
(** No residuals: exactly when the offsets lie along the directions of the sky. *)
Theorem C69_perfect : forall P o l ps rot pairs, legendre P -> (o <= 15)%nat -> List.length l = count_of o -> Forall (sound_pair ps) pairs -> Forall (fun p => 0 < p_sep p / ps) pairs ->
  (fit_distortion_solution (map Some l) o ps rot pairs = Ok (map Some (repeat 0 (List.length pairs + List.length pairs))) <-> Forall (along P o l ps rot) pairs).
Proof. exact (@fit_zero). Qed.
Print Assumptions C69_perfect.
(** Offsets as on the sky are fitted without residual. *)
Theorem C69_undistorted : forall P leastsq o ps rot pairs c o', legendre P -> no_increase leastsq -> (1 <= o <= 15)%nat -> Forall (sound_pair ps) pairs -> Forall (as_on_sky ps rot) pairs -> List.length c = count_of o ->
  compute_distortion leastsq o ps rot pairs None = Ok (c, o') -> o' = o /\ Forall (along P o c ps rot) pairs.
Proof. exact (@fit_undistorted). Qed.
Print Assumptions C69_undistorted.
(** The fit is not worse than its guess. *)
Theorem C69_no_worse : forall leastsq o ps rot pairs g c o' a b, no_increase leastsq -> compute_distortion leastsq o ps rot pairs (Some g) = Ok (c, o') ->
  fit_distortion_solution (map Some g) o ps rot pairs = Ok (map Some a) -> fit_distortion_solution (map Some c) o ps rot pairs = Ok (map Some b) -> o' = o /\ sumsq b <= sumsq a.
Proof. exact (@fit_no_worse). Qed.
Print Assumptions C69_no_worse.
(** The start without a guess has the right number of coefficients. *)
Theorem C69_start : forall o, (1 <= o)%nat -> List.length (default_coeffs o) = count_of o.
Proof. exact (@fit_start). Qed.
Print Assumptions C69_start.
(** The correction takes the displacement where the light should come to, not where it comes from: with a magnification of two the light of a pixel is not found where its distortion maps it. *)
Theorem C69_inverse_refuted : forall mapc P, interpolates mapc -> legendre P ->
  exists im v o l im', holds im v /\ ny im = nx im /\ List.length l = count_of o /\ bend mapc im (map Some l) (Z.of_nat o) = Ok im' /\
    warp_x P o l (5 - mid (ny im)) (5 - mid (ny im)) = 6 - mid (ny im) /\ warp_y P o l (5 - mid (ny im)) (5 - mid (ny im)) = 6 - mid (ny im) /\ v 5%nat 5%nat = 1 /\ px im' 6%nat 6%nat = Some 0.
Proof. exact (@inverse_refuted). Qed.
Print Assumptions C69_inverse_refuted.
(** Powers of 500 wrap in integers of 64 bits: from order 4 on the units are others. *)
Theorem C69_units_refuted : unit_of 8 <> 500 ^ 8.
Proof. exact (@unit_refuted). Qed.
Print Assumptions C69_units_refuted.
(** The start of the fit without a guess is refused at order 0. *)
Theorem C69_order_refuted : forall ps rot pairs, fit_distortion_solution (map Some (default_coeffs 0)) 0 ps rot pairs = Raise ValueError.
Proof. exact (@order_refuted). Qed.
Print Assumptions C69_order_refuted.
(** An offset the opposite way leaves no residual. *)
Theorem C69_opposite_refuted : exists p, sound_pair 1 p /\ 0 < p_sep p / 1 /\ p_dx p = p_sep p / 1 * sin (toward_sky 0 p) /\ p_dy p = - (p_sep p / 1 * cos (toward_sky 0 p)) /\
  fit_distortion_solution (map Some (default_coeffs 1)) 1 1 0 [p] = Ok [Some 0; Some 0].
Proof. exact (@opposite_refuted). Qed.
Print Assumptions C69_opposite_refuted.
(** The fit has its middle at 511, the correction of an image of 1024 rows at 512: coefficients that fit do not correct. *)
Theorem C69_centre_refuted : forall P, legendre P -> mid 1024 = 512 /\ exists o l p, sound_pair 1 p /\ fit_distortion_solution (map Some l) o 1 0 [p] = Ok [Some 0; Some 0] /\
  warp_x P o l (p_x p - mid 1024 + p_dx p) (p_y p - mid 1024 + p_dy p) - warp_x P o l (p_x p - mid 1024) (p_y p - mid 1024) = 0 /\
  warp_y P o l (p_x p - mid 1024 + p_dx p) (p_y p - mid 1024 + p_dy p) - warp_y P o l (p_x p - mid 1024) (p_y p - mid 1024) = 0 /\ p_sep p = 2.
Proof. exact (@centre_refuted). Qed.
Print Assumptions C69_centre_refuted.
(** The errors and the flags stay where they are while the data move. *)
Theorem C69_flags_refuted : forall mapc, interpolates mapc -> exists f g c, distortion_correction mapc [f] c = Ok [g] /\ px (f_data g) 1%nat 1%nat = Some 1 /\ px (f_data f) 0%nat 0%nat = Some 1 /\ px (f_data f) 1%nat 1%nat = Some 0 /\
  f_dq f 0%nat 0%nat = 4%Z /\ f_dq g 1%nat 1%nat = 0%Z.
Proof. exact (@flags_refuted). Qed.
Print Assumptions C69_flags_refuted.

(** The Legendre polynomials exist; an interpolation and a minimiser too; a pair as on the sky. *)
Example C69_example : (exists P, legendre P) /\ (exists m, interpolates m) /\ (exists q, no_increase q) /\ exists ps rot p, sound_pair ps p /\ as_on_sky ps rot p.
Proof. split; [exists leg; apply leg_legendre|]. split; [exists floor_map; apply floor_interpolates|]. split; [eexists; apply keep_start|apply pair_case]. Qed.
(** One image of four rows, shifted by one pixel. *)
Example C69_shift_example : exists im', bend floor_map (unit_image 4 0 0) (map Some (shift_coeffs 1 (INR 1) (INR 1))) 1 = Ok im' /\ px im' 1%nat 1%nat = Some 1.
Proof. destruct (shift_moves floor_map floor_interpolates (unit_image 4 0 0) _ 1%nat 1%nat 1%nat ltac:(lia) eq_refl (unit_holds 4 0 0)) as (im' & B & _ & _ & PX). exists im'. split; [exact B|]. exact (PX 0%nat 0%nat ltac:(cbn; lia) ltac:(cbn; lia)). Qed.
