(** C75: the measurement of companions. *)
From Coq Require Import List Arith Bool Reals ZArith String Lra.
From Verif Require Import Base DqModel CombineModel FlatModel FluxModel FluxSpec NearModel NearSpec CardModel CtModel CtSpec CompModel CompSpec CompProofs CompMainProofs CompLawProofs.
Import ListNotations.
Local Open Scope R_scope.

(** Every table returned, row by row: from the fits of the host star and of the PSF of the best throughput, the places of the companions, and one measurement for each. *)
Theorem C75_rows : forall gauss psf_at od host_mag aper gauss2d s thrp mode m kws calspec zp cand rows, thru_ok s ->
  (measure_companions gauss psf_at od host_mag aper gauss2d s thrp mode m kws calspec zp cand = Ok rows <->
   exists ct k l, scale_of gauss od s ct k /\ listed s cand l /\ Forall2 (measured gauss psf_at host_mag aper gauss2d s ct k thrp mode m kws calspec zp) l rows).
Proof. exact (@companions_iff). Qed.
Print Assumptions C75_rows.
(** Every refusal, in its order: the host star, the list, then the first companion that fails. *)
Theorem C75_refused : forall gauss psf_at od host_mag aper gauss2d s thrp mode m kws calspec zp cand e, thru_ok s ->
  (measure_companions gauss psf_at od host_mag aper gauss2d s thrp mode m kws calspec zp cand = Raise e <->
   scale_refused gauss s e \/
   exists ct k, scale_of gauss od s ct k /\
     (list_refused s cand e \/
      exists l1 c l2, listed s cand (l1 ++ c :: l2) /\ refused gauss psf_at host_mag aper gauss2d s ct k thrp mode m kws calspec zp c e /\
        forall b, In b l1 -> exists row, measured gauss psf_at host_mag aper gauss2d s ct k thrp mode m kws calspec zp b row)).
Proof. exact (@companions_fail). Qed.
Print Assumptions C75_refused.
(** Candidates are at their separation from the star, position angles counted from +y towards -x, in their order. *)
Theorem C75_places : forall star l i r, candidates_from star i l = Ok r <->
  List.length r = List.length l /\ forall k sep pa, nth_error l k = Some (sep, pa) -> exists xs ys, star = (Some xs, Some ys) /\ nth_error r k = Some (mkcomp (Index (i + k)) (xs - sep * sin (in_degrees pa)) (ys + sep * cos (in_degrees pa))).
Proof. exact (@candidates_iff). Qed.
Print Assumptions C75_places.
(** The PSF the host star is compared with: the first NaN, or else the first of the largest throughputs. *)
Theorem C75_best : forall l i, argmax l = Ok i <-> best l i.
Proof. exact (@argmax_iff). Qed.
Print Assumptions C75_best.
(** A host star q times as bright: ratios q times smaller, magnitudes relative to it 2.5 log10 q larger, the rest unchanged. *)
Theorem C75_host_law : forall gauss psf_at od host_mag aper gauss2d s g q thrp mode m kws calspec zp cand rows,
  homogeneous gauss -> linear_meter aper -> linear_meter gauss2d -> 0 < q -> thru_ok s -> brighter q (s_host s) g ->
  measure_companions gauss psf_at od host_mag aper gauss2d s thrp mode m kws calspec zp cand = Ok rows ->
  exists rows', measure_companions gauss psf_at od host_mag aper gauss2d (with_host s g) thrp mode m kws calspec zp cand = Ok rows' /\ Forall2 (fainter calspec q) rows rows'.
Proof. exact (@host_law). Qed.
Print Assumptions C75_host_law.
(** The brightness of the star of the core throughput calibration does not matter. *)
Theorem C75_calibration_law : forall gauss psf_at psf_at' od host_mag aper gauss2d s cube q thrp mode m kws calspec zp cand rows,
  homogeneous gauss -> linear_meter aper -> linear_meter gauss2d -> 0 < q -> thru_ok s -> Forall2 (brighter q) (s_cube s) cube -> psfs_brighter q psf_at psf_at' ->
  measure_companions gauss psf_at od host_mag aper gauss2d s thrp mode m kws calspec zp cand = Ok rows ->
  measure_companions gauss psf_at' od host_mag aper gauss2d (with_cube s cube) thrp mode m kws calspec zp cand = Ok rows.
Proof. exact (@calibration_law). Qed.
Print Assumptions C75_calibration_law.
(** The magnitude relative to the host star of a companion of known ratio. *)
Theorem C75_magnitudes : forall gauss psf_at od host_mag aper gauss2d s thrp mode m kws zp cand rows row r x, thru_ok s ->
  measure_companions gauss psf_at od host_mag aper gauss2d s thrp mode m kws true zp cand = Ok rows -> In row rows -> r_ratio row = Some r -> r_mag row = Some x ->
  exists h, host_mag = Ok (Some h) /\ 0 < r /\ x = h - 5 / 2 * (ln r / ln 10).
Proof. exact (@mag_law). Qed.
Print Assumptions C75_magnitudes.
(** The host star seen through a filter of density d: its peak is divided by d, not by 10^-d, and every ratio is d 10^d times, so at least ten times, too large. *)
Theorem C75_nd_refuted : forall gauss psf_at host_mag aper gauss2d s g d thrp mode m kws calspec zp cand rows,
  homogeneous gauss -> linear_meter aper -> linear_meter gauss2d -> 1 <= d -> thru_ok s -> brighter (Rpower 10 (- d)) (s_host s) g ->
  measure_companions gauss psf_at None host_mag aper gauss2d s thrp mode m kws calspec zp cand = Ok rows ->
  exists rows', measure_companions gauss psf_at (Some (fun _ _ => Some d)) host_mag aper gauss2d (with_host s g) thrp mode m kws calspec zp cand = Ok rows' /\
    Forall2 (fun a b => match r_ratio a with Some r => exists r', r_ratio b = Some r' /\ r' = r * (d * Rpower 10 d) /\ (0 < r -> 10 * r <= r') | None => r_ratio b = None end) rows rows'.
Proof. exact (@nd_wrong). Qed.
Print Assumptions C75_nd_refuted.
(** With a flux calibration but no zero point card, which nothing writes, no companion is ever measured. *)
Theorem C75_zp_refuted : forall gauss psf_at od host_mag aper gauss2d s thrp mode m kws zp cand rows, thru_ok s -> (forall z, zp <> Some (Some z)) ->
  measure_companions gauss psf_at od host_mag aper gauss2d s thrp mode m kws false zp cand = Ok rows -> rows = [].
Proof. exact (@no_zero_point). Qed.
Print Assumptions C75_zp_refuted.

(** A host star four times the PSF of the calibration and a companion half as bright, with a fit that returns its guess. *)
Example C75_used : homogeneous guess /\ linear_meter pixel_meter /\ thru_ok dots /\
  measure_companions guess (fun _ _ => Ok (dot 1)) None (Ok (Some 3)) pixel_meter pixel_meter dots "L4" 0 "gauss2d" [] true None (Some [(0, 0)]) =
  Ok [mkrow (Index 0) 0 0 (Some (PI * 1 * 3 ^ 2 / (4 * ln 2))) (Some (1 / 2)) (Some (3 - 5 / 2 * (ln (1 / 2) / ln 10)))].
Proof. exact (conj guess_homogeneous (conj pixel_linear (conj dots_ok dots_measured))). Qed.
(** The same host star, attenuated a hundredfold by a filter of density 2. *)
Example C75_nd_used : brighter (Rpower 10 (- 2)) (s_host dots) (dot (Rpower 10 (- 2) * 8)).
Proof. split; [reflexivity|]. split; reflexivity. Qed.
(** The PSFs of a calibration star twice as bright. *)
Example C75_calibration_used : Forall2 (brighter 2) (s_cube dots) [dot (2 * 2)] /\ psfs_brighter 2 (fun _ _ => Ok (dot 1)) (fun _ _ => Ok (dot (2 * 1))).
Proof. split; [constructor; [split; [reflexivity|split; reflexivity]|constructor]|]. intros x y p Q. injection Q as <-. eexists. split; [reflexivity|]. split; [reflexivity|]. split; reflexivity. Qed.
