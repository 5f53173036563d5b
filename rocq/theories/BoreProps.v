(** C71: the astrometric calibration of datasets. *)
From Coq Require Import List Arith Bool Reals ZArith Lra Lia String.
From Verif Require Import Base SpotModel SpotSpec BendModel BoreModel BoreSpec BoreProofs BoreCaseProofs.
Import ListNotations.
Local Open Scope R_scope.

(** The boresight offset of an image: the mean over the stars of its middle of their place less the place predicted, in degrees. *)
Theorem C71_boresight : forall (gauss : image -> R -> R -> result (num * num)) (sky2pix : wcs -> R -> R -> num * num),
  forall im stars ra dec ps north b, compute_boresight gauss sky2pix im stars (ra, dec) (ps, north) = Ok b <-> offset_to gauss sky2pix im stars ra dec ps north b.
Proof. exact (@bore_ok). Qed.
Print Assumptions C71_boresight.
(** In a flat sky: what is measured of a frame that points elsewhere than its header tells. *)
Theorem C71_pointing : forall (gauss : image -> R -> R -> result (num * num)) (sky2pix : wcs -> R -> R -> num * num),
  forall q im stars ra dec ps north ra1 dec1 w w1, points im ra dec ps north w -> points im ra1 dec1 ps north w1 -> ps <> 0 -> (exists st, In st stars /\ in_middle im st) ->
    (forall st, In st stars -> in_middle im st -> exists x y x1 y1, sky2pix w (s_ra st) (s_dec st) = (Some x, Some y) /\ flat_at q w (s_ra st) (s_dec st) x y /\ gauss im (s_x st) (s_y st) = Ok (Some x1, Some y1) /\ flat_at q w1 (s_ra st) (s_dec st) x1 y1) ->
    compute_boresight gauss sky2pix im stars (ra, dec) (ps, north) =
      Ok (Some (sin (north * PI / 180) * (dec - dec1) - cos (north * PI / 180) * ((ra - ra1) * q)), Some (sin (north * PI / 180) * ((ra - ra1) * q) + cos (north * PI / 180) * (dec - dec1))).
Proof. exact (@pointing). Qed.
Print Assumptions C71_pointing.
(** With north up, the declination is corrected to the true one, and the right ascension by as much as it was wrong, but away. *)
Theorem C71_north_up : forall solve gauss sky2pix q f stars ra dec ps ra1 dec1 w w1, g_ra f = Some ra -> g_dec f = Some dec -> solve f = Ok (stars, (ps, 0)) ->
  points (g_im f) ra dec ps 0 w -> points (g_im f) ra1 dec1 ps 0 w1 -> ps <> 0 -> (exists st, In st stars /\ in_middle (g_im f) st) ->
  (forall st, In st stars -> in_middle (g_im f) st -> exists x y x1 y1, sky2pix w (s_ra st) (s_dec st) = (Some x, Some y) /\ flat_at q w (s_ra st) (s_dec st) x y /\ gauss (g_im f) (s_x st) (s_y st) = Ok (Some x1, Some y1) /\ flat_at q w1 (s_ra st) (s_dec st) x1 y1) ->
  exists s, solved solve gauss sky2pix f s /\ o_corr s = (Some (ra + (ra - ra1) * q), Some dec1).
Proof. exact (@corrected_at_zero). Qed.
Print Assumptions C71_north_up.
(** A frame that points to right ascension 9 by a header that tells 10 is corrected to 11. *)
Theorem C71_right_ascension_refuted : exists solve gauss sky2pix f stars ps w1 s,
  solve f = Ok (stars, (ps, 0)) /\ points (g_im f) 9 20 ps 0 w1 /\ stars <> [] /\
  (forall st, In st stars -> in_middle (g_im f) st /\ exists x1 y1, gauss (g_im f) (s_x st) (s_y st) = Ok (Some x1, Some y1) /\ flat_at 1 w1 (s_ra st) (s_dec st) x1 y1) /\
  (forall w a d, cd11 w <> 0 -> cd22 w <> 0 -> cd12 w = 0 -> cd21 w = 0 -> exists x y, sky2pix w a d = (Some x, Some y) /\ flat_at 1 w a d x y) /\
  g_ra f = Some 10 /\ g_dec f = Some 20 /\ solved solve gauss sky2pix f s /\ o_corr s = (Some 11, Some 20).
Proof. exact (@right_ascension_refuted). Qed.
Print Assumptions C71_right_ascension_refuted.
(** What a calibration returns, and when: of separate frames. *)
Theorem C71_calibration : forall (solve : gframe -> result (list star * (R * R))) (gauss : image -> R -> R -> result (num * num)) (sky2pix : wcs -> R -> R -> num * num) (offset_of : image -> R -> R -> R -> R -> result ((R * R) * (R * R))) (sky_sep sky_pa : R -> R -> R -> R -> R) (leastsq : (list num -> result (list num)) -> list R -> result (list R)),
  forall frames fm find_distortion order perr guess data pos, frames <> [] ->
    (boresight_calibration solve gauss sky2pix offset_of sky_sep sky_pa leastsq frames fm None find_distortion order perr guess = Ok (data, pos) <->
     fits_matches fm (List.length frames) /\ exists sols dist, Forall2 (solved solve gauss sky2pix) frames sols /\
       (if find_distortion : bool then fitted offset_of sky_sep sky_pa leastsq perr guess order frames sols dist else dist = (default_coeffs order, order)) /\
       (forall s, In s sols -> fst (o_corr s) <> None) /\ summary sols dist data /\ pos = map o_corr sols).
Proof. exact (@calibration). Qed.
Print Assumptions C71_calibration.
(** When a calibration without a fit of distortion is refused, and how. *)
Theorem C71_refused : forall (solve : gframe -> result (list star * (R * R))) (gauss : image -> R -> R -> result (num * num)) (sky2pix : wcs -> R -> R -> num * num) (offset_of : image -> R -> R -> R -> R -> result ((R * R) * (R * R))) (sky_sep sky_pa : R -> R -> R -> R -> R) (leastsq : (list num -> result (list num)) -> list R -> result (list R)),
  forall frames fm order perr guess e, frames <> [] ->
    (boresight_calibration solve gauss sky2pix offset_of sky_sep sky_pa leastsq frames fm None false order perr guess = Raise e <->
     (~ fits_matches fm (List.length frames) /\ e = TypeError) \/
     (fits_matches fm (List.length frames) /\
       ((exists l1 f l2, frames = l1 ++ f :: l2 /\ fails solve gauss f e /\ forall g, In g l1 -> exists s, solved solve gauss sky2pix g s) \/
        (e = ValueError /\ exists sols s, Forall2 (solved solve gauss sky2pix) frames sols /\ In s sols /\ fst (o_corr s) = None)))).
Proof. exact (@calibration_refused). Qed.
Print Assumptions C71_refused.
(** A frame without a star in its middle is not calibrated: its corrected position cannot be written. *)
Theorem C71_no_central : forall (solve : gframe -> result (list star * (R * R))) (gauss : image -> R -> R -> result (num * num)) (sky2pix : wcs -> R -> R -> num * num) (offset_of : image -> R -> R -> R -> R -> result ((R * R) * (R * R))) (sky_sep sky_pa : R -> R -> R -> R -> R) (leastsq : (list num -> result (list num)) -> list R -> result (list R)),
  forall frames fm k find_distortion order perr guess f ra dec stars props, frames = [f] -> g_ra f = Some ra -> g_dec f = Some dec -> solve f = Ok (stars, props) -> (forall st, In st stars -> ~ in_middle (g_im f) st) -> k = None ->
    exists e, boresight_calibration solve gauss sky2pix offset_of sky_sep sky_pa leastsq frames fm k find_distortion order perr guess = Raise e.
Proof. exact (@no_central). Qed.
Print Assumptions C71_no_central.
(** The combination of frames: consecutive groups, their means, the pointings of their first frames, the names of the frames after them. *)
Theorem C71_groups : forall k frames, (0 < k)%nat -> frames <> [] -> exists out, combine_from (List.length frames) k frames 0 = Ok out /\ combined k frames out.
Proof. exact (@combine_ok). Qed.
Print Assumptions C71_groups.
(** As many means as groups of [k] are needed for the frames. *)
Theorem C71_count : forall k frames out, (0 < k)%nat -> combined k frames out -> ((List.length out - 1) * k < List.length frames <= List.length out * k)%nat.
Proof. exact (@combined_count). Qed.
Print Assumptions C71_count.
(** Combined frames are calibrated as frames. *)
Theorem C71_combined : forall (solve : gframe -> result (list star * (R * R))) (gauss : image -> R -> R -> result (num * num)) (sky2pix : wcs -> R -> R -> num * num) (offset_of : image -> R -> R -> R -> R -> result ((R * R) * (R * R))) (sky_sep sky_pa : R -> R -> R -> R -> R) (leastsq : (list num -> result (list num)) -> list R -> result (list R)),
  forall frames fm k order perr guess data pos, frames <> [] -> (0 < k)%nat ->
    exists means, combined k frames means /\
    (boresight_calibration solve gauss sky2pix offset_of sky_sep sky_pa leastsq frames fm (Some k) false order perr guess = Ok (data, pos) <->
     fits_matches fm (List.length frames) /\ exists sols, Forall2 (solved solve gauss sky2pix) means sols /\ (forall s, In s sols -> fst (o_corr s) <> None) /\ summary sols (default_coeffs order, order) data /\ pos = map o_corr sols).
Proof. exact (@calibration_combined). Qed.
Print Assumptions C71_combined.
(** A fit of distortion of combined frames is refused. *)
Theorem C71_combined_distortion : forall (solve : gframe -> result (list star * (R * R))) (gauss : image -> R -> R -> result (num * num)) (sky2pix : wcs -> R -> R -> num * num) (offset_of : image -> R -> R -> R -> R -> result ((R * R) * (R * R))) (sky_sep sky_pa : R -> R -> R -> R -> R) (leastsq : (list num -> result (list num)) -> list R -> result (list R)),
  forall frames fm k order perr guess, (1 < k)%nat -> (1 < List.length frames)%nat -> exists e, boresight_calibration solve gauss sky2pix offset_of sky_sep sky_pa leastsq frames fm (Some k) true order perr guess = Raise e.
Proof. exact (@combined_distortion). Qed.
Print Assumptions C71_combined_distortion.
(** The pairs of stars of the fit of distortion. *)
Theorem C71_pairs : forall (offset_of : image -> R -> R -> R -> R -> result ((R * R) * (R * R))) (sky_sep sky_pa : R -> R -> R -> R -> R),
  forall perr frames sols ps, format_inputs offset_of sky_sep sky_pa perr frames (map o_stars sols) (map o_target sols) = Ok ps <-> formatted offset_of sky_sep sky_pa perr frames sols ps.
Proof. exact (@format_ok). Qed.
Print Assumptions C71_pairs.
(** An offset of two stars is asked for from the second on: to a place where no star need be. *)
Theorem C71_offset_refuted : exists (offset_of : image -> R -> R -> R -> R -> result ((R * R) * (R * R))) stars t st,
  In t stars /\ In st stars /\
  (forall im s1 s2, In s1 stars -> In s2 stars -> offset_of im (s_x s1) (s_y s1) (s_x s2 - s_x s1) (s_y s2 - s_y s1) = Ok ((s_x s2 - s_x s1, s_y s2 - s_y s1), (0, 0))) /\
  (forall sky_sep sky_pa perr im p, ~ paired offset_of sky_sep sky_pa perr im t st p).
Proof. exact (@offset_refuted). Qed.
Print Assumptions C71_offset_refuted.
(** The mean north angle of two frames turned by 179 and by -179 degrees is zero. *)
Theorem C71_north_refuted : exists solve gauss sky2pix f1 f2 stars data pos,
  solve f1 = Ok (stars, (1, 179)) /\ solve f2 = Ok (stars, (1, -179)) /\
  (forall offset_of sky_sep sky_pa leastsq, boresight_calibration solve gauss sky2pix offset_of sky_sep sky_pa leastsq [f1; f2] None None false 1 None None = Ok (data, pos)) /\ nth_error data 4 = Some (Some 0).
Proof. exact (@north_refuted). Qed.
Print Assumptions C71_north_refuted.

(** Two frames with north angles, and one star in the middle each: see C71_north_refuted; a field in a flat sky: see
    C71_right_ascension_refuted.  Three frames by two. *)
Example C71_groups_example : combine_from 3 2 [at_a; at_b; at_b] 0 = Ok [mkg (mean_image [at_a; at_b]) (Some 10) (Some 20) "b"; mkg (mean_image [at_b]) (Some 10) (Some 20) "b"]%string.
Proof. reflexivity. Qed.
Example C71_no_central_example : ~ in_middle eight (mkstar 1 4 10 20).
Proof. unfold in_middle. cbn. lra. Qed.
