(** C76: photometry of a star and the flux calibration factor. *)
From Coq Require Import List Arith Bool Reals ZArith String Lra.
From Verif Require Import Base CombineModel ComboSpec FlatModel FlatSpec NearSpec CtModel CtSpec PhotModel PhotSpec PhotProofs PhotCalProofs PhotLawProofs.
Import ListNotations.
Local Open Scope R_scope.

(** The centre: the pixel of the WCS counted from 1, the centroid around the guess, or that around the brightest pixel. *)
Theorem C76_centre : forall wcs_at s c roi g x y, centre wcs_at s c roi g = Ok (x, y) <-> placed wcs_at s c roi g x y.
Proof. exact (@placed_iff). Qed.
Print Assumptions C76_centre.
(** No centre: a WCS without an answer, an image of NaN only, or another word. *)
Theorem C76_centre_refused : forall wcs_at s c roi g e, centre wcs_at s c roi g = Raise e <-> place_refused wcs_at s c g e.
Proof. exact (@place_fails). Qed.
Print Assumptions C76_centre_refused.
(** The counts of an aperture: pixels with a share in it and no flag, background taken away, divided by the encircled energy; errors in quadrature. *)
Theorem C76_aperture : forall wcs_at lb ov s a n e b, aper_phot wcs_at lb ov s a = Ok (n, e, b) <-> apertured wcs_at lb ov s a n e b.
Proof. exact (@aper_iff). Qed.
Print Assumptions C76_aperture.
(** Every refusal of the aperture. *)
Theorem C76_aperture_refused : forall wcs_at lb ov s a e, aper_phot wcs_at lb ov s a = Raise e <-> aper_refused wcs_at lb ov s a e.
Proof. exact (@aper_fails). Qed.
Print Assumptions C76_aperture_refused.
(** The counts of the Gaussian fit, of the image less its background with flags as mask and no error of 0. *)
Theorem C76_gauss : forall wcs_at lb gf s g n e b, phot_by_gauss2d_fit wcs_at lb gf s g = Ok (n, e, b) <-> gaussed wcs_at lb gf s g n e b.
Proof. exact (@gauss_iff). Qed.
Print Assumptions C76_gauss.
(** Every refusal of the fit. *)
Theorem C76_gauss_refused_iff : forall wcs_at lb gf s g e, phot_by_gauss2d_fit wcs_at lb gf s g = Raise e <-> gauss_refused wcs_at lb gf s g e.
Proof. exact (@gauss_fails). Qed.
Print Assumptions C76_gauss_refused_iff.
(** The flux calibration factor of an aperture, its error and header, and the image as it is left. *)
Theorem C76_factor : forall wcs_at lb ov curve (curves : shot -> result curve) bf bi s what a s' p, calibrate_fluxcal_aper wcs_at lb ov curve curves bf bi s what (Some a) = (s', Ok p) ->
  exists c flux unit s1 n e b, curves s = Ok c /\ band bf bi what c flux /\ unit_of what unit /\ relabelled unit s s1 /\ apertured wcs_at lb ov s1 a n e b /\
    f_fac p = quot flux n /\ f_err p = prod (quot flux (prod n n)) e /\ density_name (t_ext s) (f_nd p) /\ card (t_ext s) "CFAMNAME" (f_filter p) /\
    with_cards (new_cards unit b) (t_ext s) (f_ext p) /\ same_pixels s s' /\ t_ext s' = f_ext p /\ with_cards [("BUNIT"%string, CText unit)] (t_errh s) (t_errh s').
Proof. exact (@aper_factor). Qed.
Print Assumptions C76_factor.
(** When there is no factor of an aperture, and with which exception. *)
Theorem C76_factor_refused : forall wcs_at lb ov curve (curves : shot -> result curve) bf bi s what a e, reads wcs_at ->
  ((exists s', calibrate_fluxcal_aper wcs_at lb ov curve curves bf bi s what (Some a) = (s', Raise e)) <->
   curves s = Raise e \/ (exists c, curves s = Ok c) /\
   ((what <> "flux"%string /\ what <> "irr"%string /\ e = ValueError) \/
    exists unit s1, unit_of what unit /\ relabelled unit s s1 /\
      (aper_refused wcs_at lb ov s1 a e \/ (exists n er b, apertured wcs_at lb ov s1 a n er b) /\ ((forall nd, ~ density_name (t_ext s) nd) \/ no_card (t_ext s) "CFAMNAME") /\ e = ValueError))).
Proof. exact (@aper_factor_fails). Qed.
Print Assumptions C76_factor_refused.
(** The same for the Gaussian fit. *)
Theorem C76_factor_gauss : forall wcs_at lb gf curve (curves : shot -> result curve) bf bi s what g s' p, calibrate_fluxcal_gauss2d wcs_at lb gf curve curves bf bi s what (Some g) = (s', Ok p) ->
  exists c flux unit s1 n e b, curves s = Ok c /\ band bf bi what c flux /\ unit_of what unit /\ relabelled unit s s1 /\ gaussed wcs_at lb gf s1 g n e b /\
    f_fac p = quot flux n /\ f_err p = prod (quot flux (prod n n)) e /\ density_name (t_ext s) (f_nd p) /\ card (t_ext s) "CFAMNAME" (f_filter p) /\
    with_cards (new_cards unit b) (t_ext s) (f_ext p) /\ same_pixels s s' /\ t_ext s' = f_ext p /\ with_cards [("BUNIT"%string, CText unit)] (t_errh s) (t_errh s').
Proof. exact (@gauss_factor). Qed.
Print Assumptions C76_factor_gauss.
(** When there is no factor of a Gaussian fit, and with which exception. *)
Theorem C76_factor_gauss_refused : forall wcs_at lb gf curve (curves : shot -> result curve) bf bi s what g e, reads wcs_at ->
  ((exists s', calibrate_fluxcal_gauss2d wcs_at lb gf curve curves bf bi s what (Some g) = (s', Raise e)) <->
   curves s = Raise e \/ (exists c, curves s = Ok c) /\
   ((what <> "flux"%string /\ what <> "irr"%string /\ e = ValueError) \/
    exists unit s1, unit_of what unit /\ relabelled unit s s1 /\
      (gauss_refused wcs_at lb gf s1 g e \/ (exists n er b, gaussed wcs_at lb gf s1 g n er b) /\ ((forall nd, ~ density_name (t_ext s) nd) \/ no_card (t_ext s) "CFAMNAME") /\ e = ValueError))).
Proof. exact (@gauss_factor_fails). Qed.
Print Assumptions C76_factor_gauss_refused.
(** The settings used when none are given. *)
Theorem C76_defaults : forall wcs_at lb ov gf curve (curves : shot -> result curve) bf bi s what,
  calibrate_fluxcal_aper wcs_at lb ov curve curves bf bi s what None = calibrate_fluxcal_aper wcs_at lb ov curve curves bf bi s what (Some (mkaset 5 1 "subpixel" 5 false 5 10 "xy" 5 None)) /\
  calibrate_fluxcal_gauss2d wcs_at lb gf curve curves bf bi s what None = calibrate_fluxcal_gauss2d wcs_at lb gf curve curves bf bi s what (Some (mkgset 3 None false 5 10 "xy" 5 None)).
Proof. exact (@defaults). Qed.
Print Assumptions C76_defaults.
(** The pixels, errors and flags of the image are never changed, whatever the outcome. *)
Theorem C76_pixels : forall curve (curves : shot -> result curve) bf bi phot s what s' r, calibrate curve curves bf bi phot s what = (s', r) -> same_pixels s s'.
Proof. exact (@left_pixels). Qed.
Print Assumptions C76_pixels.
(** The factor times the counts is the flux of the star, and its relative error is that of the counts. *)
Theorem C76_recovered : forall curve (curves : shot -> result curve) bf bi phot s what s' p n e b unit s1 c flux, calibrate curve curves bf bi phot s what = (s', Ok p) ->
  (forall s1 s2 u, relabelled u s s1 -> relabelled u s s2 -> phot s1 = phot s2) ->
  curves s = Ok c -> band bf bi what c (Some flux) -> unit_of what unit -> relabelled unit s s1 -> phot s1 = Ok (Some n, Some e, b) -> n <> 0 ->
  exists f d, f_fac p = Some f /\ f_err p = Some d /\ f * n = flux /\ d * n = f * e.
Proof. exact (@recovered). Qed.
Print Assumptions C76_recovered.
(** Light and errors k times as large: counts, error and background are k times as large. *)
Theorem C76_brighter : forall wcs_at lb ov k s s' a n e b, 0 < k -> steady_back lb -> brighter_shot k s s' -> wcs_at s' = wcs_at s -> aper_phot wcs_at lb ov s a = Ok (n, e, b) ->
  aper_phot wcs_at lb ov s' a = Ok (option_map (Rmult k) n, option_map (Rmult k) e, option_map (option_map (Rmult k)) b).
Proof. exact (@brighter_aper). Qed.
Print Assumptions C76_brighter.
(** And the factor and its error are k times smaller. *)
Theorem C76_brighter_factor : forall wcs_at lb ov curve (curves : shot -> result curve) bf bi k s s' what a s1 p, 0 < k -> steady_back lb -> reads wcs_at -> brighter_shot k s s' -> t_ext s' = t_ext s -> t_errh s' = t_errh s ->
  (forall t t', brighter_shot k t t' -> t_ext t' = t_ext t -> wcs_at t' = wcs_at t) -> curves s' = curves s ->
  calibrate_fluxcal_aper wcs_at lb ov curve curves bf bi s what (Some a) = (s1, Ok p) ->
  exists s2 p', calibrate_fluxcal_aper wcs_at lb ov curve curves bf bi s' what (Some a) = (s2, Ok p') /\ f_fac p' = option_map (Rmult (/ k)) (f_fac p) /\ f_err p' = option_map (Rmult (/ k)) (f_err p) /\ f_nd p' = f_nd p /\ f_filter p' = f_filter p.
Proof. exact (@factor_brighter). Qed.
Print Assumptions C76_brighter_factor.
(** With the centre from the WCS the values of flagged pixels do not matter, nor for the exceptions. *)
Theorem C76_flagged : forall wcs_at lb ov s s' a, a_centring a = "wcs"%string -> blind_back lb -> same_off_flags s s' -> wcs_at s' = wcs_at s -> aper_phot wcs_at lb ov s' a = aper_phot wcs_at lb ov s a.
Proof. exact (@flagged_aper). Qed.
Print Assumptions C76_flagged.
(** With the centre from the WCS a constant sky is taken away exactly. *)
Theorem C76_sky : forall wcs_at lb ov c s s' a n e v, a_centring a = "wcs"%string -> sky_back lb -> on_sky c s s' -> wcs_at s' = wcs_at s -> aper_phot wcs_at lb ov s a = Ok (n, e, Some (Some v)) ->
  aper_phot wcs_at lb ov s' a = Ok (n, e, Some (Some (v + c))).
Proof. exact (@sky_aper). Qed.
Print Assumptions C76_sky.
(** With the centre found in the image, the default, a flagged pixel moves the aperture off the star: the counts go from 8 to 0. *)
Theorem C76_flagged_refuted : forall wcs_at lb, same_off_flags (shot3 4 0 0 1) (shot3 4 0 4 1) /\
  (exists e, aper_phot wcs_at lb centre_share (shot3 4 0 0 1) (narrow false "xy") = Ok (Some 8, e, None)) /\ (exists e, aper_phot wcs_at lb centre_share (shot3 4 0 4 1) (narrow false "xy") = Ok (Some 0, e, None)).
Proof. exact (@flagged_moved). Qed.
Print Assumptions C76_flagged_refuted.
(** With the centre found in the image a constant sky moves the aperture off the star, though it is taken away: the counts go from 8 to 0. *)
Theorem C76_sky_refuted : forall wcs_at, sky_back pixel_back /\ on_sky 1 (shot3 4 0 0 0) (shot3 (4 + 1) (0 + 1) (0 + 1) 0) /\
  (exists e, aper_phot wcs_at pixel_back centre_share (shot3 4 0 0 0) (narrow true "xy") = Ok (Some 8, e, Some (Some 0))) /\
  (exists e, aper_phot wcs_at pixel_back centre_share (shot3 (4 + 1) (0 + 1) (0 + 1) 0) (narrow true "xy") = Ok (Some 0, e, Some (Some (0 + 1)))).
Proof. exact (@sky_moved). Qed.
Print Assumptions C76_sky_refuted.
(** The pixel of the WCS is counted from 1 and used as if from 0: a star of one pixel where the WCS has it gives no counts in an aperture less than a pixel wide. *)
Theorem C76_wcs_refuted : forall wcs_at lb ov s a i j v n e b, a_centring a = "wcs"%string -> a_back a = false -> 0 < a_radius a < 1 -> tight ov -> point_star s i j v -> wcs_at s = Ok (INR j, INR i) ->
  aper_phot wcs_at lb ov s a = Ok (Some n, e, b) -> n = 0.
Proof. exact (@star_missed). Qed.
Print Assumptions C76_wcs_refuted.
(** A guess whose square lies wholly before the frame is not kept: the centroid is that of nearly the whole frame. *)
Theorem C76_guess_refuted : (forall p, inside_of (row3 0 4 0) p -> -3 + INR 1 < INR (snd p)) /\ centroid (row3 0 4 0) 1 (Some (Some (-3), Some 0)) = Ok (Some 1, Some 0).
Proof. exact (@guess_far). Qed.
Print Assumptions C76_guess_refuted.
(** The image given is left as a FluxcalFactor of level CAL in the units of the factor, since it shares its header with the product. *)
Theorem C76_input_refuted : forall curve (curves : shot -> result curve) bf bi phot s what s' p, calibrate curve curves bf bi phot s what = (s', Ok p) ->
  card (t_ext s') "DATATYPE" (CText "FluxcalFactor") /\ card (t_ext s') "DATALVL" (CText "CAL") /\ exists u, unit_of what u /\ card (t_ext s') "BUNIT" (CText u) /\ card (t_errh s') "BUNIT" (CText u).
Proof. exact (@input_changed). Qed.
Print Assumptions C76_input_refuted.

(** A star of 8 counts and a flux of 16 behind a neutral density filter. *)
Example C76_used : forall lb, reads (fun _ : shot => @Ok (R * R) (0, 0)) /\ exists s' p, calibrate_fluxcal_aper (fun _ => Ok (0, 0)) lb centre_share R (fun _ => Ok 16) (@Some R) (@Some R) (shot3 4 0 0 1) "flux" (Some (narrow false "xy")) = (s', Ok p) /\ f_fac p = Some 2 /\ f_nd p = "ND225"%string.
Proof. intros lb. split; [intros s s' _ _ _; reflexivity|]. apply row_factor. intros s s' _ _ _. reflexivity. Qed.
(** A background that scales and follows the sky, one that is blind to flags, and the shares of "center". *)
Example C76_backs : steady_back pixel_back /\ sky_back pixel_back /\ blind_back (fun _ _ _ _ _ _ => Ok (Some 0)) /\ tight centre_share.
Proof.
  split; [|split; [exact (proj1 (sky_moved (fun _ => Raise ValueError)))|split; [intros r1 r2 f g m x y _ _ _; reflexivity|exact centre_tight]]].
  intros r1 r2 f g m x y k v _ (_ & _ & B) E. unfold pixel_back in *. injection E as <-. f_equal. exact (B (0, 1)%nat).
Qed.
(** A star twice as bright, one with another flagged pixel, and one seen off by a pixel. *)
Example C76_shots : brighter_shot 2 (shot3 4 0 0 1) (mkshot (row3 (2 * 4) (2 * 0) (2 * 0)) (row3 (2 * 1) (2 * 1) (2 * 1)) (t_dq (shot3 4 0 0 1)) [] []) /\ same_off_flags (shot3 4 0 0 1) (shot3 4 0 4 1) /\
  exists e, point_star (shot3 0 4 0 0) 0 1 4 /\ aper_phot (fun _ => Ok (INR 1, INR 0)) pixel_back centre_share (shot3 0 4 0 0) (narrow false "wcs") = Ok (Some 0, e, None).
Proof.
  split; [|split; [exact (proj1 (flagged_moved (fun _ => Raise ValueError) pixel_back))|exact row_missed]]. split; [split; [reflexivity|split; [reflexivity|]]; intros (i, [|[|j]]); reflexivity|]. split; [split; [reflexivity|split; [reflexivity|]]; intros (i, [|[|j]]); reflexivity|reflexivity].
Qed.
