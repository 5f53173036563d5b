(** C56: fluxes and magnitudes. *)
From Coq Require Import List Arith Bool Reals String Ascii Sorting Permutation Lia Lra.
From Verif Require Import Base ComboSpec CosmicModel DqModel DarkModel UnitsModel UnitsSpec FluxModel FluxSpec FluxProofs FluxBandProofs FluxTopProofs FluxRunProofs FluxLawProofs FluxDemoProofs.
Import ListNotations.
Local Open Scope R_scope.

Theorem C56_simpson : forall x y v, increasing x -> x <> [] -> List.length y = List.length x -> (area x y v <-> v = integral y x).
Proof. exact integral_iff. Qed.
Print Assumptions C56_simpson.
Theorem C56_simpson_linear : forall s t x f g u v, increasing x -> x <> [] -> List.length f = List.length x -> List.length g = List.length x ->
  area x f u -> area x g v -> area x (lin s t f g) (s * u + t * v).
Proof. exact area_lin. Qed.
Print Assumptions C56_simpson_linear.
Theorem C56_simpson_exact : forall a b c x0 x, (2 <= List.length x)%nat -> area (x0 :: x) (map (value a b c) (x0 :: x)) (primitive a b c (last x x0) - primitive a b c x0).
Proof. exact exact_quadratic. Qed.
Print Assumptions C56_simpson_exact.
Theorem C56_simpson_bounds : forall h g x y v, 0 < h -> even_grid g h x -> (2 <= List.length x)%nat -> List.length y = List.length x -> Forall (fun u => 0 <= u) y -> area x y v ->
  h / 3 * fold_right Rplus 0 y <= v <= 4 / 3 * h * fold_right Rplus 0 y.
Proof. exact area_fair. Qed.
Print Assumptions C56_simpson_bounds.
Theorem C56_simpson_negative_refuted : exists x y v, increasing x /\ List.length y = List.length x /\ Forall (fun u => 0 <= u) y /\ area x y v /\ v < 0.
Proof. exact negative_area. Qed.
Print Assumptions C56_simpson_negative_refuted.
Theorem C56_spectrum : forall spec grid out, increasing (map fst spec) -> (read_cal_spec spec grid = Ok out <-> sampled spec grid out).
Proof. exact read_iff. Qed.
Print Assumptions C56_spectrum.
Theorem C56_spectrum_fails : forall spec grid e, read_cal_spec spec grid = Raise e <->
  grid = [] /\ e = IndexError \/ (exists g l, grid = g :: l /\ Forall (fun p => ~ (g <= fst p <= last grid g)) spec) /\ e = ValueError.
Proof. exact read_fails. Qed.
Print Assumptions C56_spectrum_fails.
Theorem C56_spectrum_own_grid : forall spec : list (R * R), increasing (map fst spec) -> spec <> [] -> sampled spec (map fst spec) (map snd spec).
Proof. exact sample_self. Qed.
Print Assumptions C56_spectrum_own_grid.
Theorem C56_spectrum_edge_refuted : exists spec grid out, increasing (map fst spec) /\ Forall (fun p => snd p = fst p) spec /\ Forall (fun x => (exists p, In p spec /\ fst p <= x) /\ exists p, In p spec /\ x <= fst p) grid /\ sampled spec grid out /\ out <> grid.
Proof. exact edges. Qed.
Print Assumptions C56_spectrum_edge_refuted.
Theorem C56_band_flux : forall t f w v, increasing w -> w <> [] -> List.length t = List.length w -> List.length f = List.length w -> (average_flux t f w v <-> v = band_flux t f w).
Proof. exact average_iff. Qed.
Print Assumptions C56_band_flux.
Theorem C56_band_flux_bounds : forall h g w t f m M v, 0 < h -> even_grid g h w -> 0 <= g -> w <> [] -> List.length t = List.length w -> List.length f = List.length w ->
  Forall (fun y => 0 <= y) t -> Forall (fun y => m <= y <= M) f -> average_flux t f w (Some v) -> m <= v <= M.
Proof. exact average_bounds. Qed.
Print Assumptions C56_band_flux_bounds.
Theorem C56_band_flux_scale : forall t f w c v, increasing w -> w <> [] -> List.length t = List.length w -> List.length f = List.length w ->
  average_flux t f w v -> average_flux t (map (fun x => x * c) f) w (option_map (fun x => x * c) v).
Proof. exact average_scale. Qed.
Print Assumptions C56_band_flux_scale.
Theorem C56_effective : forall t f w v, increasing w -> w <> [] -> List.length t = List.length w -> List.length f = List.length w -> (mean_wavelength t f w v <-> v = effective_lambda t f w).
Proof. exact mean_wavelength_iff. Qed.
Print Assumptions C56_effective.
Theorem C56_effective_bounds : forall h g w t f lo hi v, 0 < h -> even_grid g h w -> w <> [] -> List.length t = List.length w -> List.length f = List.length w ->
  Forall (fun y => 0 <= y) t -> Forall (fun y => 0 <= y) f -> 0 <= lo -> Forall (fun y => lo <= y <= hi) w -> mean_wavelength t f w (Some v) -> lo <= v <= hi.
Proof. exact wavelength_bounds. Qed.
Print Assumptions C56_effective_bounds.
Theorem C56_pivot : forall t w v, increasing w -> w <> [] -> List.length t = List.length w -> (pivot t w v <-> v = pivot_lambda t w).
Proof. exact pivot_iff. Qed.
Print Assumptions C56_pivot.
Theorem C56_pivot_bounds : forall h g w t lo hi v, 0 < h -> even_grid g h w -> w <> [] -> List.length t = List.length w -> Forall (fun y => 0 <= y) t -> 0 < lo -> Forall (fun y => lo <= y <= hi) w ->
  pivot t w (Some v) -> lo <= v <= hi.
Proof. exact pivot_bounds. Qed.
Print Assumptions C56_pivot_bounds.
Theorem C56_reference_flux : forall w f x y, increasing w -> List.length f = List.length w -> (flux_ref w f x = Ok y <-> interpolated (combine w f) x y).
Proof. exact flux_ref_iff. Qed.
Print Assumptions C56_reference_flux.
Theorem C56_color : forall t w r s lam k, increasing w -> w <> [] -> List.length t = List.length w -> List.length r = List.length w -> List.length s = List.length w ->
  (color_cor t w r lam s = Ok k <-> colour t w r s lam k).
Proof. exact colour_iff. Qed.
Print Assumptions C56_color.
Theorem C56_color_same : forall t w r c lam k, increasing w -> w <> [] -> List.length t = List.length w -> List.length r = List.length w -> c <> 0 ->
  colour t w r (map (fun x => x * c) r) lam (Some k) -> k = 1.
Proof. exact colour_same. Qed.
Print Assumptions C56_color_same.
Theorem C56_color_law : forall t w r s lam k S R0 a b, increasing w -> w <> [] -> List.length t = List.length w -> List.length r = List.length w -> List.length s = List.length w ->
  colour t w r s lam (Some k) -> average_flux t s w (Some S) -> average_flux t r w (Some R0) -> interpolated (combine w s) lam a -> interpolated (combine w r) lam b -> S = k * (a * (R0 / b)).
Proof. exact colour_law. Qed.
Print Assumptions C56_color_law.
Theorem C56_color_refuted : exists t w r s lam k S a, increasing w /\ colour t w r s lam (Some k) /\ average_flux t s w (Some S) /\ interpolated (combine w s) lam a /\ k <> 0 /\ S / k <> a.
Proof. exact colour_off. Qed.
Print Assumptions C56_color_refuted.
Theorem C56_filter : forall E c file, filter_file E c = Ok file <-> exists n, c = Some n /\ curve_of E n file.
Proof. exact file_iff. Qed.
Print Assumptions C56_filter.
Theorem C56_filter_shipped : forall E n f x, Permutation (e_dir E) (map snd colour_filters ++ other_files) -> In (n, f) colour_filters -> (curve_of E n x <-> x = f).
Proof. exact filter_shipped. Qed.
Print Assumptions C56_filter_shipped.
Theorem C56_filter_ambiguous_refuted : exists E E' a b, Permutation (e_dir E) (map snd colour_filters ++ other_files) /\ Permutation (e_dir E') (e_dir E) /\ curve_of E "F" a /\ curve_of E' "F" b /\ a <> b.
Proof. exact ambiguous. Qed.
Print Assumptions C56_filter_ambiguous_refuted.
Theorem C56_standard : forall E s p, get_calspec_file E s = Ok p <-> standard E s p.
Proof. exact standard_iff. Qed.
Print Assumptions C56_standard.
Theorem C56_star : forall E s p, star_file E s = Ok p <-> spectrum_file E s p.
Proof. exact star_iff. Qed.
Print Assumptions C56_star.
Theorem C56_app_mag : forall (img : Type) E (l : list (hframe img)) star scale m, sorted_files E ->
  (app_mag img E l star scale = Ok m <-> l <> [] /\ exists file, one_source img E file l /\ magnitude_in E file star scale m).
Proof. exact app_mag_iff. Qed.
Print Assumptions C56_app_mag.
Theorem C56_app_mag_image : forall (img : Type) E (f : hframe img) star scale m, sorted_files E ->
  (app_mag_image img E f star scale = Ok m <-> exists n file, h_cfam _ f = Some n /\ curve_of E n file /\ magnitude_in E file star scale m).
Proof. exact app_mag_image_iff. Qed.
Print Assumptions C56_app_mag_image.
Theorem C56_vega_zero : forall E file m, sorted_files E -> magnitude_in E file "Vega" 1 (Some m) -> m = 0.
Proof. exact vega_zero. Qed.
Print Assumptions C56_vega_zero.
Theorem C56_app_mag_scale : forall E file star a d, sorted_files E -> magnitude_in E file star 1 (Some a) -> magnitude_in E file star (Rpower 10 (- (2 / 5) * d)) (Some (a + d)).
Proof. exact magnitude_scale. Qed.
Print Assumptions C56_app_mag_scale.
Theorem C56_vega_mag : forall E flux file m, sorted_files E ->
  (vega_mag E flux file = Ok m <-> exists w t vp v vega, band E file w t /\ standard E "Vega" vp /\ spectrum_on E vp w v /\ average_flux t v w vega
     /\ is_magnitude (match flux, vega with Some x, Some y => if Req_EM_T y 0 then None else Some (x / y) | _, _ => None end) m).
Proof. exact vega_mag_iff. Qed.
Print Assumptions C56_vega_mag.
Theorem C56_color_cards : forall (img : Type) E (l : list (hframe img)) rs ss lam k, sorted_files E -> (determine_color_cor img E l rs ss = Ok (lam, k) <-> colour_cards img E l rs ss lam k).
Proof. exact colour_cards_iff. Qed.
Print Assumptions C56_color_cards.
Theorem C56_factor : forall img (phot : bool -> img -> result (R * R * R)) gauss E (l : list (hframe img)) mode cards k, sorted_files E ->
  (calibrate img phot gauss E l mode = (cards, Ok k) <-> factor_of img phot gauss E l mode k /\ exists u, unit_of mode u /\ cards = marked u).
Proof. exact calibrate_iff. Qed.
Print Assumptions C56_factor.
Theorem C56_factor_cards : forall img (phot : bool -> img -> result (R * R * R)) gauss E (l : list (hframe img)) mode e cards, sorted_files E -> calibrate img phot gauss E l mode = (cards, Raise e) ->
  cards = [] \/ exists u, unit_of mode u /\ cards = [("BUNIT"%string, u)].
Proof. exact calibrate_cards. Qed.
Print Assumptions C56_factor_cards.
Theorem C56_nd_ignored_refuted : exists f : hframe unit, h_fsam _ f = Some "ND475"%string /\ neutral unit f "ND0".
Proof. exact nd_ignored. Qed.
Print Assumptions C56_nd_ignored_refuted.
Theorem C56_flux : forall img (phot : bool -> img -> result (R * R * R)) E (l : list (hframe img)) k photo back d fac ferr, sorted_files E -> k_fac k = Some fac -> k_err k = Some ferr ->
  (determine_flux img phot E l k photo back = Ok d <-> flux_cards img phot E l k photo back d).
Proof. exact determine_flux_iff. Qed.
Print Assumptions C56_flux.
Theorem C56_round_trip : forall img (phot : bool -> img -> result (R * R * R)) (gauss : bool) E (f : hframe img) cards k photo back d x, sorted_files E -> photo = (if gauss then "2dgauss" else "aperture")%string -> h_colcor _ f = None ->
  star_flux img E f "flux" (Some x) -> calibrate img phot gauss E [f] "flux" = (cards, Ok k) -> determine_flux img phot E [f] k photo back = Ok d ->
  exists c e b, phot gauss (h_img _ f) = Ok (c, e, b) /\ (c <> 0 -> c_flux d = Some x /\ exists s, c_fluxerr d = Some s /\ 0 <= s /\ s ^ 2 = 2 * (x * (e / c)) ^ 2).
Proof. exact round_trip. Qed.
Print Assumptions C56_round_trip.
Theorem C56_error_refuted : forall img (phot : bool -> img -> result (R * R * R)) E (f : hframe img) n k photo back, determine_flux img phot E (repeat f (S n)) k photo back = determine_flux img phot E [f] k photo back.
Proof. exact repeated. Qed.
Print Assumptions C56_error_refuted.
Theorem C56_irradiance_refuted : exists (phot : bool -> unit -> result (R * R * R)) E (f : hframe unit) cards k d x, sorted_files E /\ calibrate unit phot false E [f] "irr" = (cards, Ok k) /\ determine_flux unit phot E [f] k "aperture" false = Ok d
  /\ star_flux unit E f "flux" (Some x) /\ c_flux d <> Some x.
Proof. exact irr_used. Qed.
Print Assumptions C56_irradiance_refuted.
Theorem C56_magnitudes_refuted : exists (phot : bool -> unit -> result (R * R * R)) E (f : hframe unit) cards k d m, sorted_files E /\ calibrate unit phot false E [f] "flux" = (cards, Ok k) /\ determine_flux unit phot E [f] k "aperture" false = Ok d
  /\ (exists s, h_target _ f = Some s /\ app_mag unit E [f] s 1 = Ok m) /\ c_mag d <> None /\ m <> None /\ c_mag d <> m.
Proof. exact two_magnitudes. Qed.
Print Assumptions C56_magnitudes_refuted.
Theorem C56_zero_point : forall img (phot : bool -> img -> result (R * R * R)) E (f : hframe img) star back zs, sorted_files E -> (zero_point img phot E f star back = Ok zs <-> zero_points img phot E f star back zs).
Proof. exact zero_point_iff. Qed.
Print Assumptions C56_zero_point.
Theorem C56_convert : forall track n fac ferr fs col, first_col fs col -> col <> 0 -> Forall (fun p => well_formed n (snd p)) fs ->
  exists out, convert_to_flux track (Some fac) (Some ferr) fs = Ok out /\ Forall2 (fun p o => fst o = fst p /\ fluxed track n (fac / col) (ferr / col) (snd p) (snd o)) fs out.
Proof. exact convert_ok. Qed.
Print Assumptions C56_convert.
Theorem C56_convert_relative : forall track n fac ferr f o i d e e', fluxed track n fac ferr f o -> pixel f i d e -> pixel o i (d * fac) e' -> d <> 0 -> fac <> 0 -> relative e' (d * fac) = relative e d + relative ferr fac.
Proof. exact relative_flux. Qed.
Print Assumptions C56_convert_relative.
Theorem C56_convert_first_refuted : exists fs out c2 f2 o2, convert_to_flux false (Some 1) (Some 0) fs = Ok out /\ nth_error fs 1 = Some (Some c2, f2) /\ nth_error out 1 = Some (Some c2, o2) /\ c2 <> 0 /\ ~ fluxed false 1 (1 / c2) (0 / c2) f2 o2.
Proof. exact first_colour. Qed.
Print Assumptions C56_convert_first_refuted.
Example C56_used : sorted_files demo /\ star_flux unit demo star "flux" (Some (5 / 4)) /\ (exists cards k, calibrate unit counts false demo [star] "flux" = (cards, Ok k)
    /\ exists d, determine_flux unit counts demo [star] k "aperture" true = Ok d /\ c_flux d = Some (5 / 4) /\ c_back d = 2)
  /\ (exists m, app_mag unit demo [star] "109 Vir" 1 = Ok (Some m)) /\ even_grid 1 1 [1; 2; 3] /\ (exists f, well_formed 1 f /\ pixel f 0 1 1).
Proof.
  split; [exact demo_sorted|]. split; [exact demo_flux|]. split.
  - destruct (demo_calibrate false "flux" (5 / 4) demo_flux) as (u & _ & CA). destruct (demo_determine (5 / 4) true) as (s & m & DF & _). exists (marked u), (star_factor (5 / 4)). split; [exact CA|]. eexists. split; [exact DF|]. split; reflexivity.
  - split; [destruct demo_mag as (m & AM & _ & IM); destruct (IM ltac:(lra)) as (y & -> & _); exists y; exact AM|]. split.
    + intros i y H. destruct i as [|[|[|i]]]; cbn in H; [injection H as <-; cbn; lra..|destruct i; discriminate].
    + exists (pix1 1 1). split; [repeat constructor; discriminate|]. split; [reflexivity|exists [Some 1], []; split; reflexivity].
Qed.
