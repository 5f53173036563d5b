(** Proofs: laws of fluxes and magnitudes. *)
From Coq Require Import List Arith Bool Reals String Ascii Sorting Permutation Lia Lra.
From Verif Require Import Base ComboSpec ComboProofs CosmicModel DqModel DqProofs DarkModel DarkProofs UnitsModel UnitsSpec UnitsProofs FluxModel FluxSpec FluxProofs FluxBandProofs FluxTopProofs FluxRunProofs.
Import ListNotations.
Local Open Scope R_scope.

(** ** Bounds on equally spaced grids *)
Lemma integral_nonneg : forall h g x b, 0 < h -> even_grid g h x -> List.length b = List.length x -> Forall (fun y => 0 <= y) b -> 0 <= integral b x.
Proof.
  intros h g x b H E L F. replace 0 with (integral (map (fun y => y * 0) b) x) by (rewrite integral_scale by exact L; ring). apply (integral_le h g); [exact H|exact E|rewrite map_length; exact L|].
  clear -F. induction F as [|y b Y F IH]; cbn; constructor; [lra|exact IH].
Qed.
Lemma quotient_bounds : forall h g w x y m M v, 0 < h -> even_grid g h w -> w <> [] -> List.length x = List.length w -> List.length y = List.length w ->
  Forall (fun b => 0 <= b) y -> Forall2 (fun a b => b * m <= a <= b * M) x y -> quotient x y w (Some v) -> m <= v <= M.
Proof.
  intros h g w x y m M v H E N LX LY FY FXY Q. pose proof (eg_inc h w g H E) as I. apply (quotient_iff x y w _ I N LX LY) in Q. unfold rdiv in Q. destruct (Req_EM_T (integral y w) 0) as [Z|Z]; [discriminate|]. injection Q as ->.
  assert (D : 0 < integral y w) by (pose proof (integral_nonneg h g w y H E LY FY); lra).
  assert (U : integral x w <= integral y w * M). { rewrite <- integral_scale by exact LY. apply (integral_le h g w); [exact H|exact E|exact LX|]. clear -FXY. induction FXY as [|a b x y B F IH]; cbn; constructor; [lra|exact IH]. }
  assert (W : integral y w * m <= integral x w). { rewrite <- integral_scale by exact LY. apply (integral_le h g w); [exact H|exact E|rewrite map_length; exact LY|]. clear -FXY. induction FXY as [|a b x y B F IH]; cbn; constructor; [lra|exact IH]. }
  split; apply (Rmult_le_reg_r (integral y w)); try exact D; unfold Rdiv; rewrite ?Rmult_assoc, ?Rinv_l by lra; lra.
Qed.
Lemma mul_nonneg : forall a b, Forall (fun y => 0 <= y) a -> Forall (fun y => 0 <= y) b -> Forall (fun y => 0 <= y) (mul a b).
Proof. intros a b F. revert b. induction F as [|x a X F IH]; intros b G; [constructor|]. destruct G as [|y b Y G]; [constructor|]. cbn. constructor; [apply Rmult_le_pos; assumption|exact (IH b G)]. Qed.
Lemma average_bounds : forall h g w t f m M v, 0 < h -> even_grid g h w -> 0 <= g -> w <> [] -> List.length t = List.length w -> List.length f = List.length w ->
  Forall (fun y => 0 <= y) t -> Forall (fun y => m <= y <= M) f -> average_flux t f w (Some v) -> m <= v <= M.
Proof.
  intros h g w t f m M v H E G N LT LF FT FF Q. assert (FW : Forall (fun y => 0 <= y) w).
  { apply Forall_forall. intros y I. apply In_nth_error in I. destruct I as (i & I). rewrite (E i y I). pose proof (pos_INR i). pose proof (Rmult_le_pos _ _ H0 (Rlt_le _ _ H)). lra. }
  apply (quotient_bounds h g w (mul (mul f t) w) (mul t w)); [exact H|exact E|exact N|len|len|apply mul_nonneg; assumption| |exact Q].
  clear -LT LF FT FF FW. assert (LA : List.length t = List.length f) by congruence. clear LF. revert t w LT LA FT FW. induction FF as [|a f A FF IH]; intros t w LT LA FT FW; destruct t as [|b t]; cbn [List.length] in LA; try discriminate; destruct w as [|x w]; cbn [List.length] in LT; try discriminate; [constructor|].
  inversion FT as [|? ? B FT']; subst. inversion FW as [|? ? X FW']; subst. cbn. constructor; [|apply IH; [congruence|congruence|assumption|assumption]].
  pose proof (Rmult_le_pos _ _ B X) as P. split; [replace (a * b * x) with (b * x * a) by ring|replace (a * b * x) with (b * x * a) by ring]; apply Rmult_le_compat_l; lra.
Qed.
Lemma wavelength_bounds : forall h g w t f lo hi v, 0 < h -> even_grid g h w -> w <> [] -> List.length t = List.length w -> List.length f = List.length w ->
  Forall (fun y => 0 <= y) t -> Forall (fun y => 0 <= y) f -> 0 <= lo -> Forall (fun y => lo <= y <= hi) w -> mean_wavelength t f w (Some v) -> lo <= v <= hi.
Proof.
  intros h g w t f lo hi v H E N LT LF FT FF G FW Q. apply (quotient_bounds h g w (mul (mul f t) (mul w w)) (mul (mul f t) w)); [exact H|exact E|exact N|len|len| | |exact Q].
  - apply mul_nonneg; [apply mul_nonneg; assumption|]. apply (Forall_impl _ (fun y Y => Rle_trans _ _ _ G (proj1 Y)) FW).
  - assert (P : Forall (fun y => 0 <= y) (mul f t)) by (apply mul_nonneg; assumption). assert (LP : List.length (mul f t) = List.length w) by len. revert LP P. generalize (mul f t) as p. clear -FW G. induction FW as [|x w X FW IH]; intros [|a p] L P; cbn [List.length] in L; try discriminate; [constructor|].
    inversion P as [|? ? A P']; subst. cbn. constructor; [|apply IH; [congruence|exact P']]. assert (PX : 0 <= a * x) by (apply Rmult_le_pos; lra). replace (a * (x * x)) with (a * x * x) by ring. split; apply Rmult_le_compat_l; lra.
Qed.
Lemma pivot_bounds : forall h g w t lo hi v, 0 < h -> even_grid g h w -> w <> [] -> List.length t = List.length w -> Forall (fun y => 0 <= y) t -> 0 < lo -> Forall (fun y => lo <= y <= hi) w ->
  pivot t w (Some v) -> lo <= v <= hi.
Proof.
  intros h g w t lo hi v H E N LT FT G FW (q & Q & K). destruct q as [x|]; [|discriminate]. destruct K as (K0 & K1). destruct (Rlt_dec x 0) as [L|L]; [discriminate (K0 L)|]. destruct (K1 ltac:(lra)) as (y & EY & Y & YX). injection EY as <-.
  assert (HH : lo <= hi) by (destruct FW as [|? ? X _]; [congruence|lra]).
  assert (B : lo ^ 2 <= x <= hi ^ 2).
  { apply (quotient_bounds h g w (mul t w) (mul t (map Rinv w))); [exact H|exact E|exact N|len|len| | |exact Q].
    - apply mul_nonneg; [exact FT|]. apply Forall_forall. intros z I. apply in_map_iff in I. destruct I as (u & <- & I). rewrite Forall_forall in FW. specialize (FW u I). apply Rlt_le. apply Rinv_0_lt_compat. lra.
    - clear -FW G LT FT. revert t LT FT. induction FW as [|x w X FW IH]; intros [|a t] L P; cbn [List.length] in L; try discriminate; [constructor|]. inversion P as [|? ? A P']; subst. cbn [map combine mul fst snd]. constructor; [|apply IH; [congruence|exact P']].
      cbn [fst snd]. assert (PX : 0 <= a * / x) by (apply Rmult_le_pos; [exact A|apply Rlt_le, Rinv_0_lt_compat; lra]). replace (a * x) with (a * / x * x ^ 2) by (field; lra).
      split; apply Rmult_le_compat_l; try exact PX; apply pow_incr; lra. }
  subst x. split.
  - destruct (Rle_dec lo v) as [|n]; [assumption|]. exfalso. assert (v ^ 2 < lo ^ 2) by (cbn [pow]; rewrite !Rmult_1_r; apply Rmult_le_0_lt_compat; lra). lra.
  - destruct (Rle_dec v hi) as [|n]; [assumption|]. exfalso. assert (hi ^ 2 < v ^ 2) by (cbn [pow]; rewrite !Rmult_1_r; apply Rmult_le_0_lt_compat; lra). lra.
Qed.
(** ** Homogeneity *)
Lemma average_scale : forall t f w c v, increasing w -> w <> [] -> List.length t = List.length w -> List.length f = List.length w ->
  average_flux t f w v -> average_flux t (map (fun x => x * c) f) w (option_map (fun x => x * c) v).
Proof.
  intros t f w c v I N LT LF A. apply average_iff in A; [|assumption..]. subst v. apply average_iff; [assumption|assumption|assumption|len|]. unfold band_flux, rdiv. rewrite !mul_scale, integral_scale by len. destruct (Req_EM_T _ 0); [reflexivity|]. cbn [option_map]. apply f_equal. field. assumption.
Qed.
Lemma interp_scale : forall c l p x, interp (fst p, snd p * c) (map (fun q => (fst q, snd q * c)) l) x = interp p l x * c.
Proof.
  intros c. induction l as [|q l IH]; intros p x; [reflexivity|]. cbn [interp map fst snd]. destruct (Rlt_dec x (fst q)); [|exact (IH q x)]. destruct (Rle_dec x (fst p)); [reflexivity|]. unfold Rdiv. ring.
Qed.
Lemma combine_scale : forall c (w f : list R), combine w (map (fun x => x * c) f) = map (fun q => (fst q, snd q * c)) (combine w f).
Proof. induction w as [|a w IH]; intros [|b f]; cbn; try reflexivity. rewrite IH. reflexivity. Qed.
Lemma interpolated_scale : forall c w f x y, increasing w -> List.length f = List.length w -> interpolated (combine w f) x y -> interpolated (combine w (map (fun z => z * c) f)) x (y * c).
Proof.
  intros c w f x y I L H. pose proof (inc_comb w f I L) as J. assert (J' : inc (combine w (map (fun z => z * c) f))) by (apply inc_comb; [exact I|len]). revert J'. rewrite combine_scale. destruct (combine w f) as [|p l]; [exfalso; exact (interpolated_none x y H)|]. intros J'. cbn [map] in *.
  apply (interp_iff l p x y J) in H. subst y. apply (proj2 (interp_iff _ (fst p, snd p * c) x _ J')). symmetry. apply interp_scale.
Qed.
(** ** Colours *)
Lemma colour_one : forall t w r s lam k k', increasing w -> w <> [] -> List.length t = List.length w -> List.length r = List.length w -> List.length s = List.length w -> colour t w r s lam k -> colour t w r s lam k' -> k = k'.
Proof. intros t w r s lam k k' I N LT LR LS A B. apply colour_iff in A; [|assumption..]. apply colour_iff in B; [|assumption..]. congruence. Qed.
Lemma colour_same : forall t w r c lam k, increasing w -> w <> [] -> List.length t = List.length w -> List.length r = List.length w -> c <> 0 ->
  colour t w r (map (fun x => x * c) r) lam (Some k) -> k = 1.
Proof.
  intros t w r c lam k I N LT LR C (a & b & A & B & K0 & K1). assert (EA : a = b * c). { apply (interpolated_one _ lam a (b * c) (inc_comb w (map (fun x => x * c) r) I ltac:(len)) A). apply interpolated_scale; assumption. } subst a.
  destruct (Req_dec b 0) as [-> |NB]; [discriminate (K0 (or_intror eq_refl))|]. assert (NA : b * c <> 0) by (apply Rmult_integral_contrapositive_currified; assumption). destruct (K1 NA NB) as (i & j & AI & AJ & J0 & J1).
  apply integral_iff in AI; [|exact I|exact N|change times with mul; len]. apply integral_iff in AJ; [|exact I|exact N|change times with mul; len]. change times with mul in *.
  assert (EI : i = j * c). { subst i j. rewrite (mul_comm (mul w t) (map _ r)), mul_scale, integral_scale by len. rewrite (mul_comm r (mul w t)). reflexivity. }
  destruct (Req_dec j 0) as [Z|Z]; [discriminate (J0 Z)|]. specialize (J1 Z). injection J1 as ->. rewrite EI. field. repeat split; assumption.
Qed.
(** Dividing the average flux of the source by K does not give its flux at the reference wavelength: it gives that flux times the ratio of average to reference flux of the reference star. *)
Lemma colour_law : forall t w r s lam k S R0 a b, increasing w -> w <> [] -> List.length t = List.length w -> List.length r = List.length w -> List.length s = List.length w ->
  colour t w r s lam (Some k) -> average_flux t s w (Some S) -> average_flux t r w (Some R0) -> interpolated (combine w s) lam a -> interpolated (combine w r) lam b -> S = k * (a * (R0 / b)).
Proof.
  intros t w r s lam k S R0 a b I N LT LR LS (a' & b' & A' & B' & K0 & K1) AS AR A B.
  assert (a' = a) by exact (interpolated_one _ lam a' a (inc_comb w s I LS) A' A). assert (b' = b) by exact (interpolated_one _ lam b' b (inc_comb w r I LR) B' B). subst a' b'.
  destruct (Req_dec a 0) as [Z|NA]; [discriminate (K0 (or_introl Z))|]. destruct (Req_dec b 0) as [Z|NB]; [discriminate (K0 (or_intror Z))|]. destruct (K1 NA NB) as (i & j & AI & AJ & J0 & J1).
  destruct (Req_dec j 0) as [Z|NJ]; [discriminate (J0 Z)|]. specialize (J1 NJ). injection J1 as ->.
  apply integral_iff in AI; [|exact I|exact N|change times with mul; len]. apply integral_iff in AJ; [|exact I|exact N|change times with mul; len]. change times with mul in *. rewrite mul_turn in AI, AJ.
  apply average_iff in AS; [|assumption..]. apply average_iff in AR; [|assumption..]. unfold band_flux, rdiv in AS, AR. destruct (Req_EM_T (integral (mul t w) w) 0) as [Z|Z]; [discriminate|]. injection AS as ->. injection AR as ->. rewrite <- AI, <- AJ. field. repeat split; assumption.
Qed.

(** ** Magnitudes *)
Lemma magnitude_in_one : forall E file star c m m', sorted_files E -> magnitude_in E file star c m -> magnitude_in E file star c m' -> m = m'.
Proof. intros E file star c m m' S A B. apply app_mag_in_iff in A; [|exact S]. apply app_mag_in_iff in B; [|exact S]. congruence. Qed.
Lemma vega_zero : forall E file m, sorted_files E -> magnitude_in E file "Vega" 1 (Some m) -> m = 0.
Proof.
  intros E file m S (w & t & sp & vp & s & v & i & j & B & P1 & P2 & P3 & P4 & AI & AJ & M). pose proof (grid_inc _ _ _ _ S B) as I. pose proof (band_length _ _ _ _ B) as LT.
  assert (sp = vp). { destruct P1 as [(F & _) | (_ & P1)]; [exfalso; destruct F as [F | (a & F)]; [discriminate|]; do 5 (destruct a as [|? a]; [discriminate|]; cbn [append] in F; try discriminate F; injection F; clear F; intros F ?)|]. apply standard_iff in P1. apply standard_iff in P2. congruence. } subst sp.
  destruct (spectrum_length _ _ _ _ P3) as (LV & N). assert (s = v) by (apply spectrum_iff in P3; [|exact S]; apply spectrum_iff in P4; [|exact S]; congruence). subst s.
  assert (i = j). { replace (map (fun x => x * 1) v) with v in AI by (clear; induction v as [|a v IH]; [reflexivity|cbn [map]; rewrite <- IH; f_equal; ring]). apply (area_one w (times v t) i j I N); [change times with mul; len|exact AI|exact AJ]. } subst i.
  destruct (Req_EM_T j 0) as [Z|Z]; [discriminate M|]. replace (j / j) with 1 in M by (field; exact Z). apply magnitude_iff in M. cbn [magnitude] in M. destruct (Rlt_dec 0 1); [|lra]. injection M as ->. rewrite ln_1. unfold Rdiv. ring.
Qed.
Lemma magnitude_scale : forall E file star a d, sorted_files E -> magnitude_in E file star 1 (Some a) -> magnitude_in E file star (Rpower 10 (- (2 / 5) * d)) (Some (a + d)).
Proof.
  intros E file star a d S (w & t & sp & vp & s & v & i & j & B & P1 & P2 & P3 & P4 & AI & AJ & M). pose proof (grid_inc _ _ _ _ S B) as I. pose proof (band_length _ _ _ _ B) as LT. destruct (spectrum_length _ _ _ _ P3) as (LV & N). destruct (spectrum_length _ _ _ _ P4) as (LS & _).
  set (c := Rpower 10 (- (2 / 5) * d)). exists w, t, sp, vp, s, v, (i * c), j. repeat (split; [assumption|]). split.
  - apply integral_iff in AI; [|exact I|exact N|change times with mul; len]. apply integral_iff; [exact I|exact N|change times with mul; len|]. subst i. change times with mul. rewrite !mul_scale, !integral_scale by len. ring.
  - split; [exact AJ|]. destruct (Req_EM_T j 0) as [Z|Z]; [discriminate M|]. destruct M as (M0 & M1). destruct (Rlt_dec 0 (i / j)) as [L|L]; [|discriminate (M0 ltac:(lra))]. destruct (M1 L) as (y & EY & X). injection EY as <-.
    assert (PC : 0 < c) by apply exp_pos. replace (i * c / j) with (i / j * c) by (field; exact Z). pose proof (Rmult_lt_0_compat _ _ L PC) as PP. split; [lra|]. intros _. exists (a + d). split; [reflexivity|]. rewrite X. unfold c. rewrite <- Rpower_plus. f_equal. ring.
Qed.

(** ** Filters of the shipped directory *)
Lemma filters_unique : forall n f y, In (n, f) colour_filters -> In y (map snd colour_filters ++ other_files) -> contains n y = true -> y = f.
Proof.
  intros n f y H J C. assert (K : forallb (fun nf => forallb (fun z => implb (contains (fst nf) z) (String.eqb z (snd nf))) (map snd colour_filters ++ other_files)) colour_filters = true) by (vm_compute; reflexivity).
  rewrite forallb_forall in K. specialize (K (n, f) H). rewrite forallb_forall in K. specialize (K y J). cbn [fst snd] in K. rewrite C in K. cbn [implb] in K. apply String.eqb_eq. exact K.
Qed.
Lemma filters_own : forall n f, In (n, f) colour_filters -> contains n f = true.
Proof.
  intros n f H. assert (K : forallb (fun nf => contains (fst nf) (snd nf)) colour_filters = true) by (vm_compute; reflexivity). rewrite forallb_forall in K. exact (K (n, f) H).
Qed.
Lemma filter_shipped : forall E n f x, Permutation (e_dir E) (map snd colour_filters ++ other_files) -> In (n, f) colour_filters -> (curve_of E n x <-> x = f).
Proof.
  intros E n f x P H. assert (IN : forall y, In y (e_dir E) <-> In y (map snd colour_filters ++ other_files)) by (intros y; split; [apply Permutation_in; exact P|apply Permutation_in; symmetry; exact P]). split.
  - intros (u & v & ED & O & _). apply (filters_unique n f x H); [apply IN; rewrite ED; apply in_or_app; right; left; reflexivity|apply contains_iff; exact O].
  - intros ->. assert (J : In f (e_dir E)) by (apply IN; apply in_or_app; left; apply in_map_iff; exists (n, f); auto). assert (K : exists z, filter_file E (Some n) = Ok z).
    { cbn. destruct (filter (contains n) (e_dir E)) as [|z r] eqn:F; [|eauto]. exfalso. assert (I : In f (filter (contains n) (e_dir E))) by (apply filter_In; split; [exact J|exact (filters_own n f H)]). rewrite F in I. destruct I. }
    destruct K as (z & K). apply file_iff in K. destruct K as (n' & EQ & K). injection EQ as <-. assert (z = f). { destruct K as (u & v & ED & O & _). apply (filters_unique n f z H); [apply IN; rewrite ED; apply in_or_app; right; left; reflexivity|apply contains_iff; exact O]. } subst z. exact K.
Qed.

(** ** Counts and fluxes *)
Section Frames.
Variable img : Type.
Variable phot : bool -> img -> result (R * R * R).
Notation hframe := (hframe img).
Lemma star_flux_one : forall E (f : hframe) mode a b, sorted_files E -> star_flux img E f mode a -> star_flux img E f mode b -> a = b.
Proof.
  intros E f mode a b S A B. assert (exists n u, h_cfam _ f = Some n /\ unit_of mode u) as (n & u & C & U).
  { destruct A as (star & n & file & w & t & p & s & _ & C & _ & _ & _ & _ & V). exists n. destruct V as [(-> & _) | (-> & _)]; eexists; (split; [exact C|]); [left|right]; split; reflexivity. }
  assert (KA : known img E f mode = Ok (n, u, a)) by (apply known_iff; auto). assert (KB : known img E f mode = Ok (n, u, b)) by (apply known_iff; auto). congruence.
Qed.
Lemma map_rep : forall A B (q : A -> B) x n, map q (repeat x n) = repeat (q x) n.
Proof. intros A B q x n. induction n as [|n IH]; [reflexivity|]. cbn [repeat map]. rewrite IH. reflexivity. Qed.
Lemma mean_repeat : forall x n, mean (repeat x (S n)) = x.
Proof.
  intros x n. unfold mean. rewrite repeat_length. assert (K : forall m, fold_right Rplus 0 (repeat x m) = INR m * x) by (intros m; induction m as [|m IH]; [cbn; ring|rewrite S_INR; cbn [repeat fold_right]; rewrite IH; ring]). rewrite K. field. apply not_0_INR. discriminate.
Qed.
(** A star calibrated with itself: the flux is that of its spectrum, the relative error is counted twice. *)
Lemma round_trip : forall (gauss : bool) E (f : hframe) cards k photo back d x, sorted_files E -> photo = (if gauss then "2dgauss" else "aperture")%string -> h_colcor _ f = None ->
  star_flux img E f "flux" (Some x) -> calibrate img phot gauss E [f] "flux" = (cards, Ok k) -> determine_flux img phot E [f] k photo back = Ok d ->
  exists c e b, phot gauss (h_img _ f) = Ok (c, e, b) /\ (c <> 0 -> c_flux d = Some x /\ exists s, c_fluxerr d = Some s /\ 0 <= s /\ s ^ 2 = 2 * (x * (e / c)) ^ 2).
Proof.
  intros gauss E f cards k photo back d x S PH CO SF CA DF. apply calibrate_iff in CA; [|exact S]. destruct CA as ((f' & r & flux & c & e & b & EQ & SF' & P & _ & _ & _ & V1) & _). injection EQ as <- <-. exists c, e, b. split; [exact P|]. intros C.
  pose proof (star_flux_one E f "flux" _ _ S SF' SF) as ->. destruct (V1 x eq_refl C) as (KF & KE). apply (determine_flux_iff img phot E [f] k photo back d _ _ S KF KE) in DF.
  destruct DF as (f0 & r & g & vs & c' & e' & b' & n & file & w & t & vp & v & vega & target & EQ & G & F2 & MC & ME & MB & _ & _ & _ & _ & _ & _ & _ & _ & _ & V). injection EQ as <- <-. rewrite KF, KE, CO in V. cbn zeta in V.
  assert (GG : g = gauss) by (destruct gauss, G as [(X & ->) | (X & ->)]; subst photo; try reflexivity; discriminate). subst g. inversion F2 as [|? v0 ? vs0 X T]; subst. inversion T; subst. rewrite P in X. injection X as <-.
  unfold is_mean_of in MC, ME. cbn in MC, ME. assert (c' = c) by lra. assert (e' = e) by lra. subst c' e'. destruct (Req_EM_T 1 0); [lra|]. destruct V as (s & VF & VE & S0 & SQ & _). split; [rewrite VF; f_equal; field; exact C|]. exists s. split; [exact VE|]. split; [exact S0|]. rewrite SQ. field. exact C.
Qed.
(** The error of the mean counts is not reduced by more frames. *)
Lemma repeated : forall E (f : hframe) n k photo back, determine_flux img phot E (repeat f (S n)) k photo back = determine_flux img phot E [f] k photo back.
Proof.
  intros E f n k photo back. cbn [repeat]. unfold determine_flux.
  assert (M : forall g, (exists v, phot g (h_img _ f) = Ok v /\ mapR (fun f => phot g (h_img _ f)) (f :: repeat f n) = Ok (repeat v (S n)) /\ mapR (fun f => phot g (h_img _ f)) [f] = Ok (repeat v 1)) \/ exists x, mapR (fun f => phot g (h_img _ f)) (f :: repeat f n) = Raise x /\ mapR (fun f => phot g (h_img _ f)) [f] = Raise x).
  { intros g. destruct (phot g (h_img _ f)) as [v|x] eqn:P; [left; exists v|right; exists x].
    - split; [reflexivity|]. split; [|cbn; rewrite P; reflexivity]. change (f :: repeat f n) with (repeat f (S n)). generalize (S n) as m. induction m as [|m IH]; [reflexivity|]. cbn [repeat mapR]. rewrite P. cbn [bind]. rewrite IH. reflexivity.
    - cbn. rewrite P. auto. }
  destruct (String.eqb photo "aperture"); [destruct (M false) as [(v & _ & -> & ->) | (x & -> & ->)]|destruct (String.eqb photo "2dgauss"); [destruct (M true) as [(v & _ & -> & ->) | (x & -> & ->)]|reflexivity]]; try reflexivity; cbn [bind];
    assert (MR : forall q : R * R * R -> R, mean (map q (repeat v (S n))) = mean (map q (repeat v 1))) by (intros q; rewrite !map_rep, !mean_repeat; reflexivity); rewrite !MR; reflexivity.
Qed.
End Frames.
(** ** Images *)
Lemma relative_flux : forall track n fac ferr f o i d e e', fluxed track n fac ferr f o -> pixel f i d e -> pixel o i (d * fac) e' -> d <> 0 -> fac <> 0 -> relative e' (d * fac) = relative e d + relative ferr fac.
Proof.
  intros track n fac ferr f o i d e e' (_ & _ & _ & F & _) P P' D K. destruct (F i d e P) as (e2 & P2 & _ & SQ). destruct P' as (_ & (l & r & E & H)). destruct P2 as (_ & (l2 & r2 & E2 & H2)). rewrite E in E2. injection E2 as <- <-. rewrite H in H2. injection H2 as <-.
  unfold relative. assert (X : e' * e' = (e * fac) ^ 2 + (d * ferr) ^ 2) by (rewrite <- SQ; ring). rewrite X. field. split; assumption.
Qed.
