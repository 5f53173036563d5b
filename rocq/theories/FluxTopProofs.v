(** Proofs: band quantities, files, magnitudes, factors. *)
From Coq Require Import List Arith Bool Reals String Ascii Sorting Lia Lra.
From Verif Require Import Base ComboSpec ComboProofs CosmicModel DqModel DqProofs DarkModel UnitsModel UnitsSpec UnitsProofs FluxModel FluxSpec FluxProofs FluxBandProofs.
Import ListNotations.
Local Open Scope R_scope.

Lemma mul_length : forall a b, List.length (mul a b) = Nat.min (List.length a) (List.length b).
Proof. intros a b. unfold mul. rewrite map_length, combine_length. reflexivity. Qed.
Ltac len := rewrite ?mul_length, ?map_length; try lia.
Lemma mul_comm : forall a b, mul a b = mul b a.
Proof. induction a as [|x a IH]; intros [|y b]; cbn; try reflexivity. unfold mul in IH. rewrite IH. f_equal. ring. Qed.
Lemma mul_assoc : forall a b c, mul (mul a b) c = mul a (mul b c).
Proof. induction a as [|x a IH]; intros [|y b] [|z c]; cbn; try reflexivity. unfold mul in IH. rewrite IH. f_equal. ring. Qed.
Lemma mul_scale : forall c a b, mul (map (fun x => x * c) a) b = map (fun x => x * c) (mul a b).
Proof. induction a as [|x a IH]; intros [|y b]; cbn; try reflexivity. unfold mul in IH. rewrite IH. f_equal. ring. Qed.
Lemma mul_turn : forall w t s, mul (mul w t) s = mul (mul s t) w.
Proof. intros w t s. rewrite (mul_comm (mul w t) s), (mul_comm w t). rewrite <- mul_assoc. reflexivity. Qed.

(** ** Band quantities *)
Lemma quotient_iff : forall x y w v, increasing w -> w <> [] -> List.length x = List.length w -> List.length y = List.length w ->
  (quotient x y w v <-> v = rdiv (Some (integral x w)) (Some (integral y w))).
Proof.
  intros x y w v I N LX LY. unfold quotient, rdiv. split.
  - intros (n & d & A & B & H0 & H1). apply (integral_iff w x n I N LX) in A. apply (integral_iff w y d I N LY) in B. subst n d. destruct (Req_EM_T (integral y w) 0); auto.
  - intros ->. exists (integral x w), (integral y w). split; [apply integral_iff; auto|]. split; [apply integral_iff; auto|]. destruct (Req_EM_T (integral y w) 0); split; intros; try contradiction; reflexivity.
Qed.
Lemma average_iff : forall t f w v, increasing w -> w <> [] -> List.length t = List.length w -> List.length f = List.length w -> (average_flux t f w v <-> v = band_flux t f w).
Proof. intros t f w v I N LT LF. unfold average_flux, band_flux. apply quotient_iff; [assumption|assumption|len|len]; change times with mul; len. Qed.
Lemma mean_wavelength_iff : forall t f w v, increasing w -> w <> [] -> List.length t = List.length w -> List.length f = List.length w -> (mean_wavelength t f w v <-> v = effective_lambda t f w).
Proof. intros t f w v I N LT LF. unfold mean_wavelength, effective_lambda. apply quotient_iff; [assumption|assumption|len|len]; change times with mul; len. Qed.
Lemma pivot_iff : forall t w v, increasing w -> w <> [] -> List.length t = List.length w -> (pivot t w v <-> v = pivot_lambda t w).
Proof.
  intros t w v I N LT. unfold pivot, pivot_lambda.
  assert (Q : forall q, quotient (times t w) (times t (map Rinv w)) w q <-> q = rdiv (Some (integral (mul t w) w)) (Some (integral (mul t (map Rinv w)) w))) by (intros q; apply quotient_iff; [assumption|assumption|change times with mul; len..]).
  set (z := rdiv _ _) in *. split.
  - intros (q & H & K). apply Q in H. subst q. destruct z as [x|]; [|exact K]. cbn [rsqrt]. destruct K as (K0 & K1). destruct (Rlt_dec x 0) as [L|L]; [exact (K0 L)|]. apply Rnot_lt_le in L. destruct (K1 L) as (y & -> & P & <-). f_equal. rewrite <- Rsqr_pow2. symmetry. apply sqrt_Rsqr. exact P.
  - intros ->. exists z. split; [apply Q; reflexivity|]. destruct z as [x|]; [|reflexivity]. cbn [rsqrt]. destruct (Rlt_dec x 0) as [L|L]; split; intros H; try lra; [reflexivity|]. exists (sqrt x). split; [reflexivity|]. split; [apply sqrt_pos|]. rewrite <- Rsqr_pow2. apply Rsqr_sqrt. exact H.
Qed.
Lemma inc_comb : forall w f : list R, increasing w -> List.length f = List.length w -> inc (combine w f).
Proof. intros w f I L. rewrite fst_combine by congruence. exact I. Qed.
Lemma flux_ref_iff : forall w f x y, increasing w -> List.length f = List.length w -> (flux_ref w f x = Ok y <-> interpolated (combine w f) x y).
Proof.
  intros w f x y I L. unfold flux_ref. pose proof (inc_comb w f I L) as J. destruct (combine w f) as [|p l]; [split; [discriminate|intros H; exfalso; exact (interpolated_none x y H)]|].
  rewrite (interp_iff l p x y J). split; [intros H; injection H as <-; reflexivity|intros ->; reflexivity].
Qed.
Lemma flux_ref_some : forall w f x, increasing w -> w <> [] -> List.length f = List.length w -> exists y, flux_ref w f x = Ok y.
Proof. intros w f x I N L. unfold flux_ref. destruct (combine w f) as [|p l] eqn:E; [exfalso; revert E; apply combine_ne; congruence|]. eexists. reflexivity. Qed.
Lemma int_div : forall a f w, List.length f = List.length w -> integral (map (fun y => y / a) f) w = integral f w / a.
Proof. intros a f w L. unfold Rdiv. apply (integral_scale (/ a) f w L). Qed.
Lemma colour_iff : forall t w r s lam k, increasing w -> w <> [] -> List.length t = List.length w -> List.length r = List.length w -> List.length s = List.length w ->
  (color_cor t w r lam s = Ok k <-> colour t w r s lam k).
Proof.
  intros t w r s lam k I N LT LR LS. unfold color_cor, colour. destruct (flux_ref_some w s lam I N LS) as (a & EA). destruct (flux_ref_some w r lam I N LR) as (b & EB). rewrite EA, EB. cbn [bind].
  pose proof (proj1 (flux_ref_iff w s lam a I LS) EA) as IA. pose proof (proj1 (flux_ref_iff w r lam b I LR) EB) as IB.
  assert (UA : forall z, interpolated (combine w s) lam z -> z = a) by (intros z Z; exact (interpolated_one _ lam z a (inc_comb w s I LS) Z IA)).
  assert (UB : forall z, interpolated (combine w r) lam z -> z = b) by (intros z Z; exact (interpolated_one _ lam z b (inc_comb w r I LR) Z IB)).
  assert (LI : List.length (mul (mul w t) s) = List.length w) by len. assert (LJ : List.length (mul (mul w t) r) = List.length w) by len.
  rewrite (int_div a _ w LI), (int_div b _ w LJ).
  assert (V : forall i j, b <> 0 -> rdiv (Some (i / a)) (Some (j / b)) = if Req_EM_T j 0 then None else Some (i / a / (j / b))).
  { intros i j B. unfold rdiv. destruct (Req_EM_T j 0) as [-> |J]; destruct (Req_EM_T _ 0) as [Z|Z]; try reflexivity; exfalso; [apply Z; field; exact B|]. apply J. apply (Rmult_eq_reg_r (/ b)); [rewrite Rmult_0_l; exact Z|apply Rinv_neq_0_compat; exact B]. }
  split.
  - intros H. apply (f_equal (fun r => match r with Ok z => z | Raise _ => None end)) in H. cbv beta iota in H. subst k. exists a, b. split; [exact IA|]. split; [exact IB|]. split.
    + intros H. destruct (Req_EM_T a 0); [reflexivity|]. destruct (Req_EM_T b 0); [reflexivity|]. tauto.
    + intros A B. destruct (Req_EM_T a 0); [contradiction|]. destruct (Req_EM_T b 0); [contradiction|]. exists (integral (mul (mul w t) s) w), (integral (mul (mul w t) r) w).
      split; [apply integral_iff; auto|]. split; [apply integral_iff; auto|]. rewrite V by exact B. destruct (Req_EM_T _ 0); split; intros; try contradiction; reflexivity.
  - intros (a' & b' & A' & B' & H0 & H1). apply UA in A'. apply UB in B'. subst a' b'. f_equal. destruct (Req_EM_T a 0) as [-> |A]; [symmetry; apply H0; left; reflexivity|]. destruct (Req_EM_T b 0) as [-> |B]; [symmetry; apply H0; right; reflexivity|].
    destruct (H1 A B) as (i & j & AI & AJ & K0 & K1). apply (integral_iff w _ i I N LI) in AI. apply (integral_iff w _ j I N LJ) in AJ. subst i j. rewrite V by exact B. change times with mul in *. destruct (Req_EM_T _ 0) as [Z|Z]; symmetry; auto.
Qed.

(** ** Magnitudes *)
Lemma ln10 : 0 < ln 10.
Proof. rewrite <- ln_1. apply ln_increasing; lra. Qed.
Lemma magnitude_iff : forall x m, is_magnitude x m <-> m = magnitude x.
Proof.
  intros [r|] m; [|reflexivity]. unfold is_magnitude, magnitude. pose proof ln10 as T. destruct (Rlt_dec 0 r) as [L|L].
  - split.
    + intros (_ & H). destruct (H L) as (y & -> & E). f_equal. subst r. unfold Rpower. rewrite ln_exp. field. lra.
    + intros ->. split; [lra|]. intros _. eexists. split; [reflexivity|]. unfold Rpower. replace (- (2 / 5) * (- (5 / 2) * (ln r / ln 10)) * ln 10) with (ln r) by (field; lra). symmetry. apply exp_ln. exact L.
  - split; [intros (H & _); apply H; lra|intros ->; split; [reflexivity|lra]].
Qed.

(** ** Files *)
Lemma prefix_iff : forall s n, prefix s n = true <-> exists b, n = (s ++ b)%string.
Proof.
  induction s as [|a s IH]; intros n; [split; [intros _; exists n; reflexivity|intros _; destruct n; reflexivity]|].
  destruct n as [|b n]; [split; [discriminate|intros (? & E); discriminate]|]. cbn [prefix]. destruct (ascii_dec a b) as [-> |NE].
  - rewrite IH. split; intros (z & E); exists z; [rewrite E; reflexivity|injection E as ->; reflexivity].
  - split; [discriminate|]. intros (z & E). cbn [append] in E. injection E as E _. congruence.
Qed.
Lemma contains_iff : forall s n, contains s n = true <-> occurs s n.
Proof.
  intros s n. unfold occurs. induction n as [|c n IH].
  - cbn [contains]. rewrite orb_false_r, prefix_iff. split; [intros (b & E); exists ""%string, b; exact E|]. intros (a & b & E). destruct a; [exists b; exact E|discriminate].
  - cbn [contains]. rewrite orb_true_iff, prefix_iff, IH. split.
    + intros [(b & E) | (a & b & E)]; [exists ""%string, b; exact E|]. exists (String c a), b. cbn [append]. rewrite E. reflexivity.
    + intros (a & b & E). destruct a as [|x a]; [left; exists b; exact E|]. right. cbn [append] in E. injection E as _ E. exists a, b. exact E.
Qed.
Lemma first_filter : forall A (p : A -> bool) l x, (exists r, filter p l = x :: r) <-> exists u v, l = u ++ x :: v /\ p x = true /\ forall y, In y u -> p y = false.
Proof.
  intros A p l x. induction l as [|y l IH].
  - split; [intros (r & E); discriminate|intros (u & v & E & _); destruct u; discriminate].
  - cbn [filter]. destruct (p y) eqn:P.
    + split.
      * intros (r & E). injection E as -> _. exists [], l. split; [reflexivity|]. split; [exact P|intros ? []].
      * intros (u & v & E & PX & U). destruct u as [|z u]; [injection E as -> ->; eexists; reflexivity|]. injection E as -> E. rewrite (U z (or_introl eq_refl)) in P. discriminate.
    + rewrite IH. split.
      * intros (u & v & -> & PX & U). exists (y :: u), v. split; [reflexivity|]. split; [exact PX|]. intros z [-> | I]; [exact P|exact (U z I)].
      * intros (u & v & E & PX & U). destruct u as [|z u]; [injection E as -> ->; congruence|]. injection E as -> E. exists u, v. split; [exact E|]. split; [exact PX|]. intros w I. apply U. right. exact I.
Qed.
Lemma file_iff : forall E c file, filter_file E c = Ok file <-> exists n, c = Some n /\ curve_of E n file.
Proof.
  intros E [n|] file; cbn; [|split; [discriminate|intros (n & H & _); discriminate]].
  assert (K : (exists r, filter (contains n) (e_dir E) = file :: r) <-> curve_of E n file).
  { rewrite first_filter. unfold curve_of. split; intros (u & v & H & P & U); exists u, v; (split; [exact H|]); (split; [apply contains_iff; exact P|]); intros y I; specialize (U y I).
    - intros O. apply contains_iff in O. congruence.
    - destruct (contains n y) eqn:C; [exfalso; apply U; apply contains_iff; exact C|reflexivity]. }
  destruct (filter (contains n) (e_dir E)) as [|x r] eqn:F.
  - split; [discriminate|]. intros (n' & H & C). injection H as <-. apply K in C. destruct C as (r & C). discriminate.
  - split.
    + intros H. injection H as <-. exists n. split; [reflexivity|]. apply K. exists r. reflexivity.
    + intros (n' & H & C). injection H as <-. apply K in C. destruct C as (r' & C). injection C as <- _. reflexivity.
Qed.
Lemma lookup_iff : forall s f, lookup s = Some f <-> In (s, f) standards.
Proof.
  intros s f. unfold lookup. split.
  - destruct (find (fun p => String.eqb s (fst p)) calspec_names) as [(s', f')|] eqn:F; [|discriminate]. cbn [option_map snd]. intros H. injection H as ->. apply find_some in F. destruct F as (I & Q). cbn [fst] in Q. apply String.eqb_eq in Q. subst s'. exact I.
  - intros I. unfold standards in I. repeat (destruct I as [I | I]; [injection I as <- <-; reflexivity|]). destruct I.
Qed.
Lemma standard_iff : forall E s p, get_calspec_file E s = Ok p <-> standard E s p.
Proof.
  intros E s p. unfold get_calspec_file, standard. split.
  - intros H. destruct (lookup s) as [f|] eqn:L; [|discriminate]. exists f. split; [apply lookup_iff; exact L|]. destruct (e_fetch E f); [injection H as ->; reflexivity|discriminate].
  - intros (f & I & F). apply lookup_iff in I. rewrite I, F. reflexivity.
Qed.
Lemma after_dot_iff : forall s acc, after_dot s acc = "fits"%string <-> ((~ exists a b, s = (a ++ String "." b)%string) /\ acc = "fits"%string) \/ exists a, s = (a ++ ".fits")%string.
Proof.
  induction s as [|c t IH]; intros acc.
  - cbn [after_dot]. split; [intros ->; left; split; [|reflexivity]; intros (a & b & E); destruct a; discriminate|]. intros [(_ & E) | (a & E)]; [exact E|destruct a; discriminate].
  - cbn [after_dot]. destruct (Ascii.eqb_spec c ".") as [-> |NE].
    + rewrite IH. split.
      * intros [(_ & ->) | (a & ->)]; right; [exists ""%string; reflexivity|exists (String "." a); reflexivity].
      * intros [(H & _) | (a & E)]; [exfalso; apply H; exists ""%string, t; reflexivity|]. destruct a as [|x a]; cbn [append] in E; injection E; intros; subst; [left; split; [|reflexivity]|right; exists a; reflexivity].
        intros (a & b & E'). do 5 (destruct a as [|? a]; [discriminate|]; cbn [append] in E'; try discriminate E'; injection E'; clear E'; intros E' ?). 
    + rewrite IH. split.
      * intros [(H & E) | (a & ->)]; [left; split; [|exact E]|right; exists (String c a); reflexivity]. intros (a & b & E'). destruct a as [|x a]; cbn [append] in E'; injection E' as X Y; [congruence|]. apply H. exists a, b. exact Y.
      * intros [(H & E) | (a & E)]; [left; split; [|exact E]|right]. { intros (a & b & E'). apply H. exists (String c a), b. cbn [append]. rewrite E'. reflexivity. }
        destruct a as [|x a]; cbn [append] in E; injection E; intros; subst; [congruence|]. exists a. reflexivity.
Qed.
Lemma is_path_iff : forall s, is_path s = true <-> ends_in_fits s.
Proof.
  intros s. unfold is_path, ends_in_fits. rewrite String.eqb_eq, after_dot_iff. split; [tauto|]. intros [-> | H]; [|right; exact H]. apply (after_dot_iff "fits" "fits"). reflexivity.
Qed.
Lemma star_iff : forall E s p, star_file E s = Ok p <-> spectrum_file E s p.
Proof.
  intros E s p. unfold star_file, spectrum_file. pose proof (is_path_iff s) as K. destruct (is_path s).
  - split; [intros H; injection H as <-; left; split; [apply K; reflexivity|reflexivity]|]. intros [(_ & ->) | (N & _)]; [reflexivity|]. exfalso. apply N. apply K. reflexivity.
  - rewrite standard_iff. split; [intros H; right; split; [intros F; apply K in F; discriminate|exact H]|]. intros [(F & _) | (_ & H)]; [apply K in F; discriminate|exact H].
Qed.
Lemma band_iff : forall E file w t, filter_curve E file = (w, t) <-> band E file w t.
Proof.
  intros E file w t. unfold filter_curve, band. generalize (e_curve E file) as l. intros l. split.
  - intros H. injection H as <- <-. rewrite !map_length. split; [reflexivity|]. induction l as [|(a, b) l IH]; [reflexivity|]. cbn [map combine fst snd]. rewrite <- IH. f_equal. f_equal; field.
  - intros (L & ->). f_equal; revert t L; induction w as [|a w IH]; intros [|b t] L; cbn in *; try lia; try reflexivity; rewrite IH by lia; f_equal; field.
Qed.
Lemma spectrum_iff : forall E p w f, sorted_files E -> (spectrum E p w = Ok f <-> spectrum_on E p w f).
Proof.
  intros E p w f (S & _). unfold spectrum, spectrum_on. destruct (e_open E p) as [s|x] eqn:O; cbn [bind].
  - rewrite (read_iff s w f (S p s O)). split; [intros H; exists s; auto|intros (s' & H & K); injection H as <-; exact K].
  - split; [discriminate|]. intros (s & H & _). discriminate.
Qed.
Lemma grid_inc : forall E file w t, sorted_files E -> band E file w t -> increasing w.
Proof.
  intros E file w t (_ & S) B. apply band_iff in B. injection B as <- _. specialize (S file). induction (e_curve E file) as [|p l IH]; [constructor|]. cbn [map] in *. inversion S as [|? ? T F]; subst. constructor; [exact (IH T)|].
  rewrite Forall_forall in *. intros y I. apply in_map_iff in I. destruct I as (q & <- & I). assert (fst p < fst q) by (apply F; apply in_map; exact I). lra.
Qed.
Lemma band_length : forall E file w t, band E file w t -> List.length t = List.length w.
Proof. intros E file w t (L & _). congruence. Qed.
Lemma spectrum_length : forall E p w f, spectrum_on E p w f -> List.length f = List.length w /\ w <> [].
Proof. intros E p w f (s & _ & H). exact (sampled_length s w f H). Qed.

(** ** Magnitude of a known spectrum *)
Lemma app_mag_in_iff : forall E file star scale m, sorted_files E -> (app_mag_in E file star scale = Ok m <-> magnitude_in E file star scale m).
Proof.
  intros E file star scale m S. unfold app_mag_in, magnitude_in. destruct (filter_curve E file) as (w, t) eqn:FC. pose proof (proj1 (band_iff E file w t) FC) as B. pose proof (grid_inc E file w t S B) as I. pose proof (band_length _ _ _ _ B) as LT. split.
  - intros H. destruct (star_file E star) as [sp|] eqn:P1; [|discriminate]. cbn [bind] in H. destruct (get_calspec_file E "Vega") as [vp|] eqn:P2; [|discriminate]. cbn [bind] in H.
    destruct (spectrum E vp w) as [v|] eqn:P3; [|discriminate]. cbn [bind] in H. destruct (spectrum E sp w) as [s|] eqn:P4; [|discriminate]. cbn [bind] in H. assert (HM : m = magnitude (rdiv (Some (irradiance t (map (fun x => x * scale) s) w)) (Some (irradiance t v w)))) by congruence. clear H.
    apply star_iff in P1. apply standard_iff in P2. apply spectrum_iff in P3; [|exact S]. apply spectrum_iff in P4; [|exact S]. destruct (spectrum_length _ _ _ _ P3) as (LV & N). destruct (spectrum_length _ _ _ _ P4) as (LS & _).
    exists w, t, sp, vp, s, v, (irradiance t (map (fun x => x * scale) s) w), (irradiance t v w). split; [exact B|]. split; [exact P1|]. split; [exact P2|]. split; [exact P3|]. split; [exact P4|]. unfold irradiance.
    split; [apply integral_iff; [exact I|exact N|len|reflexivity]|]. split; [apply integral_iff; [exact I|exact N|len|reflexivity]|]. apply magnitude_iff. exact HM.
  - intros (w' & t' & sp & vp & s & v & i & j & B' & P1 & P2 & P3 & P4 & AI & AJ & M). apply band_iff in B'. rewrite FC in B'. injection B' as <- <-. destruct (spectrum_length _ _ _ _ P3) as (LV & N). destruct (spectrum_length _ _ _ _ P4) as (LS & _).
    apply star_iff in P1. apply standard_iff in P2. apply spectrum_iff in P3; [|exact S]. apply spectrum_iff in P4; [|exact S]. rewrite P1, P2. cbn [bind]. rewrite P3. cbn [bind]. rewrite P4. cbn [bind].
    apply integral_iff in AI; [|exact I|exact N|change times with mul; len]. apply integral_iff in AJ; [|exact I|exact N|change times with mul; len]. apply magnitude_iff in M. subst i j m. reflexivity.
Qed.
Section Frames.
Variable img : Type.
Variable phot : bool -> img -> result (R * R * R).
Notation hframe := (hframe img).
Lemma same_source_iff : forall E file t (l : list hframe), same_source img E file t l = Ok tt <-> Forall (fun f => h_target _ f = Some t /\ exists n, h_cfam _ f = Some n /\ curve_of E n file) l.
Proof.
  intros E file t l. induction l as [|f l IH]; [split; [constructor|reflexivity]|]. cbn [same_source]. split.
  - intros H. destruct (filter_file E (h_cfam _ f)) as [n|] eqn:F; [|discriminate]. cbn [bind] in H. destruct (h_target _ f) as [u|] eqn:T; [|discriminate]. cbn [getkey bind] in H.
    destruct (String.eqb_spec n file) as [-> |]; [|discriminate]. destruct (String.eqb_spec u t) as [-> |]; [|discriminate]. cbn [negb] in H. constructor; [|apply IH; exact H]. split; [exact T|]. apply file_iff. exact F.
  - intros H. inversion H as [|? ? (T & C) H']; subst. apply file_iff in C. rewrite C, T. cbn [getkey bind]. rewrite !String.eqb_refl. cbn [negb]. apply IH. exact H'.
Qed.
Lemma app_mag_iff : forall E (l : list hframe) star scale m, sorted_files E ->
  (app_mag img E l star scale = Ok m <-> l <> [] /\ exists file, one_source img E file l /\ magnitude_in E file star scale m).
Proof.
  intros E l star scale m S. unfold app_mag, one_source. destruct l as [|f0 l]; [split; [discriminate|intros (H & _); congruence]|]. split.
  - intros H. split; [discriminate|]. destruct (filter_file E (h_cfam _ f0)) as [file|] eqn:F; [|discriminate]. cbn [bind] in H. destruct (h_target _ f0) as [t|] eqn:T; [|discriminate]. cbn [getkey bind] in H.
    destruct (same_source img E file t (f0 :: l)) as [[]|] eqn:SS; [|discriminate]. cbn [bind] in H. exists file. split; [exists t; apply same_source_iff; exact SS|apply app_mag_in_iff; assumption].
  - intros (_ & file & (t & FA) & M). inversion FA as [|? ? (T & C) _]; subst. apply file_iff in C. rewrite C, T. cbn [getkey bind]. apply same_source_iff in FA. rewrite FA. cbn [bind]. apply app_mag_in_iff; assumption.
Qed.
Lemma app_mag_image_iff : forall E (f : hframe) star scale m, sorted_files E ->
  (app_mag_image img E f star scale = Ok m <-> exists n file, h_cfam _ f = Some n /\ curve_of E n file /\ magnitude_in E file star scale m).
Proof.
  intros E f star scale m S. unfold app_mag_image. split.
  - intros H. destruct (filter_file E (h_cfam _ f)) as [file|] eqn:F; [|discriminate]. cbn [bind] in H. apply file_iff in F. destruct F as (n & C & F). exists n, file. split; [exact C|]. split; [exact F|]. apply app_mag_in_iff; assumption.
  - intros (n & file & C & F & M). assert (K : filter_file E (h_cfam _ f) = Ok file) by (apply file_iff; exists n; auto). rewrite K. cbn [bind]. apply app_mag_in_iff; assumption.
Qed.

(** ** Factors *)
Lemma ND_iff : forall n, prefix "ND" n = true <-> exists t, n = ("ND" ++ t)%string.
Proof. intros n. apply prefix_iff. Qed.
Lemma neutral_iff : forall (f : hframe) nd, nd_filter img f = Ok nd <-> neutral img f nd.
Proof.
  intros f nd. unfold nd_filter, neutral.
  assert (K : forall n, (if prefix "ND" n then n else "ND0"%string) = nd <-> ((exists t, n = ("ND" ++ t)%string) /\ nd = n \/ (~ exists t, n = ("ND" ++ t)%string) /\ nd = "ND0"%string)).
  { intros n. pose proof (ND_iff n) as P. destruct (prefix "ND" n).
    - split; [intros <-; left; split; [apply P|]; reflexivity|]. intros [(_ & ->) | (N & _)]; [reflexivity|]. exfalso. apply N. apply P. reflexivity.
    - split; [intros <-; right; split; [intros Q; apply P in Q; discriminate|reflexivity]|]. intros [(Q & _) | (_ & ->)]; [apply P in Q; discriminate|reflexivity]. }
  destruct (h_fpam _ f) as [n|] eqn:A.
  - split; [intros H; assert (H' : (if prefix "ND" n then n else "ND0"%string) = nd) by congruence; apply K in H'; exists n; split; [left; reflexivity|exact H']|].
    intros (n' & [Q | (Q & _)] & D); [|discriminate]. injection Q as <-. apply K in D. rewrite D. reflexivity.
  - destruct (h_fsam _ f) as [n|] eqn:B.
    + split; [intros H; assert (H' : (if prefix "ND" n then n else "ND0"%string) = nd) by congruence; apply K in H'; exists n; split; [right; split; reflexivity|exact H']|].
      intros (n' & [Q | (_ & Q)] & D); [discriminate|]. injection Q as <-. apply K in D. rewrite D. reflexivity.
    + split; [discriminate|]. intros (n' & [Q | (_ & Q)] & D); discriminate.
Qed.
(** What is known before the photometry. *)
Definition known (E : env) (f : hframe) (mode : string) : result (string * string * rl) :=
  do star <- getkey (h_target _ f);
  do cfam <- getkey (h_cfam _ f);
  do file <- filter_file E (h_cfam _ f);
  let '(w, t) := filter_curve E file in
  do p <- get_calspec_file E star;
  do s <- spectrum E p w;
  if String.eqb mode "flux" then Ok (cfam, "erg/(s * cm^2 * AA)/(electron/s)"%string, band_flux t s w)
  else if String.eqb mode "irr" then Ok (cfam, "erg/(s * cm^2)/(electron/s)"%string, Some (irradiance t s w))
  else Raise ValueError.
Lemma known_iff : forall E f mode n u flux, sorted_files E -> (known E f mode = Ok (n, u, flux) <-> star_flux img E f mode flux /\ h_cfam _ f = Some n /\ unit_of mode u).
Proof.
  intros E f mode n u flux S. unfold known, star_flux, unit_of. split.
  - intros H. destruct (h_target _ f) as [star|] eqn:T; [|discriminate]. destruct (h_cfam _ f) as [c|] eqn:C; [|discriminate]. cbn [getkey bind] in H. destruct (filter_file E (Some c)) as [file|] eqn:F; [|discriminate]. cbn [bind] in H.
    destruct (filter_curve E file) as (w, t) eqn:FC. destruct (get_calspec_file E star) as [p|] eqn:G; [|discriminate]. cbn [bind] in H. destruct (spectrum E p w) as [s|] eqn:SP; [|discriminate]. cbn [bind] in H.
    apply band_iff in FC. apply standard_iff in G. apply spectrum_iff in SP; [|exact S]. apply file_iff in F. destruct F as (c' & E' & F). injection E' as <-. pose proof (grid_inc _ _ _ _ S FC) as I. pose proof (band_length _ _ _ _ FC) as LT. destruct (spectrum_length _ _ _ _ SP) as (LS & N).
    destruct (String.eqb_spec mode "flux") as [M|M].
    + assert (HC : c = n /\ "erg/(s * cm^2 * AA)/(electron/s)"%string = u /\ band_flux t s w = flux) by (repeat split; congruence). destruct HC as (<- & <- & <-). split; [|split; [reflexivity|left; auto]].
      exists star, c, file, w, t, p, s. repeat (split; [assumption || reflexivity|]). left. split; [exact M|]. apply average_iff; auto.
    + destruct (String.eqb_spec mode "irr") as [M'|M']; [|discriminate]. assert (HC : c = n /\ "erg/(s * cm^2)/(electron/s)"%string = u /\ Some (irradiance t s w) = flux) by (repeat split; congruence). destruct HC as (<- & <- & <-). split; [|split; [reflexivity|right; auto]].
      exists star, c, file, w, t, p, s. repeat (split; [assumption || reflexivity|]). right. split; [exact M'|]. exists (irradiance t s w). split; [|reflexivity]. apply integral_iff; [exact I|exact N|len|reflexivity].
  - intros ((star & c & file & w & t & p & s & T & C & F & FC & G & SP & V) & C' & U). rewrite C in C'. injection C' as <-. rewrite T, C. cbn [getkey bind].
    pose proof (grid_inc _ _ _ _ S FC) as I. pose proof (band_length _ _ _ _ FC) as LT. destruct (spectrum_length _ _ _ _ SP) as (LS & N).
    assert (K : filter_file E (Some c) = Ok file) by (apply file_iff; exists c; auto). rewrite K. cbn [bind]. apply band_iff in FC. rewrite FC. apply standard_iff in G. rewrite G. cbn [bind]. apply spectrum_iff in SP; [|exact S]. rewrite SP. cbn [bind].
    destruct V as [(M & V) | (M & i & V & ->)].
    + destruct U as [(_ & ->) | (M' & _)]; [|subst; discriminate]. subst mode. cbn. apply average_iff in V; [|assumption..]. subst flux. reflexivity.
    + destruct U as [(M' & _) | (_ & ->)]; [subst; discriminate|]. subst mode. cbn. apply integral_iff in V; [|exact I|exact N|change times with mul; len]. subst i. reflexivity.
Qed.
Lemma calibrate_eq : forall gauss E f (r : list hframe) mode, calibrate img phot gauss E (f :: r) mode =
  match known E f mode with
  | Raise e => ([], Raise e)
  | Ok (cfam, unit, flux) =>
      match (do v <- phot gauss (h_img _ f);
             let '(counts, err, _) := v in
             do nd <- nd_filter img f;
             Ok (mkfactor (rdiv flux (Some counts)) (rmul (rdiv flux (Some (counts ^ 2))) (Some err)) nd cfam)) with
      | Ok k => ([("BUNIT", unit); ("DATATYPE", "FluxcalFactor"); ("DATALVL", "CAL")]%string, Ok k)
      | Raise e => ([("BUNIT", unit)]%string, Raise e)
      end
  end.
Proof. reflexivity. Qed.
Lemma factor_values : forall flux c e, let k := (rdiv flux (Some c), rmul (rdiv flux (Some (c ^ 2))) (Some e)) in
  (flux = None \/ c = 0 -> fst k = None /\ snd k = None) /\ (forall x, flux = Some x -> c <> 0 -> fst k = Some (x / c) /\ snd k = Some (x / c * (e / c))).
Proof.
  intros [x|] c e; cbn; split.
  - intros [H | ->]; [discriminate|]. destruct (Req_EM_T 0 0) as [_|]; [|lra]. destruct (Req_EM_T (0 * (0 * 1)) 0) as [_|]; [auto|lra].
  - intros y H C. injection H as <-. destruct (Req_EM_T c 0); [contradiction|]. destruct (Req_EM_T (c * (c * 1)) 0) as [Z|_]; [exfalso; apply C; rewrite Rmult_1_r in Z; apply Rmult_integral in Z; tauto|]. split; [reflexivity|]. unfold rmul. apply f_equal. field. exact C.
  - auto.
  - intros y H. discriminate.
Qed.
Lemma calibrate_iff : forall gauss E (l : list hframe) mode cards k, sorted_files E ->
  (calibrate img phot gauss E l mode = (cards, Ok k) <-> factor_of img phot gauss E l mode k /\ exists u, unit_of mode u /\ cards = marked u).
Proof.
  intros gauss E l mode cards k S. destruct l as [|f r]; [split; [discriminate|intros ((f & r & ? & ? & ? & ? & H & _) & _); discriminate]|]. rewrite calibrate_eq. unfold factor_of. split.
  - intros H. destruct (known E f mode) as [((n, u), flux)|] eqn:KN; [|discriminate]. apply known_iff in KN; [|exact S]. destruct KN as (SF & C & U).
    destruct (phot gauss (h_img _ f)) as [((c, e), b)|] eqn:P; [|discriminate]. cbn [bind] in H. destruct (nd_filter img f) as [nd|] eqn:N; [|discriminate]. cbn [bind] in H. apply neutral_iff in N.
    assert (HC : marked u = cards) by (unfold marked; congruence). assert (HK : k = mkfactor (rdiv flux (Some c)) (rmul (rdiv flux (Some (c ^ 2))) (Some e)) nd n) by congruence. clear H. subst cards k. split; [|exists u; auto].
    exists f, r, flux, c, e, b. split; [reflexivity|]. split; [exact SF|]. split; [exact P|]. split; [exact N|]. split; [exact C|]. exact (factor_values flux c e).
  - intros ((f' & r' & flux & c & e & b & EQ & SF & P & N & C & V0 & V1) & u & U & ->). injection EQ as <- <-. assert (KN : known E f mode = Ok (k_filter k, u, flux)) by (apply known_iff; auto). rewrite KN, P. cbn [bind]. apply neutral_iff in N. rewrite N. cbn [bind]. unfold marked. f_equal. f_equal.
    destruct (factor_values flux c e) as (W0 & W1). cbn [fst snd] in W0, W1. destruct k as [kf ke knd kfi]. cbn [k_fac k_err k_nd k_filter] in *.
    assert (X : rdiv flux (Some c) = kf /\ rmul (rdiv flux (Some (c ^ 2))) (Some e) = ke).
    { destruct flux as [x|]; [|destruct (V0 (or_introl eq_refl)) as (-> & ->); destruct (W0 (or_introl eq_refl)) as (-> & ->); auto]. destruct (Req_dec c 0) as [Z|Z].
      - destruct (V0 (or_intror Z)) as (-> & ->). destruct (W0 (or_intror Z)) as (-> & ->). auto.
      - destruct (V1 x eq_refl Z) as (-> & ->). destruct (W1 x eq_refl Z) as (-> & ->). auto. }
    destruct X as (-> & ->). reflexivity.
Qed.
(** The cards written to the header of the image. *)
Lemma calibrate_cards : forall gauss E (l : list hframe) mode e cards, sorted_files E -> calibrate img phot gauss E l mode = (cards, Raise e) ->
  cards = [] \/ exists u, unit_of mode u /\ cards = [("BUNIT"%string, u)].
Proof.
  intros gauss E l mode e cards S H. destruct l as [|f r]; [left; cbn in H; congruence|]. rewrite calibrate_eq in H. destruct (known E f mode) as [((n, u), flux)|] eqn:KN; [|left; congruence].
  apply known_iff in KN; [|exact S]. destruct KN as (_ & _ & U). right. exists u. split; [exact U|]. destruct (bind _ _); congruence.
Qed.
End Frames.
