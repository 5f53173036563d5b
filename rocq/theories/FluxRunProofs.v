(** Proofs: colour corrections of datasets, fluxes from counts, zero points, images in flux units; laws. *)
From Coq Require Import List Arith Bool Reals String Ascii Sorting Lia Lra.
From Verif Require Import Base ComboSpec ComboProofs CosmicModel DqModel DqProofs DarkModel DarkProofs UnitsModel UnitsSpec UnitsProofs FluxModel FluxSpec FluxProofs FluxBandProofs FluxTopProofs.
Import ListNotations.
Local Open Scope R_scope.

Lemma mapR_f2 : forall A B (f : A -> result B) l vs, mapR f l = Ok vs <-> Forall2 (fun x v => f x = Ok v) l vs.
Proof.
  intros A B f. induction l as [|x l IH]; intros vs; cbn [mapR].
  - split; [intros H; injection H as <-; constructor|intros H; inversion H; reflexivity].
  - split.
    + intros H. destruct (f x) as [y|] eqn:E; [|discriminate]. cbn [bind] in H. destruct (mapR f l) as [ys|] eqn:M; [|discriminate]. cbn [bind] in H. injection H as <-. constructor; [exact E|apply IH; reflexivity].
    + intros H. inversion H as [|? y ? ys X T]; subst. rewrite X. cbn [bind]. apply IH in T. rewrite T. reflexivity.
Qed.
Lemma mean_iff : forall l m, l <> [] -> (is_mean_of l m <-> m = mean l).
Proof.
  intros l m N. unfold is_mean_of, mean. assert (INR (List.length l) <> 0) by (apply not_0_INR; destruct l; [congruence|discriminate]). split.
  - intros <-. field. exact H.
  - intros ->. field. exact H.
Qed.

Section Frames.
Variable img : Type.
Variable phot : bool -> img -> result (R * R * R).
Notation hframe := (hframe img).

Lemma colour_cards_iff : forall E (l : list hframe) rs ss lam k, sorted_files E -> (determine_color_cor img E l rs ss = Ok (lam, k) <-> colour_cards img E l rs ss lam k).
Proof.
  intros E l rs ss lam k S. unfold determine_color_cor, colour_cards. destruct l as [|f0 l]; [split; [discriminate|intros (f0 & l' & ? & ? & ? & ? & ? & ? & ? & ? & H & _); discriminate]|]. split.
  - intros H. destruct (filter_file E (h_cfam _ f0)) as [file|] eqn:F; [|discriminate]. cbn [bind] in H. apply file_iff in F. destruct F as (n & C & F). destruct (filter_curve E file) as (w, t) eqn:FC. apply band_iff in FC.
    destruct (star_file E rs) as [rp|] eqn:RP; [|discriminate]. cbn [bind] in H. apply star_iff in RP. destruct (star_file E ss) as [sp|] eqn:SP; [|discriminate]. cbn [bind] in H. apply star_iff in SP.
    destruct (spectrum E rp w) as [r|] eqn:SR; [|discriminate]. cbn [bind] in H. apply spectrum_iff in SR; [|exact S]. destruct (spectrum E sp w) as [s|] eqn:SS; [|discriminate]. cbn [bind] in H. apply spectrum_iff in SS; [|exact S].
    pose proof (grid_inc _ _ _ _ S FC) as I. pose proof (band_length _ _ _ _ FC) as LT. destruct (spectrum_length _ _ _ _ SR) as (LR & N). destruct (spectrum_length _ _ _ _ SS) as (LS & _).
    exists f0, l, n, file, w, t, rp, sp, r, s. repeat (split; [assumption || reflexivity|]). destruct (pivot_lambda t w) as [x|] eqn:P.
    + destruct (color_cor t w r x s) as [k'|] eqn:CC; [|discriminate]. cbn [bind] in H. assert (lam = Some x /\ k = k') as (-> & ->) by (split; congruence). split; [apply pivot_iff; auto|]. apply colour_iff; auto.
    + assert (lam = None /\ k = None) as (-> & ->) by (split; congruence). split; [apply pivot_iff; auto|reflexivity].
  - intros (f & l' & n & file & w & t & rp & sp & r & s & EQ & C & F & FC & RP & SP & SR & SS & P & K). injection EQ as <- <-.
    pose proof (grid_inc _ _ _ _ S FC) as I. pose proof (band_length _ _ _ _ FC) as LT. destruct (spectrum_length _ _ _ _ SR) as (LR & N). destruct (spectrum_length _ _ _ _ SS) as (LS & _).
    assert (FF : filter_file E (h_cfam _ f0) = Ok file) by (apply file_iff; exists n; auto). rewrite FF. cbn [bind]. apply band_iff in FC. rewrite FC. apply star_iff in RP. rewrite RP. cbn [bind]. apply star_iff in SP. rewrite SP. cbn [bind].
    apply spectrum_iff in SR; [|exact S]. rewrite SR. cbn [bind]. apply spectrum_iff in SS; [|exact S]. rewrite SS. cbn [bind]. apply pivot_iff in P; [|assumption..]. rewrite <- P. destruct lam as [x|]; [|subst; reflexivity].
    apply colour_iff in K; [|assumption..]. rewrite K. reflexivity.
Qed.

(** ** Fluxes *)
Lemma flux_error : forall e c a b, exists s, rsqrt (rl_add (rmul (Some (e ^ 2)) (rl_sq (Some a))) (rmul (rl_sq (Some b)) (Some (c ^ 2)))) = Some s /\ 0 <= s /\ s ^ 2 = (e * a) ^ 2 + (c * b) ^ 2.
Proof.
  intros e c a b. cbn [rl_sq option_map rmul rl_add rsqrt]. assert (P : e ^ 2 * (a * a) + b * b * c ^ 2 = (e * a) ^ 2 + (c * b) ^ 2) by ring. rewrite P. pose proof (pow2_ge_0 (e * a)). pose proof (pow2_ge_0 (c * b)).
  destruct (Rlt_dec ((e * a) ^ 2 + (c * b) ^ 2) 0); [lra|]. eexists. split; [reflexivity|]. split; [apply sqrt_pos|]. rewrite <- Rsqr_pow2. apply Rsqr_sqrt. lra.
Qed.
Lemma root_one : forall a b x, 0 <= a -> 0 <= b -> a ^ 2 = x -> b ^ 2 = x -> a = b.
Proof. intros a b x A B <- E. apply Rsqr_inj; [assumption|assumption|]. rewrite !Rsqr_pow2. symmetry. exact E. Qed.
Lemma method_iff : forall photo (l : list hframe) vs,
  (if String.eqb photo "aperture" then mapR (fun f => phot false (h_img _ f)) l else if String.eqb photo "2dgauss" then mapR (fun f => phot true (h_img _ f)) l else Raise ValueError) = Ok vs <->
  exists gauss, (photo = "aperture"%string /\ gauss = false \/ photo = "2dgauss"%string /\ gauss = true) /\ Forall2 (fun f x => phot gauss (h_img _ f) = Ok x) l vs.
Proof.
  intros photo l vs. destruct (String.eqb_spec photo "aperture") as [-> |A].
  - rewrite mapR_f2. split; [intros H; exists false; auto|]. intros (g & [(_ & ->) | (H & _)] & F); [exact F|discriminate].
  - destruct (String.eqb_spec photo "2dgauss") as [-> |B].
    + rewrite mapR_f2. split; [intros H; exists true; auto|]. intros (g & [(H & _) | (_ & ->)] & F); [discriminate|exact F].
    + split; [discriminate|]. intros (g & [(H & _) | (H & _)] & _); contradiction.
Qed.
Definition col_of (f : hframe) : R := match h_colcor _ f with Some c => c | None => 1 end.
Lemma vega_mag_iff : forall E flux file m, sorted_files E ->
  (vega_mag E flux file = Ok m <-> exists w t vp v vega, band E file w t /\ standard E "Vega" vp /\ spectrum_on E vp w v /\ average_flux t v w vega
     /\ is_magnitude (match flux, vega with Some x, Some y => if Req_EM_T y 0 then None else Some (x / y) | _, _ => None end) m).
Proof.
  intros E flux file m S. unfold vega_mag. destruct (filter_curve E file) as (w, t) eqn:FC. pose proof (proj1 (band_iff E file w t) FC) as B. pose proof (grid_inc _ _ _ _ S B) as I. pose proof (band_length _ _ _ _ B) as LT.
  assert (V : forall vega, (match vega with Some b => rdiv flux (Some b) | None => None end) = match flux, vega with Some x, Some y => if Req_EM_T y 0 then None else Some (x / y) | _, _ => None end) by (intros [y|]; destruct flux; reflexivity).
  split.
  - intros H. destruct (get_calspec_file E "Vega") as [vp|] eqn:G; [|discriminate]. cbn [bind] in H. destruct (spectrum E vp w) as [v|] eqn:SP; [|discriminate]. cbn [bind] in H.
    apply standard_iff in G. apply spectrum_iff in SP; [|exact S]. destruct (spectrum_length _ _ _ _ SP) as (LV & N). exists w, t, vp, v, (band_flux t v w). repeat (split; [assumption|]). split; [apply average_iff; auto|]. apply magnitude_iff. rewrite V in H. congruence.
  - intros (w' & t' & vp & v & vega & B' & G & SP & A & M). apply band_iff in B'. rewrite FC in B'. injection B' as <- <-. destruct (spectrum_length _ _ _ _ SP) as (LV & N). apply standard_iff in G. rewrite G. cbn [bind]. apply spectrum_iff in SP; [|exact S]. rewrite SP. cbn [bind].
    apply average_iff in A; [|assumption..]. subst vega. rewrite V. apply magnitude_iff in M. rewrite M. reflexivity.
Qed.
Lemma magnitude_none : forall m, is_magnitude None m <-> m = None.
Proof. intros m. reflexivity. Qed.
Lemma determine_flux_iff : forall E (l : list hframe) k photo back d fac ferr, sorted_files E -> k_fac k = Some fac -> k_err k = Some ferr ->
  (determine_flux img phot E l k photo back = Ok d <-> flux_cards img phot E l k photo back d).
Proof.
  intros E l k photo back d fac ferr S KF KE. unfold determine_flux, flux_cards. rewrite KF, KE. destruct l as [|f0 r]; [split; [discriminate|intros (f & r & ? & ? & ? & ? & ? & ? & ? & ? & ? & ? & ? & ? & ? & H & _); discriminate]|].
  fold (col_of f0). split.
  - intros H. match type of H with (do vs <- ?x; _) = _ => destruct x as [vs|] eqn:M; [|discriminate] end. cbn [bind] in H. apply method_iff in M. destruct M as (g & G & F2).
    destruct (filter_file E (h_cfam _ f0)) as [file|] eqn:F; [|discriminate]. cbn [bind] in H. apply file_iff in F. destruct F as (n & C & F).
    match type of H with (do m <- ?x; _) = _ => destruct x as [m|] eqn:VM; [|discriminate] end. cbn [bind] in H. apply vega_mag_iff in VM; [|exact S]. destruct VM as (w & t & vp & v & vega & B & G' & SP & A & IM).
    destruct (h_target _ f0) as [target|] eqn:T; [|discriminate]. cbn [getkey bind] in H.
    assert (NE : vs <> []) by (inversion F2; discriminate). assert (NM : forall (X : Type) (q : R * R * R -> X), map q vs <> []) by (intros X q; destruct vs; [congruence|discriminate]).
    set (c := mean (map (fun v0 : R * R * R => fst (fst v0)) vs)) in *. set (e := mean (map (fun v0 : R * R * R => snd (fst v0)) vs)) in *. set (b := mean (map snd vs)) in *.
    exists f0, r, g, vs, c, e, b, n, file, w, t, vp, v, vega, target. repeat (split; [first [assumption | reflexivity | (apply mean_iff; [apply NM|reflexivity])]|]).
    match type of H with Ok ?z = _ => assert (HD : d = z) by congruence end. clear H. subst d. cbn [c_fac c_back c_flux c_fluxerr c_mag c_magerr]. split; [first [reflexivity | exact KF]|]. split; [reflexivity|].
    cbn zeta. fold (col_of f0). unfold rdiv in *. destruct (Req_EM_T (col_of f0) 0) as [Z|Z].
    + cbn in *. split; [reflexivity|]. split; [reflexivity|]. split; [exact IM|reflexivity].
    + destruct (flux_error e c (fac / col_of f0) (ferr / col_of f0)) as (s & ES & SP0 & SQ). exists s. cbn [rmul] in *. replace (c * (fac / col_of f0)) with (c * fac / col_of f0) in * by (field; exact Z).
      split; [reflexivity|]. split; [exact ES|]. split; [exact SP0|]. split; [rewrite SQ; field; exact Z|]. split; [destruct vega; exact IM|]. rewrite ES. reflexivity.
  - intros (f & r' & g & vs & c & e & b & n & file & w & t & vp & v & vega & target & EQ & G & F2 & MC & ME & MB & C & F & B & G' & SP & A & T & DF & DB & V). injection EQ as <- <-.
    assert (NE : vs <> []) by (inversion F2; discriminate). assert (NM : forall (X : Type) (q : R * R * R -> X), map q vs <> []) by (intros X q; destruct vs; [congruence|discriminate]).
    apply mean_iff in MC; [|apply NM]. apply mean_iff in ME; [|apply NM]. apply mean_iff in MB; [|apply NM].
    match goal with |- (do vs <- ?x; _) = _ => assert (M : x = Ok vs) by (apply method_iff; exists g; auto) end. rewrite M. cbn [bind]. rewrite <- MC, <- ME, <- MB.
    assert (FF : filter_file E (h_cfam _ f0) = Ok file) by (apply file_iff; exists n; auto). rewrite FF. cbn [bind]. rewrite T. cbn [getkey]. cbn zeta in V. fold (col_of f0) in V.
    match goal with |- (do m <- vega_mag _ ?fl _; _) = _ => assert (VM : vega_mag E fl file = Ok (c_mag d)) end.
    { apply vega_mag_iff; [exact S|]. exists w, t, vp, v, vega. repeat (split; [assumption|]). unfold rdiv. destruct (Req_EM_T (col_of f0) 0) as [Z|Z]; [cbn; apply V|]. cbn [rmul]. destruct V as (s & _ & _ & _ & _ & V & _). replace (c * (fac / col_of f0)) with (c * fac / col_of f0) by (field; exact Z). destruct vega; exact V. }
    rewrite VM. cbn [bind]. f_equal. destruct d as [d1 d2 d3 d4 d5 d6]. cbn [c_fac c_back c_flux c_fluxerr c_mag c_magerr] in *. subst d1 d2. unfold rdiv in *. destruct (Req_EM_T (col_of f0) 0) as [Z|Z].
    + destruct V as (-> & -> & -> & ->). reflexivity.
    + destruct V as (s & -> & -> & SP0 & SQ & _ & ->). destruct (flux_error e c (fac / col_of f0) (ferr / col_of f0)) as (s' & ES & SP1 & SQ1).
      assert (s' = s). { apply (root_one s' s _ SP1 SP0 SQ1). rewrite SQ. field. exact Z. } subst s'. rewrite ES. cbn [rmul]. replace (c * (fac / col_of f0)) with (c * fac / col_of f0) by (field; exact Z). reflexivity.
Qed.
Lemma zero_point_iff : forall E (f : hframe) star back zs, sorted_files E -> (zero_point img phot E f star back = Ok zs <-> zero_points img phot E f star back zs).
Proof.
  intros E f star back zs S. unfold zero_point, zero_points. pose proof ln10 as T10.
  assert (V : forall (m : option R) (x : R) (z : option R), (fun (x : R) (z : option R) => match m with Some y => (x <= 0 -> z = None) /\ (0 < x -> exists u, z = Some u /\ x = Rpower 10 (2 / 5 * (u - y))) | None => z = None end) x z <-> z = (fun x => rl_add m (option_map Ropp (magnitude (Some x)))) x).
  { cbv beta. intros [y|] x z; [|reflexivity]. unfold magnitude. destruct (Rlt_dec 0 x) as [L|L]; cbn [option_map rl_add].
    - split.
      + intros (_ & H). destruct (H L) as (u & -> & X). apply f_equal. rewrite X. unfold Rpower. rewrite ln_exp. field. lra.
      + intros ->. split; [lra|]. intros _. eexists. split; [reflexivity|]. unfold Rpower. replace (2 / 5 * (y + - (- (5 / 2) * (ln x / ln 10)) - y) * ln 10) with (ln x) by (field; lra). symmetry. apply exp_ln. exact L.
    - split; [intros (H & _); apply H; lra|]. intros ->. split; [reflexivity|lra]. }
  split.
  - intros H. destruct (app_mag_image img E f star 1) as [m|] eqn:M; [|discriminate]. cbn [bind] in H. destruct (phot false (h_img _ f)) as [((c, e), b)|] eqn:P; [|discriminate]. cbn [bind] in H. apply app_mag_image_iff in M; [|exact S]. destruct M as (n & file & C & F & M).
    exists n, file, m, c, e, b. repeat (split; [assumption || reflexivity|]). apply (f_equal (fun q => match q with Ok z => z | Raise _ => [] end)) in H. cbv beta iota in H. exact (proj2 (f2_map R (option R) _ _ (V m) _ zs) (eq_sym H)).
  - intros (n & file & m & c & e & b & C & F & M & P & F2). assert (MM : app_mag_image img E f star 1 = Ok m) by (apply app_mag_image_iff; [exact S|]; exists n, file; auto). rewrite MM, P. cbn [bind]. pose proof (proj1 (f2_map R (option R) _ _ (V m) _ zs) F2) as ->. reflexivity.
Qed.
End Frames.

(** ** Images in flux units *)
Lemma fluxed_spec : forall track n fac ferr f, well_formed n f -> exists o, flux_frame track (Some fac) (Some ferr) f = Ok o /\ fluxed track n fac ferr f o.
Proof.
  intros track n fac ferr f (Ld & Fe & NE). unfold flux_frame. rewrite Ld. set (sc := map (fun _ : rl => Some fac) (u_data f)). set (term := map (fun d => rmul d (Some ferr)) (u_data f)).
  destruct (rescale_spec sc n (u_err f)) as (e1 & E2 & F2); [unfold sc; rewrite map_length; exact Ld|exact Fe|]. rewrite E2. cbn [bind].
  assert (Fe1 : Forall (fun l => List.length l = n) e1) by (clear - F2; induction F2 as [|l o ls os (H & _) F IH]; constructor; assumption).
  assert (NE1 : e1 <> []) by (destruct (u_err f); [contradiction|]; inversion F2; discriminate).
  destruct (add_error_spec track term n e1 ltac:(unfold term; rewrite map_length; exact Ld) Fe1 NE1) as (l0' & l0 & rest & Ee1 & E5 & L5 & N5). rewrite E5. cbn [bind].
  assert (Len : List.length (u_err f) = S (List.length rest)) by (rewrite (Forall2_len _ _ _ _ _ F2), Ee1; reflexivity).
  assert (SC : forall i v, nth_error (u_data f) i = Some v -> nth_error sc i = Some (Some fac)) by (intros i v H; unfold sc; rewrite nth_error_map, H; reflexivity).
  assert (SL : forall l i v, In l (u_err f) -> nth_error l i = Some v -> nth_error sc i = Some (Some fac)).
  { intros l i v I H. rewrite Forall_forall in Fe. specialize (Fe l I). destruct (nth_lt _ (u_data f) i) as (z & Hz); [rewrite Ld, <- Fe; exact (nth_some_lt _ _ _ _ H)|]. exact (SC i z Hz). }
  assert (TM : forall i v, nth_error (u_data f) i = Some v -> nth_error term i = Some (rmul v (Some ferr))) by (intros i v H; unfold term; rewrite nth_error_map, H; reflexivity).
  assert (HD : exists q0 qr, u_err f = q0 :: qr /\ List.length q0 = n /\ forall i, nth_error l0 i = lift2 rmul (nth_error q0 i) (nth_error sc i)).
  { rewrite Ee1 in F2. inversion F2 as [|q0 o0 qr or' (Lo & No) Fr EQ]; subst. exists q0, qr. rewrite <- EQ in Fe. inversion Fe; subst. auto. }
  destruct HD as (q0 & qr & EQ & LQ & NQ).
  eexists. split; [reflexivity|]. split; [split; reflexivity|]. split.
  { split; [cbn; rewrite map_length; exact Ld|]. split; [|discriminate]. cbn. constructor; [exact L5|]. rewrite Ee1 in Fe1. inversion Fe1; subst. apply Forall_app. split; [assumption|]. destruct track; constructor; [unfold term; rewrite map_length; lia|constructor]. }
  split. { cbn. rewrite app_length, Len. destruct track; cbn; lia. }
  assert (JJ : forall j i x, (0 < j)%nat -> layer_px f j i x -> layer_px (set_u f (map (fun d => rmul d (Some fac)) (u_data f)) (l0' :: rest ++ (if track then [term] else []))) j i (rmul x (Some fac))).
  { intros j i x Hj (l & El & Hl). destruct (Forall2_nth _ _ _ _ _ j l F2 El) as (o & Eo & Lo & No). rewrite Ee1 in Eo. destruct j as [|j]; [lia|]. cbn in Eo.
    exists o. split; [cbn; rewrite nth_error_app1 by (apply nth_error_Some; rewrite Eo; discriminate); exact Eo|]. rewrite No, Hl, (SL l i x (nth_error_In _ _ El) Hl). reflexivity. }
  split; [|split; [|split; [|split; [|split]]]].
  - intros i d e (Hd & (q & qs & Eq & He)). rewrite EQ in Eq. injection Eq as <- <-. destruct (quad_some (e * fac) (d * ferr)) as (e' & Eqe & Pos & Sq). exists e'. split; [|split; [exact Pos|cbn [pow]; rewrite !Rmult_1_r; exact Sq]]. split.
    + cbn. rewrite nth_error_map, Hd. reflexivity.
    + exists l0', (rest ++ (if track then [term] else [])). split; [reflexivity|]. rewrite N5, NQ, He, (SC i _ Hd), (TM i _ Hd). cbn [lift2 rmul]. rewrite Eqe. reflexivity.
  - intros i H. split; [cbn; rewrite nth_error_map, H; reflexivity|]. exists l0'. split; [reflexivity|]. rewrite N5, (TM i _ H). destruct (nth_lt _ q0 i) as (z & Hz); [rewrite LQ, <- Ld; exact (nth_some_lt _ _ _ _ H)|]. rewrite NQ, Hz, (SC i _ H). cbn [lift2 rmul]. rewrite quad_none_r. reflexivity.
  - intros i (l & El & Hl). rewrite EQ in El. injection El as <-. assert (IQ : In q0 (u_err f)) by (rewrite EQ; left; reflexivity). exists l0'. split; [reflexivity|]. rewrite N5, NQ, Hl, (SL q0 i None IQ Hl).
    destruct (nth_lt _ (u_data f) i) as (z & Hz); [rewrite Ld, <- LQ; exact (nth_some_lt _ _ _ _ Hl)|]. rewrite (TM i z Hz). reflexivity.
  - intros j i x Hj H. exact (JJ j i (Some x) Hj H).
  - intros j i Hj H. exact (JJ j i None Hj H).
  - intros -> i d H. exists term. split; [|rewrite (TM i _ H); reflexivity]. cbn. rewrite Len. cbn. rewrite nth_error_app2 by lia. rewrite Nat.sub_diag. reflexivity.
Qed.
Lemma convert_ok : forall track n fac ferr fs col, first_col fs col -> col <> 0 -> Forall (fun p => well_formed n (snd p)) fs ->
  exists out, convert_to_flux track (Some fac) (Some ferr) fs = Ok out /\ Forall2 (fun p o => fst o = fst p /\ fluxed track n (fac / col) (ferr / col) (snd p) (snd o)) fs out.
Proof.
  intros track n fac ferr fs col (c & f & r & -> & HC) Z F. unfold convert_to_flux. assert (EC : match c with Some x => x | None => 1 end = col) by (destruct HC as [-> | (-> & ->)]; reflexivity). rewrite EC. unfold rdiv. destruct (Req_EM_T col 0); [contradiction|].
  apply (mapR_all _ _ _ (fun p => well_formed n (snd p))); [|exact F]. intros p W. destruct (fluxed_spec track n (fac / col) (ferr / col) (snd p) W) as (o & E & K). exists (fst p, o). rewrite E. cbn [bind]. split; [reflexivity|]. split; [reflexivity|exact K].
Qed.
