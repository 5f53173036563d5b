(** The calibration of a dataset. *)
From Coq Require Import List Arith Bool Reals ZArith Lra Lia String.
From Verif Require Import Base DqModel SpotModel SpotSpec SpotProofs SortGroupProofs BendModel BendSpec BendProofs BendFitProofs BoreModel BoreSpec BoreProofs.
Import ListNotations.
Local Open Scope R_scope.

Lemma rmean_average : forall A (g : A -> R) l, l <> [] -> average (map (fun s => Some (g s)) l) (Some (rmean (map g l))).
Proof. intros A g l N. left. exists (map g l). rewrite map_map. split; [reflexivity|]. split; [destruct l; [contradiction|discriminate]|]. unfold rmean. rewrite !map_length. reflexivity. Qed.
Lemma fits_iff : forall fm n, (match fm with Some m => (Nat.ltb 1 m && negb (Nat.eqb m n))%bool | None => false end) = false <-> fits_matches fm n.
Proof.
  intros [m|] n; unfold fits_matches; [|split; [discriminate|reflexivity]]. destruct (Nat.ltb_spec 1 m); cbn [andb]; [|split; [intros _ m' E L; injection E as <-; lia|reflexivity]].
  destruct (Nat.eqb_spec m n); cbn [negb]; [split; [intros _ m' E L; congruence|reflexivity]|]. split; [discriminate|]. intros K. exfalso. auto.
Qed.
Lemma nans_iff : forall sols : list sol, existsb (fun s => match fst (o_corr s) with None => true | Some _ => false end) sols = false <-> (forall s, In s sols -> fst (o_corr s) <> None).
Proof.
  induction sols as [|s sols IH]; cbn [existsb]; [split; [intros _ s []|reflexivity]|]. rewrite orb_false_iff, IH. split.
  - intros (A & B) s' [->|I]; [destruct (fst (o_corr s')); congruence|auto].
  - intros B. split; [|intros s' I; apply B; right; assumption]. assert (K := B s (or_introl eq_refl)). destruct (fst (o_corr s)); congruence.
Qed.

Section Bore.
  Variable solve : gframe -> result (list star * (R * R)).
  Variable gauss : image -> R -> R -> result (num * num).
  Variable sky2pix : wcs -> R -> R -> num * num.
  Variable offset_of : image -> R -> R -> R -> R -> result ((R * R) * (R * R)).
  Variable sky_sep sky_pa : R -> R -> R -> R -> R.
  Variable leastsq : (list num -> result (list num)) -> list R -> result (list R).
  Notation calibrate := (boresight_calibration solve gauss sky2pix offset_of sky_sep sky_pa leastsq).

  Lemma pair_iff : forall perr im t st p, pair_of offset_of sky_sep sky_pa perr im t st = Ok p <-> paired offset_of sky_sep sky_pa perr im t st p.
  Proof using.
    intros perr im t st p. unfold pair_of, paired. destruct (offset_of _ _ _ _ _) as [((dx & dy) & (ex & ey))|e]; cbn [bind].
    - split.
      + intros Q. exists dx, dy, ex, ey. split; [reflexivity|]. destruct perr; congruence.
      + intros (dx' & dy' & ex' & ey' & E & ->). injection E as <- <- <- <-. destruct perr; reflexivity.
    - split; [discriminate|]. intros (? & ? & ? & ? & E & _). discriminate.
  Qed.
  (** The pairs of stars of the fit of distortion. *)
  Theorem format_ok : forall perr frames sols ps, format_inputs offset_of sky_sep sky_pa perr frames (map o_stars sols) (map o_target sols) = Ok ps <-> formatted offset_of sky_sep sky_pa perr frames sols ps.
  Proof using.
    intros perr frames. induction frames as [|f fs IH]; intros sols ps; cbn [format_inputs].
    { split; [intros Q; injection Q as <-; constructor|inversion 1; reflexivity]. }
    destruct sols as [|s ss]; cbn [map]; [split; [discriminate|inversion 1]|]. assert (M : forall p, mapR (pair_of offset_of sky_sep sky_pa perr (g_im f) (o_target s)) (o_stars s) = Ok p <-> Forall2 (paired offset_of sky_sep sky_pa perr (g_im f) (o_target s)) (o_stars s) p).
    { intros p. rewrite mapR_iff. split; (intros F; induction F; [constructor|constructor; [apply pair_iff; assumption|assumption]]). }
    destruct (mapR _ _) as [p|e]; cbn [bind].
    - specialize (IH ss). destruct (format_inputs _ _ _ _ _ _ _) as [r|e]; cbn [bind].
      + split; [intros Q; injection Q as <-; constructor; [apply M; reflexivity|apply IH; reflexivity]|]. inversion 1 as [|f' fs' s' ss' p' q' FA FB]; subst. apply M in FA. apply IH in FB. congruence.
      + split; [discriminate|]. inversion 1 as [|f' fs' s' ss' p' q' FA FB]; subst. apply IH in FB. discriminate.
    - split; [discriminate|]. inversion 1 as [|f' fs' s' ss' p' q' FA FB]; subst. apply M in FA. discriminate.
  Qed.
  Lemma formatted_length : forall perr frames sols ps, formatted offset_of sky_sep sky_pa perr frames sols ps -> (List.length frames <= List.length sols)%nat.
  Proof using. induction 1; cbn [List.length]; lia. Qed.

  Lemma after_ok : forall frames sols find_distortion order perr guess data pos, sols <> [] ->
    ((do dist <- (if find_distortion : bool then
        do pairs <- format_inputs offset_of sky_sep sky_pa perr frames (map o_stars sols) (map o_target sols);
        compute_distortion leastsq order ((rmean (map o_ps sols) + rmean (map o_ps sols)) / 2) (rmean (map o_north sols)) pairs guess
      else Ok (default_coeffs order, order));
      match sols with
      | [] => Raise IndexError
      | s0 :: _ =>
        if existsb (fun s => match fst (o_corr s) with None => true | Some _ => false end) sols then Raise ValueError else
        Ok ([fst (o_corr s0); snd (o_corr s0); Some (rmean (map o_ps sols)); Some (rmean (map o_ps sols)); Some (rmean (map o_north sols)); nmean (map (fun s => fst (o_off s)) sols); nmean (map (fun s => snd (o_off s)) sols)] ++ distortion_part dist, map o_corr sols)
      end) = Ok (data, pos)) <->
    exists dist, (if find_distortion : bool then fitted offset_of sky_sep sky_pa leastsq perr guess order frames sols dist else dist = (default_coeffs order, order)) /\ (forall s, In s sols -> fst (o_corr s) <> None) /\ summary sols dist data /\ pos = map o_corr sols.
  Proof using.
    intros frames sols fd order perr guess data pos NE. assert (P := rmean_average _ o_ps sols NE). assert (N := rmean_average _ o_north sols NE). assert (HF : forall x : R, (x + x) / 2 = x) by (intros; field). rewrite HF.
    assert (FI : forall dist, (if fd then do pairs <- format_inputs offset_of sky_sep sky_pa perr frames (map o_stars sols) (map o_target sols); compute_distortion leastsq order (rmean (map o_ps sols)) (rmean (map o_north sols)) pairs guess else Ok (default_coeffs order, order)) = Ok dist <-> (if fd then fitted offset_of sky_sep sky_pa leastsq perr guess order frames sols dist else dist = (default_coeffs order, order))).
    { intros dist. destruct fd; [|split; congruence]. unfold fitted. destruct (format_inputs _ _ _ _ _ _ _) as [r|e] eqn:E; cbn [bind].
      - split; [intros Q; exists r, (rmean (map o_ps sols)), (rmean (map o_north sols)); split; [apply format_ok; assumption|auto]|]. intros (r' & ps & no & F & A & B & C). apply format_ok in F. rewrite E in F. injection F as <-. assert (X := average_unique _ _ _ P A). assert (Y := average_unique _ _ _ N B). injection X as <-. injection Y as <-. assumption.
      - split; [discriminate|]. intros (r' & ps & no & F & _). apply format_ok in F. congruence. }
    destruct (if fd then _ else _) as [dist|e]; cbn [bind].
    - assert (NI := nans_iff sols). destruct sols as [|s0 rest]; [contradiction|]. set (sols := s0 :: rest) in *. destruct (existsb _ sols).
      + split; [discriminate|]. intros (dist' & _ & Q & _). apply NI in Q. discriminate.
      + split.
        * intros Q. apply Ok_inj in Q. apply pair_equal_spec in Q. destruct Q as (<- & <-). exists dist. split; [apply FI; reflexivity|]. split; [apply NI; reflexivity|]. split; [|reflexivity]. exists s0, rest. eexists _, _, _, _. split; [reflexivity|]. split; [exact P|]. split; [exact N|]. split; [apply nmean_average|]. split; [apply nmean_average|reflexivity].
        * intros (dist' & FD & _ & (s & rest' & ps & no & ora & odec & E & A & B & C & D & ->) & ->). injection E as <- <-. apply FI in FD. injection FD as <-. apply nmean_iff in C. apply nmean_iff in D. subst ora odec. assert (X := average_unique _ _ _ P A). assert (Y := average_unique _ _ _ N B). injection X as <-. injection Y as <-. reflexivity.
    - split; [discriminate|]. intros (dist & FD & _). apply FI in FD. discriminate.
  Qed.
  Lemma measures_iff : forall frames sols, mapR (measure solve gauss sky2pix) frames = Ok sols <-> Forall2 (solved solve gauss sky2pix) frames sols.
  Proof using. intros frames sols. rewrite mapR_iff. split; (intros F; induction F; [constructor|constructor; [apply measure_ok; assumption|assumption]]). Qed.

  (** The whole calibration, of separate frames. *)
  Theorem calibration : forall frames fm find_distortion order perr guess data pos, frames <> [] ->
    (calibrate frames fm None find_distortion order perr guess = Ok (data, pos) <->
     fits_matches fm (List.length frames) /\ exists sols dist, Forall2 (solved solve gauss sky2pix) frames sols /\
       (if find_distortion : bool then fitted offset_of sky_sep sky_pa leastsq perr guess order frames sols dist else dist = (default_coeffs order, order)) /\
       (forall s, In s sols -> fst (o_corr s) <> None) /\ summary sols dist data /\ pos = map o_corr sols).
  Proof using.
    intros frames fm fd order perr guess data pos NE. unfold boresight_calibration. assert (FM := fits_iff fm (List.length frames)). destruct (match fm with Some _ => _ | None => false end).
    { split; [discriminate|]. intros (Q & _). apply FM in Q. discriminate. }
    cbn [bind]. destruct (mapR _ frames) as [sols|e] eqn:E; cbn [bind].
    - apply measures_iff in E. assert (NS : sols <> []) by (destruct E; [contradiction|discriminate]). cbv zeta. rewrite after_ok by assumption. split.
      + intros (dist & X). split; [apply FM; reflexivity|]. exists sols, dist. auto.
      + intros (_ & sols' & dist & F & X). exists dist. assert (sols' = sols) by (apply measures_iff in E; apply measures_iff in F; congruence). subst. assumption.
    - split; [discriminate|]. intros (_ & sols & dist & F & _). apply measures_iff in F. congruence.
  Qed.
  (** Frames combined by [k]: the same of the means; never with a fit of distortion, unless every frame is alone. *)
  Theorem calibration_combined : forall frames fm k order perr guess data pos, frames <> [] -> (0 < k)%nat ->
    exists means, combined k frames means /\
    (calibrate frames fm (Some k) false order perr guess = Ok (data, pos) <->
     fits_matches fm (List.length frames) /\ exists sols, Forall2 (solved solve gauss sky2pix) means sols /\ (forall s, In s sols -> fst (o_corr s) <> None) /\ summary sols (default_coeffs order, order) data /\ pos = map o_corr sols).
  Proof using.
    intros frames fm k order perr guess data pos NE K. destruct (combine_ok k frames K NE) as (means & E & C). exists means. split; [assumption|]. unfold boresight_calibration. assert (FM := fits_iff fm (List.length frames)). destruct (match fm with Some _ => _ | None => false end).
    { split; [discriminate|]. intros (Q & _). apply FM in Q. discriminate. }
    rewrite E. cbn [bind]. assert (NM : means <> []) by (destruct C; discriminate). destruct (mapR _ means) as [sols|e] eqn:M; cbn [bind].
    - apply measures_iff in M. assert (NS : sols <> []) by (destruct M; [contradiction|discriminate]). cbv zeta. assert (AO := after_ok frames sols false order perr guess data pos NS). cbv iota in AO. cbn [bind] in AO |- *. rewrite AO. split.
      + intros (dist & -> & X). split; [apply FM; reflexivity|]. exists sols. auto.
      + intros (_ & sols' & F & X). exists (default_coeffs order, order). split; [reflexivity|]. assert (sols' = sols) by (apply measures_iff in M; apply measures_iff in F; congruence). subst. assumption.
    - split; [discriminate|]. intros (_ & sols & F & _). apply measures_iff in F. congruence.
  Qed.
  Theorem combined_distortion : forall frames fm k order perr guess, (1 < k)%nat -> (1 < List.length frames)%nat -> exists e, calibrate frames fm (Some k) true order perr guess = Raise e.
  Proof using.
    intros frames fm k order perr guess K L. assert (NE : frames <> []) by (destruct frames; [cbn in L; lia|discriminate]). destruct (combine_ok k frames ltac:(lia) NE) as (means & E & C). unfold boresight_calibration. destruct (match fm with Some _ => _ | None => false end); [eauto|].
    rewrite E. cbn [bind]. destruct (mapR _ means) as [sols|e] eqn:M; cbn [bind]; [|eauto]. apply measures_iff in M. assert (LS : List.length sols = List.length means) by (clear - M; induction M; cbn; congruence). assert (CC := combined_count k frames means ltac:(lia) C).
    destruct (format_inputs _ _ _ _ _ _ _) as [ps|e] eqn:F; cbn [bind]; [|eauto]. apply format_ok in F. apply formatted_length in F. exfalso. assert (List.length means <> 0)%nat by (destruct C; discriminate). nia.
  Qed.
  (** What a calibration without distortion is refused for. *)
  Theorem calibration_refused : forall frames fm order perr guess e, frames <> [] ->
    (calibrate frames fm None false order perr guess = Raise e <->
     (~ fits_matches fm (List.length frames) /\ e = TypeError) \/
     (fits_matches fm (List.length frames) /\
       ((exists l1 f l2, frames = l1 ++ f :: l2 /\ fails solve gauss f e /\ forall g, In g l1 -> exists s, solved solve gauss sky2pix g s) \/
        (e = ValueError /\ exists sols s, Forall2 (solved solve gauss sky2pix) frames sols /\ In s sols /\ fst (o_corr s) = None)))).
  Proof using.
    intros frames fm order perr guess e NE. unfold boresight_calibration. assert (FM := fits_iff fm (List.length frames)). destruct (match fm with Some _ => _ | None => false end).
    { split; [intros Q; injection Q as <-; left; split; [intros Z; apply FM in Z; discriminate|reflexivity]|]. intros [(_ & ->)|(Z & _)]; [reflexivity|apply FM in Z; discriminate]. }
    assert (OK : fits_matches fm (List.length frames)) by (apply FM; reflexivity). cbn [bind]. assert (MR := mapR_first_raise _ _ (measure solve gauss sky2pix) frames e). assert (MI := measures_iff frames). destruct (mapR _ frames) as [sols|e'] eqn:M; cbn [bind].
    - assert (FA : Forall2 (solved solve gauss sky2pix) frames sols) by (apply MI; reflexivity). assert (NI := nans_iff sols). assert (NS : sols <> []) by (destruct FA; [contradiction|discriminate]). destruct sols as [|s0 rest]; [contradiction|]. set (sols := s0 :: rest) in *. destruct (existsb _ sols) eqn:X.
      + split.
        * intros Q. injection Q as <-. right. split; [assumption|]. right. split; [reflexivity|]. apply existsb_exists in X. destruct X as (s & I & X). exists sols, s. split; [assumption|]. split; [assumption|]. destruct (fst (o_corr s)); [discriminate|reflexivity].
        * intros [(Z & _)|(_ & [(l1 & f & l2 & -> & FF & B)|(-> & _)])]; [contradiction| |reflexivity]. assert (Z : @Ok (list sol) sols = Raise e); [|discriminate Z]. apply MR. exists l1, f, l2. split; [reflexivity|]. split; [apply measure_raise; assumption|]. intros g I. destruct (B g I) as (s & G). exists s. apply measure_ok. assumption.
      + split; [discriminate|]. intros [(Z & _)|(_ & [(l1 & f & l2 & -> & FF & B)|(_ & sols' & s & F & I & N)])]; [contradiction| |].
        * assert (Z : @Ok (list sol) sols = Raise e); [|discriminate Z]. apply MR. exists l1, f, l2. split; [reflexivity|]. split; [apply measure_raise; assumption|]. intros g I. destruct (B g I) as (s & G). exists s. apply measure_ok. assumption.
        * exfalso. apply MI in F. apply Ok_inj in F. subst sols'. exact (proj1 NI eq_refl s I N).
    - split.
      + intros Q. injection Q as ->. right. split; [assumption|]. left. destruct (proj1 MR eq_refl) as (l1 & f & l2 & E & FF & B). exists l1, f, l2. split; [assumption|]. split; [apply measure_raise with sky2pix; assumption|]. intros g I. destruct (B g I) as (s & G). exists s. apply measure_ok. assumption.
      + intros [(Z & _)|(_ & [(l1 & f & l2 & -> & FF & B)|(_ & sols' & s & F & _)])]; [contradiction| |apply MI in F; discriminate].
        assert (Z : @Raise (list sol) e' = Raise e); [|congruence]. apply MR. exists l1, f, l2. split; [reflexivity|]. split; [apply measure_raise; assumption|]. intros g I. destruct (B g I) as (s & G). exists s. apply measure_ok. assumption.
  Qed.
  (** Without a star in the middle there is no calibration. *)
  Theorem no_central : forall frames fm k find_distortion order perr guess f ra dec stars props, frames = [f] -> g_ra f = Some ra -> g_dec f = Some dec -> solve f = Ok (stars, props) -> (forall st, In st stars -> ~ in_middle (g_im f) st) -> k = None ->
    exists e, calibrate frames fm k find_distortion order perr guess = Raise e.
  Proof using.
    intros frames fm k fd order perr guess f ra dec stars (ps & north) -> RA DE S H ->. assert (NE : [f] <> []) by discriminate. destruct (calibrate _ _ _ _ _ _ _) as [(data & pos)|e] eqn:E; [|eauto]. exfalso. apply calibration in E; [|assumption]. destruct E as (_ & sols & dist & F & _ & N & _). inversion F as [|? s ? ? SO FN]; subst. inversion FN; subst.
    destruct SO as (ra' & dec' & stars' & ps' & north' & b & _ & _ & S' & (w & cs & offs & mx & my & _ & PK & F2 & MX & _ & ->) & ->). rewrite S in S'. injection S' as <- <- <-. assert (cs = []). { clear - PK H. induction PK as [|a l m P Q IH|a l m P Q IH]; [reflexivity| |apply IH; intros st I; apply H; right; assumption]. exfalso. apply (H a); [left; reflexivity|assumption]. } subst. inversion F2; subst. cbn [map] in MX. apply nmean_iff in MX. assert (MN : mx = None) by (rewrite (average_unique [] mx None); [reflexivity|subst; apply nmean_average|right; auto]). subst mx. rewrite MN in N. exact (N _ (or_introl eq_refl) eq_refl).
  Qed.
End Bore.

(** Examples *)
Definition eight : image := mkimage 8 8 (fun _ _ => Some 0).
Definition at_a : gframe := mkg eight (Some 10) (Some 20) "a"%string.
Definition at_b : gframe := mkg eight (Some 10) (Some 20) "b"%string.
Definition middle : star := mkstar 4 4 10 20.
Definition turning (f : gframe) : result (list star * (R * R)) := Ok ([middle], (1, if String.eqb (g_name f) "a" then 179 else -179)).
Definition there (w : wcs) (a d : R) : num * num := (Some 4, Some 4).
Definition fit_there (im : image) (x y : R) : result (num * num) := Ok (Some 4, Some 4).
Lemma middle_in : in_middle eight middle.
Proof. unfold in_middle. cbn. lra. Qed.
Lemma turning_bore : forall ra dec ps no, compute_boresight fit_there there eight [middle] (ra, dec) (ps, no) = Ok (Some 0, Some 0).
Proof.
  intros ra dec ps no. apply bore_ok. exists (header_of eight (ra, dec) (ps, no)), [middle], [(Some 0, Some 0)], (Some 0), (Some 0). split; [apply header_points|]. split; [apply picks_yes; [apply middle_in|constructor]|].
  split; [constructor; [|constructor]; exists (Some 4, Some 4); split; [reflexivity|]; cbn; f_equal; f_equal; lra|]. split; [left; exists [0]; split; [reflexivity|]; split; [discriminate|]; cbn; f_equal; field|]. split; [left; exists [0]; split; [reflexivity|]; split; [discriminate|]; cbn; f_equal; field|]. cbn. f_equal; f_equal; field.
Qed.
Theorem north_refuted : exists solve gauss sky2pix f1 f2 stars data pos,
  solve f1 = Ok (stars, (1, 179)) /\ solve f2 = Ok (stars, (1, -179)) /\
  (forall offset_of sky_sep sky_pa leastsq, boresight_calibration solve gauss sky2pix offset_of sky_sep sky_pa leastsq [f1; f2] None None false 1 None None = Ok (data, pos)) /\ nth_error data 4 = Some (Some 0).
Proof.
  exists turning, fit_there, there, at_a, at_b, [middle].
  set (s1 := mksol (Some (10 - 0), Some (20 - 0)) 1 179 (Some 0, Some 0) [middle] (mkstar (INR 3) (INR 3) 10 20)). set (s2 := mksol (Some (10 - 0), Some (20 - 0)) 1 (-179) (Some 0, Some 0) [middle] (mkstar (INR 3) (INR 3) 10 20)).
  exists ([Some (10 - 0); Some (20 - 0); Some 1; Some 1; Some 0; Some 0; Some 0] ++ map Some (default_coeffs 1) ++ [Some (INR 1)]), (map o_corr [s1; s2]).
  split; [reflexivity|]. split; [reflexivity|]. split; [|reflexivity]. intros offset_of sky_sep sky_pa leastsq. apply calibration; [discriminate|]. split; [intros m Q; discriminate|]. exists [s1; s2], (default_coeffs 1, 1%nat).
  split. { constructor; [|constructor; [|constructor]]; [exists 10, 20, [middle], 1, 179, (Some 0, Some 0)|exists 10, 20, [middle], 1, (-179), (Some 0, Some 0)]; (split; [reflexivity|]; split; [reflexivity|]; split; [reflexivity|]; split; [apply bore_ok; apply turning_bore|reflexivity]). }
  split; [reflexivity|]. split. { intros s [<-|[<-|[]]]; discriminate. }
  split; [|reflexivity]. exists s1, [s2], 1, 0, (Some 0), (Some 0). split; [reflexivity|].
  split; [left; exists [1; 1]; split; [reflexivity|]; split; [discriminate|]; cbn; f_equal; field|]. split; [left; exists [179; -179]; split; [reflexivity|]; split; [discriminate|]; cbn; f_equal; field|].
  split; [left; exists [0; 0]; split; [reflexivity|]; split; [discriminate|]; cbn; f_equal; field|]. split; [left; exists [0; 0]; split; [reflexivity|]; split; [discriminate|]; cbn; f_equal; field|]. reflexivity.
Qed.
(** With north up: the declination is corrected to the true one, the right ascension away from it. *)
Theorem corrected_at_zero : forall solve gauss sky2pix q f stars ra dec ps ra1 dec1 w w1, g_ra f = Some ra -> g_dec f = Some dec -> solve f = Ok (stars, (ps, 0)) ->
  points (g_im f) ra dec ps 0 w -> points (g_im f) ra1 dec1 ps 0 w1 -> ps <> 0 -> (exists st, In st stars /\ in_middle (g_im f) st) ->
  (forall st, In st stars -> in_middle (g_im f) st -> exists x y x1 y1, sky2pix w (s_ra st) (s_dec st) = (Some x, Some y) /\ flat_at q w (s_ra st) (s_dec st) x y /\ gauss (g_im f) (s_x st) (s_y st) = Ok (Some x1, Some y1) /\ flat_at q w1 (s_ra st) (s_dec st) x1 y1) ->
  exists s, solved solve gauss sky2pix f s /\ o_corr s = (Some (ra + (ra - ra1) * q), Some dec1).
Proof.
  intros solve gauss sky2pix q f stars ra dec ps ra1 dec1 w w1 RA DE SO PW PW1 PS EX H. assert (P := pointing gauss sky2pix q (g_im f) stars ra dec ps 0 ra1 dec1 w w1 PW PW1 PS EX H). apply bore_ok in P. eexists. split; [exists ra, dec, stars, ps, 0; eexists; split; [assumption|]; split; [assumption|]; split; [assumption|]; split; [exact P|reflexivity]|].
  cbn [o_corr fst snd minus]. replace (0 * PI / 180) with 0 by field. rewrite sin_0, cos_0. f_equal; f_equal; ring.
Qed.
Definition two_off (im : image) (x y : R) : result (num * num) := Ok (Some (INR 4 - 1 - 3600000), Some (INR 4 - 1)).
Definition flat_map (w : wcs) (a d : R) : num * num := (Some (crpix1 w - 1 + (a - crval1 w) / cd11 w), Some (crpix2 w - 1 + (d - crval2 w) / cd22 w)).
Definition one_star (f : gframe) : result (list star * (R * R)) := Ok ([mkstar 4 4 10 20], (1, 0)).
Theorem right_ascension_refuted : exists solve gauss sky2pix f stars ps w1 s,
  solve f = Ok (stars, (ps, 0)) /\ points (g_im f) 9 20 ps 0 w1 /\ stars <> [] /\
  (forall st, In st stars -> in_middle (g_im f) st /\ exists x1 y1, gauss (g_im f) (s_x st) (s_y st) = Ok (Some x1, Some y1) /\ flat_at 1 w1 (s_ra st) (s_dec st) x1 y1) /\
  (forall w a d, cd11 w <> 0 -> cd22 w <> 0 -> cd12 w = 0 -> cd21 w = 0 -> exists x y, sky2pix w a d = (Some x, Some y) /\ flat_at 1 w a d x y) /\
  g_ra f = Some 10 /\ g_dec f = Some 20 /\ solved solve gauss sky2pix f s /\ o_corr s = (Some 11, Some 20).
Proof.
  assert (F : forall w a d, cd11 w <> 0 -> cd22 w <> 0 -> cd12 w = 0 -> cd21 w = 0 -> exists x y, flat_map w a d = (Some x, Some y) /\ flat_at 1 w a d x y).
  { intros w a d A B C D. eexists _, _. split; [reflexivity|]. unfold flat_at. rewrite C, D. split; field; repeat split; assumption. }
  assert (HP : forall ra dec, points eight ra dec 1 0 (header_of eight (ra, dec) (1, 0))) by (intros; apply header_points).
  assert (GA : flat_at 1 (header_of eight (9, 20) (1, 0)) 10 20 (INR 4 - 1 - 3600000) (INR 4 - 1)). { unfold flat_at, header_of. cbn [cd11 cd12 cd21 cd22 crpix1 crpix2 crval1 crval2 fst snd]. change (nx eight / 2)%nat with 4%nat. change (ny eight / 2)%nat with 4%nat. replace (0 * PI / 180) with 0 by field. rewrite sin_0, cos_0. split; field. }
  destruct (corrected_at_zero one_star two_off flat_map 1 at_a [middle] 10 20 1 9 20 (header_of eight (10, 20) (1, 0)) (header_of eight (9, 20) (1, 0))) as (s & SO & E); try reflexivity; try apply HP; try lra.
  { exists middle. split; [left; reflexivity|apply middle_in]. }
  { intros st [<-|[]] _. destruct (F (header_of eight (10, 20) (1, 0)) 10 20) as (x & y & X & Y); try (unfold header_of; cbn [cd11 cd12 cd21 cd22 fst snd]; replace (0 * PI / 180) with 0 by field; rewrite ?sin_0, ?cos_0; lra). exists x, y, (INR 4 - 1 - 3600000), (INR 4 - 1). split; [exact X|]. split; [exact Y|]. split; [reflexivity|exact GA]. }
  exists one_star, two_off, flat_map, at_a, [middle], 1, (header_of eight (9, 20) (1, 0)), s. split; [reflexivity|]. split; [apply HP|]. split; [discriminate|]. split. { intros st [<-|[]]. split; [apply middle_in|]. eexists _, _. split; [reflexivity|exact GA]. }
  split; [exact F|]. split; [reflexivity|]. split; [reflexivity|]. split; [exact SO|]. rewrite E. f_equal. f_equal. ring.
Qed.
Definition on_star (stars : list star) (x y : R) : bool := existsb (fun s => if Req_EM_T x (s_x s) then if Req_EM_T y (s_y s) then true else false else false) stars.
Theorem offset_refuted : exists (offset_of : image -> R -> R -> R -> R -> result ((R * R) * (R * R))) stars t st,
  In t stars /\ In st stars /\
  (forall im s1 s2, In s1 stars -> In s2 stars -> offset_of im (s_x s1) (s_y s1) (s_x s2 - s_x s1) (s_y s2 - s_y s1) = Ok ((s_x s2 - s_x s1, s_y s2 - s_y s1), (0, 0))) /\
  (forall sky_sep sky_pa perr im p, ~ paired offset_of sky_sep sky_pa perr im t st p).
Proof.
  set (t := mkstar 4 4 0 0). set (st := mkstar 6 4 1 0). set (stars := [t; st]). exists (fun _ x y ox oy => if on_star stars (x + ox) (y + oy) then Ok ((ox, oy), (0, 0)) else Raise PyException), stars, t, st.
  split; [left; reflexivity|]. split; [right; left; reflexivity|]. split.
  - intros im s1 s2 I1 I2. assert (Q : on_star stars (s_x s1 + (s_x s2 - s_x s1)) (s_y s1 + (s_y s2 - s_y s1)) = true). { replace (s_x s1 + (s_x s2 - s_x s1)) with (s_x s2) by ring. replace (s_y s1 + (s_y s2 - s_y s1)) with (s_y s2) by ring. apply existsb_exists. exists s2. split; [assumption|]. destruct (Req_EM_T _ _); [|congruence]. destruct (Req_EM_T _ _); [reflexivity|congruence]. } rewrite Q. reflexivity.
  - intros sep pa perr im p (dx & dy & ex & ey & E & _). assert (Q : on_star stars (s_x st + (s_x st - s_x t)) (s_y st + (s_y st - s_y t)) = false). { unfold on_star, stars, st, t. cbn [existsb s_x s_y]. destruct (Req_EM_T _ _); [lra|]. destruct (Req_EM_T _ _); [lra|reflexivity]. } rewrite Q in E. discriminate.
Qed.
(** The names of combined frames. *)
Example combined_ex : combine_from 3 2 [at_a; at_b; at_a] 0 = Ok [mkg (mean_image [at_a; at_b]) (Some 10) (Some 20) "a"; mkg (mean_image [at_a]) (Some 10) (Some 20) "a"]%string.
Proof. reflexivity. Qed.
