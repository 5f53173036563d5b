(** Proofs: datasets, stamps and the product. *)
From Coq Require Import List Arith Bool Reals ZArith String Sorting Lia Lra FunctionalExtensionality.
From Verif Require Import Base CombineModel ComboSpec ComboProofs DqModel FindModel FindProofs AngleSpec NearModel NearSpec NearProofs FlatModel FlatSpec FlatProofs FlatTopProofs FluxModel FluxSpec FluxProofs FluxBandProofs FluxRunProofs CtModel CtSpec CtProofs CtSetProofs.
Import ListNotations.
Local Open Scope R_scope.

Lemma f2_impl : forall A B (P Q : A -> B -> Prop), (forall a b, P a b -> Q a b) -> forall l m, Forall2 P l m -> Forall2 Q l m.
Proof. intros A B P Q H l m F. induction F; constructor; auto. Qed.
Lemma is_card_iff : forall o s, is_card o s = true <-> o = Some s.
Proof. intros [x|] s; cbn; [rewrite String.eqb_eq; split; congruence|split; discriminate]. Qed.
Lemma pupil_iff : forall t, is_pupil t = true <-> pupil_frame t.
Proof. intros t. unfold is_pupil, pupil_frame. rewrite !andb_true_iff, !is_card_iff. tauto. Qed.
Lemma not_pupil_iff : forall t, negb (is_pupil t) = true <-> ~ pupil_frame t.
Proof. intros t. rewrite negb_true_iff, <- pupil_iff. destruct (is_pupil t); split; congruence. Qed.
Lemma offaxis_iff : forall l ch, offaxis l ch <-> ch = filter (fun t => negb (is_pupil t)) l.
Proof. intros l ch. unfold offaxis. apply sieve_filter. exact not_pupil_iff. Qed.
Lemma pupils_iff : forall l ps, sieve pupil_frame l ps <-> ps = filter is_pupil l.
Proof. intros l ps. apply sieve_filter. exact pupil_iff. Qed.
Lemma one_cfam_iff : forall l n, one_cfam l = Ok n <-> one_filter l n.
Proof.
  intros l n. unfold one_cfam, one_filter. split.
  - destruct (mapR _ l) as [names|] eqn:M; cbn [bind]; [|discriminate]. apply mapR_f2 in M. destruct names as [|m names]; [discriminate|]. destruct (forallb (String.eqb m) names) eqn:F; [|discriminate]. intros H. injection H as <-. rewrite forallb_forall in F.
    inversion M as [|t ? r ? T M']; subst. split; [discriminate|]. constructor; [destruct (t_cfam t); congruence|]. clear T. assert (G : forall x, In x names -> x = m) by (intros x X; symmetry; apply String.eqb_eq; apply F; exact X). clear F M. revert G. induction M' as [|u x r names T M IH]; intros G; constructor; [destruct (t_cfam u); [|discriminate]; injection T as ->; rewrite (G x (or_introl eq_refl)); reflexivity|]. apply IH. intros y Y. apply G. right. exact Y.
  - intros (N & F). assert (M : mapR (fun t => match t_cfam t with Some n => Ok n | None => Raise PyException end) l = Ok (map (fun _ => n) l)). { apply mapR_f2. clear N. induction F as [|t l T F IH]; cbn [map]; constructor; [rewrite T; reflexivity|exact IH]. }
    rewrite M. cbn [bind]. destruct l as [|t l]; [congruence|]. cbn [map]. replace (forallb (String.eqb n) (map (fun _ : ctframe => n) l)) with true; [reflexivity|]. symmetry. apply forallb_forall. intros x X. apply in_map_iff in X. destruct X as (u & <- & _). apply String.eqb_refl.
Qed.
Lemma one_filter_one : forall l a b, one_filter l a -> one_filter l b -> a = b.
Proof. intros l a b A B. apply one_cfam_iff in A. apply one_cfam_iff in B. congruence. Qed.
Definition pupil_mean (l : list ctframe) : val := vdiv (vsum (map (fun t => vsum (values (t_img t))) l)) (Some (INR (List.length l))).
Lemma unocculted_iff : forall L cfam ver l norm, sorted_lenses L ->
  (unocculted L cfam ver l norm <-> filter is_pupil l <> [] /\ exists k, di_over_pil L cfam ver = Ok k /\ norm = vmul (pupil_mean (filter is_pupil l)) k).
Proof.
  intros L cfam ver l norm SO. unfold unocculted, pupil_mean.
  assert (F : forall ps vs, Forall2 (fun t v => total (map (value_of (t_img t)) (places (t_img t))) v) ps vs <-> vs = map (fun t => vsum (values (t_img t))) ps) by (intros ps vs; apply f2_map; intros t v; apply total_iff). split.
  - intros (ps & vs & s & k & P & N & V & S & K & ->). apply pupils_iff in P. subst ps. apply F in V. subst vs. apply total_iff in S. subst s. split; [exact N|]. exists k. split; [apply ratio_iff; assumption|reflexivity].
  - intros (N & k & K & ->). exists (filter is_pupil l), (map (fun t => vsum (values (t_img t))) (filter is_pupil l)). do 2 eexists. split; [apply pupils_iff; reflexivity|]. split; [exact N|]. split; [apply F; reflexivity|]. split; [apply total_iff; reflexivity|]. split; [apply ratio_iff; [exact SO|exact K]|reflexivity].
Qed.
Lemma estimate_iff : forall L ver r l pos ct, sorted_lenses L -> (estimate L ver r l = Ok (pos, ct) <-> estimates L ver r l pos ct).
Proof.
  intros L ver r l pos ct SO. unfold estimate, estimates.
  assert (P : forall ch, mapR (fun t => centroid_with_roi (t_img t) r) ch = Ok pos <-> Forall2 (fun t p => position (t_img t) r (fst p) (snd p)) ch pos).
  { intros ch. rewrite mapR_f2. split; apply f2_impl; intros t [x y]; apply position_iff. }
  assert (T : forall norm ch, mapR (fun t => psf_ct norm (t_img t)) ch = Ok ct <-> Forall2 (fun t v => throughput norm (t_img t) v) ch ct).
  { intros norm ch. rewrite mapR_f2. split; apply f2_impl; intros t v; apply throughput_iff. }
  split.
  - destruct (one_cfam l) as [cfam|] eqn:C; cbn [bind]; [|discriminate]. apply one_cfam_iff in C. destruct (filter is_pupil l) as [|p0 ps] eqn:PU; [discriminate|]. destruct (di_over_pil L cfam ver) as [k|] eqn:K; cbn [bind]; [|discriminate]. destruct (filter (fun t => negb (is_pupil t)) l) as [|o0 os] eqn:OF; [discriminate|].
    destruct (mapR (fun t => centroid_with_roi (t_img t) r) (o0 :: os)) as [pos'|] eqn:MP; cbn [bind]; [|discriminate]. destruct (mapR (fun t => psf_ct _ (t_img t)) (o0 :: os)) as [ct'|] eqn:MT; cbn [bind]; [|discriminate]. intros H. injection H as -> ->.
    exists cfam. eexists. exists (o0 :: os). split; [exact C|]. split; [apply unocculted_iff; [exact SO|]; rewrite PU; split; [discriminate|]; exists k; split; [exact K|reflexivity]|]. split; [apply offaxis_iff; symmetry; exact OF|]. split; [discriminate|]. split; [apply P; exact MP|apply T; exact MT].
  - intros (cfam & norm & ch & C & U & O & N & FP & FT). apply one_cfam_iff in C. rewrite C. cbn [bind]. apply unocculted_iff in U; [|exact SO]. destruct U as (NP & k & K & ->). apply offaxis_iff in O. unfold pupil_mean in FT. destruct (filter is_pupil l) as [|p0 ps]; [congruence|]. rewrite K. cbn [bind]. rewrite <- O. destruct ch as [|o0 os]; [congruence|].
    apply P in FP. rewrite FP. cbn [bind]. apply T in FT. rewrite FT. reflexivity.
Qed.

(** ** Stamps *)
Lemma cut_iff : forall n t loc s, cut n t loc = Ok s <-> cut_of n t loc s.
Proof.
  intros n t loc s. unfold cut, cut_of. split.
  - destruct loc as [[x|] [y|]]; try discriminate. cbv zeta. intros H. apply (f_equal (fun r => match r with Ok z => z | Raise _ => s end)) in H. cbv beta iota in H. subst s.
    exists x, y, (rint x), (rint y). split; [reflexivity|]. split; [apply rint_rounds|]. split; [apply rint_rounds|]. cbn [fst snd crop rows cols pix ymin ymax xmin xmax]. rewrite !bound_extent, !bound_start. split; [reflexivity|]. split; [reflexivity|]. intros i j. split; reflexivity.
  - intros (x & y & ix & iy & -> & RX & RY & RO & CO & PX). apply rounds_iff in RX. apply rounds_iff in RY. subst ix iy. cbv zeta. apply (f_equal (@Ok stamp)). destruct s as [g d]. cbn [fst snd] in *. apply (f_equal2 (@pair img (nat -> nat -> Z))).
    + apply img_ext; cbn [crop rows cols pix ymin ymax xmin xmax]; [rewrite bound_extent; symmetry; exact RO|rewrite bound_extent; symmetry; exact CO|]. intros i j. rewrite !bound_start. symmetry. apply PX.
    + apply functional_extensionality. intros i. apply functional_extensionality. intros j. cbn [ymin xmin]. rewrite !bound_start. symmetry. apply PX.
Qed.
Lemma cuts_iff : forall n l locs ss, (cuts n l locs = Ok ss /\ List.length ss = List.length locs) <->
  exists us, Forall2 (fun t x => cut_of n t (fst x) (snd x)) (filter (fun t => negb (is_pupil t)) l) us /\ map fst us = locs /\ map snd us = ss.
Proof.
  intros n. induction l as [|t l IH]; intros locs ss; cbn [cuts filter].
  - split; [intros (H & LE); injection H as <-; destruct locs; [|discriminate]; exists []; repeat split; constructor|]. intros (us & F & <- & <-). inversion F; subst. auto.
  - destruct (is_pupil t); cbn [negb]; [apply IH|]. split.
    + intros (H & LE). destruct locs as [|loc locs]; [discriminate|]. destruct (cut n t loc) as [s|] eqn:C; cbn [bind] in H; [|discriminate]. destruct (cuts n l locs) as [ss'|] eqn:CS; cbn [bind] in H; [|discriminate]. injection H as <-. injection LE as LE. destruct (proj1 (IH locs ss') (conj CS LE)) as (us & F & <- & <-). exists ((loc, s) :: us). split; [constructor; [apply cut_iff; exact C|exact F]|split; reflexivity].
    + intros (us & F & <- & <-). inversion F as [|? [loc s] ? us' C F']; subst. cbn [map fst snd] in *. apply cut_iff in C. rewrite C. cbn [bind]. destruct (proj2 (IH (map fst us') (map snd us')) (ex_intro _ us' (conj F' (conj eq_refl eq_refl)))) as (E & LE). rewrite E. cbn [bind List.length]. split; [reflexivity|f_equal; exact LE].
Qed.
Lemma same_rows : forall f g, same f g = true <-> rows f = rows g /\ cols f = cols g.
Proof. intros f g. unfold same. rewrite andb_true_iff, !Nat.eqb_eq. reflexivity. Qed.
Lemma alike_iff : forall ss, (match ss with [] => true | s :: r => forallb (fun s' => same (fst s) (fst s')) r end) = true <-> alike ss.
Proof.
  intros [|s r]; [split; [intros _ s s' []|reflexivity]|]. rewrite forallb_forall. split.
  - intros H. assert (K : forall x, In x (s :: r) -> rows (fst s) = rows (fst x) /\ cols (fst s) = cols (fst x)) by (intros x [<- | X]; [auto|apply same_rows; apply H; exact X]). intros a b A B. destruct (K a A) as (A1 & A2). destruct (K b B) as (B1 & B2). split; congruence.
  - intros A x X. apply same_rows. apply A; [left; reflexivity|right; exact X].
Qed.
Lemma ceil_up : forall x n, x <= IZR n < x + 1 <-> n = ceil x.
Proof. intros x n. pose proof (ceil_iff x n) as C. split; [intros H; symmetry; apply C; lra|intros H; symmetry in H; apply C in H; lra]. Qed.
Lemma half_side_iff : forall L name ver n, half_side L name ver n <-> exists file, curve_file L name ver file /\ l_curve L file <> [] /\ n = n_pix_psf (map fst (l_curve L file)).
Proof.
  intros L name ver n. unfold half_side, n_pix_psf. pose proof PI_RGT_0 as PI0.
  assert (LN : forall C : list (R * R), C <> [] -> INR (List.length C) <> 0) by (intros [|c C] H; [congruence|]; apply not_0_INR; discriminate). split.
  - intros (file & m & F & N & M & H). exists file. split; [exact F|]. split; [exact N|]. cbv zeta in H. apply ceil_up in H. rewrite H. apply (f_equal ceil). rewrite map_length, <- M. field. split; first [exact (Rgt_not_eq _ _ PI0) | apply LN; exact N].
  - intros (file & F & N & ->). set (s := fold_right Rplus 0 (map fst (l_curve L file))). rewrite map_length. exists file, (s / INR (List.length (l_curve L file))). split; [exact F|]. split; [exact N|]. fold s. split; [field; apply LN; exact N|]. cbv zeta. apply ceil_up. apply (f_equal ceil). field. split; first [exact (Rgt_not_eq _ _ PI0) | apply LN; exact N].
Qed.
Lemma vmax_some : forall l, (exists m, vmax l = Ok m) <-> l <> [].
Proof. intros [|v l]; split; [intros (m & H); discriminate|congruence|discriminate|eexists; reflexivity]. Qed.
Lemma last_cons2 : forall A (x : A) l d, last (x :: l) d = last l x.
Proof. intros A x l d. apply last_cons. Qed.
Lemma cube_iff : forall L name ver l locs ss, generate_psf_cube L name ver l locs = Ok ss <-> cube_of L name ver l locs ss.
Proof.
  intros L name ver l locs ss. unfold generate_psf_cube, cube_of. split.
  - destruct (get_cfam L name ver) as [c|] eqn:C; cbn [bind]; [|discriminate]. apply cfam_iff in C. destruct C as (file & m & F & M & ->). cbn [fst]. destruct (cuts _ l locs) as [ss'|] eqn:CS; cbn [bind]; [|discriminate]. destruct (match ss' with [] => true | s :: r => forallb (fun s' => same (fst s) (fst s')) r end) eqn:A; cbn [negb]; [|discriminate]. destruct (Nat.eqb (List.length ss') (List.length locs)) eqn:LE; cbn [negb]; [|discriminate].
    destruct l as [|t0 r] eqn:EL; [discriminate|]. rewrite last_cons2. destruct (t_date t0) as [d0|] eqn:D0; cbn [getkey bind]; [|discriminate]. destruct (t_date (last r t0)) as [d1|] eqn:D1; cbn [getkey bind]; [|discriminate]. intros H. injection H as <-.
    apply Nat.eqb_eq in LE. destruct (proj1 (cuts_iff _ _ _ _) (conj CS LE)) as (us & FU & E1 & E2). do 4 eexists. split; [apply half_side_iff; exists file; split; [exact F|]; split; [intros E; rewrite E in M; discriminate|reflexivity]|]. split; [apply offaxis_iff; reflexivity|]. split; [exists us; auto|]. split; [apply alike_iff; exact A|]. split; [reflexivity|]. split; congruence.
  - intros (n & ch & t0 & r & HS & O & (us & FU & E1 & E2) & A & -> & D0 & D1). apply half_side_iff in HS. destruct HS as (file & F & N & ->). apply offaxis_iff in O. subst ch.
    destruct (proj2 (vmax_some (map (fun p => Some (snd p)) (l_curve L file)))) as (m & M); [intros E; apply map_eq_nil in E; contradiction|]. rewrite (proj2 (cfam_iff L name ver _) (ex_intro _ file (ex_intro _ m (conj F (conj M eq_refl))))). cbn [bind fst].
    destruct (proj2 (cuts_iff _ _ _ _) (ex_intro _ us (conj FU (conj E1 E2)))) as (CS & LE). rewrite CS. cbn [bind]. apply alike_iff in A. match goal with |- context [negb ?b] => change (b = true) in A end. rewrite A. apply Nat.eqb_eq in LE. rewrite LE. cbn [negb]. rewrite last_cons2. destruct (t_date t0); [|congruence]. destruct (t_date (last r t0)); [|congruence]. reflexivity.
Qed.
Lemma both_iff : forall o p, both o = Ok p <-> cards_of o p.
Proof. intros [[h|] [v|]] [a b]; unfold both, cards_of; cbn; split; intros H; try discriminate; injection H as -> ->; reflexivity. Qed.
Lemma cal_iff : forall L ver r l k, sorted_lenses L -> (generate_ct_cal L ver r l = Ok k <-> cal_of L ver r l k).
Proof.
  intros L ver r l k SO. unfold generate_ct_cal, cal_of. split.
  - destruct (one_cfam l) as [cfam|] eqn:C; cbn [bind]; [|discriminate]. apply one_cfam_iff in C. destruct (estimate L ver r l) as [[pos ct]|] eqn:E; cbn [bind fst snd]; [|discriminate]. apply estimate_iff in E; [|exact SO]. destruct (generate_psf_cube L cfam ver l pos) as [cube|] eqn:CU; cbn [bind]; [|discriminate]. apply cube_iff in CU.
    destruct l as [|t0 l']; [discriminate|]. destruct (both (t_fpam_hv t0)) as [fp|] eqn:FP; cbn [bind]; [|discriminate]. destruct (both (t_fsam_hv t0)) as [fs|] eqn:FS; cbn [bind]; [|discriminate]. intros H. injection H as <-. apply both_iff in FP. apply both_iff in FS. exists cfam, pos, ct, t0, l'. cbn [k_cube k_table k_fpam k_fsam]. auto 10.
  - intros (cfam & pos & ct & t0 & l' & C & E & CU & T & EL & FP & FS). apply one_cfam_iff in C. rewrite C. cbn [bind]. apply estimate_iff in E; [|exact SO]. rewrite E. cbn [bind fst snd]. apply cube_iff in CU. rewrite CU. cbn [bind]. rewrite EL. apply both_iff in FP. rewrite FP. cbn [bind]. apply both_iff in FS. rewrite FS. cbn [bind]. rewrite <- T. destruct k; reflexivity.
Qed.
