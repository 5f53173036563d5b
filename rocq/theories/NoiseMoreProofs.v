(** Noise maps: more laws. *)
From Verif Require CtDataProofs.
From Coq Require Import List Arith Bool Reals ZArith Lia Lra Sorting.Sorted Sorting.Permutation String.
From Verif Require Import Base CombineModel CombineSpec CombineProofs ComboSpec ComboProofs DqModel DqProofs GeomModel GeomSpec FlatModel FlatSpec FlatProofs FlatTopProofs NoiseModel NoiseSpec NoiseFitProofs NoiseProofs NoiseTopProofs NoiseMainProofs NoiseLawProofs.
Import ListNotations.
Local Open Scope R_scope.

Section More.
Variable rg : regions.
Variable tel : Z * option Z.

(** ** Order of the frames *)
Lemma somes_perm : forall l l', Permutation l l' -> Permutation (somes l) (somes l').
Proof using. intros l l' P. induction P as [|[x|] l l' P IH|[x|] [y|] l|l l' l'' P1 IH1 P2 IH2]; cbn [somes]; try constructor; try assumption; try apply Permutation_refl. eapply perm_trans; eassumption. Qed.
Lemma rsum_perm : forall l l', Permutation l l' -> rsum l = rsum l'.
Proof using. intros l l' P. unfold rsum. induction P; cbn [fold_right]; lra. Qed.
Lemma allsome_perm : forall l l', Permutation l l' -> allsome l = allsome l'.
Proof using.
  intros l l' P. destruct (allsome l) eqn:A; destruct (allsome l') eqn:B; try reflexivity.
  - apply allsome_false in B. apply (Permutation_in None (Permutation_sym P)) in B. apply allsome_false in B. congruence.
  - apply allsome_false in A. apply (Permutation_in None P) in A. apply allsome_false in A. congruence.
Qed.
Lemma average_perm : forall l l', Permutation l l' -> average l = average l'.
Proof using.
  intros l l' P. pose proof (Permutation_length P) as L. unfold average. rewrite (allsome_perm _ _ P), (rsum_perm _ _ (somes_perm _ _ P)), L. destruct l, l'; try discriminate L; reflexivity.
Qed.
Lemma filter_perm : forall A (p : A -> bool) l l', Permutation l l' -> Permutation (filter p l) (filter p l').
Proof using. intros A p l l' P. induction P as [|x l l' P IH|x y l|l l' l'' P1 IH1 P2 IH2]; cbn [filter]; [constructor|destruct (p x); [constructor|]; exact IH|destruct (p x), (p y); try apply Permutation_refl; constructor|eapply perm_trans; eassumption]. Qed.
Lemma mean_pix_perm : forall s s' r c, Permutation s s' -> mean_pix tel s r c = mean_pix tel s' r c.
Proof using. intros s s' r c P. apply average_perm. apply Permutation_map. apply filter_perm. exact P. Qed.
Lemma total_err_perm : forall s s' r c, Permutation s s' -> total_err tel s r c = total_err tel s' r c.
Proof using.
  intros s s' r c P. pose proof (filter_perm _ (fun f => Z.eqb (f_dq f r c) 0) _ _ P) as G. change (Permutation (good r c s) (good r c s')) in G. pose proof (Permutation_length G) as LG.
  assert (ME : mean_err s r c = mean_err s' r c) by (unfold mean_err; f_equal; apply average_perm; apply Permutation_map; exact G).
  assert (SE : stat_std tel s r c = stat_std tel s' r c).
  { unfold stat_std. rewrite (average_perm (map (fun f => value tel f r c) (good r c s)) (map (fun f => value tel f r c) (good r c s'))) by (apply Permutation_map; exact G).
    destruct (average (map (fun f => value tel f r c) (good r c s'))) as [m|]; [|reflexivity]. clear - G LG. revert G LG. generalize (good r c s) (good r c s'). intros [|f t] [|f' t'] G LG; try discriminate LG; [reflexivity|]. rewrite <- LG.
    rewrite (average_perm (map (fun f => option_map (fun x => (x - m) ^ 2) (value tel f r c)) (f :: t)) (map (fun f => option_map (fun x => (x - m) ^ 2) (value tel f r c)) (f' :: t'))) by (apply Permutation_map; exact G). reflexivity. }
  unfold total_err. rewrite ME, SE. reflexivity.
Qed.
Lemma gain_is_ext : forall f g, f_measured f = f_measured g -> f_applied f = f_applied g -> f_gain f = f_gain g -> forall x, gain_is f x <-> gain_is g x.
Proof using. intros f g A B C0 x. unfold gain_is. rewrite A, B, C0. reflexivity. Qed.
Lemma keys_perm : forall fs fs', Permutation fs fs' -> keys fs = keys fs'.
Proof using. intros fs fs' P. apply sorted_one; [apply keys_sorted|apply keys_sorted|]. intros k. rewrite !keys_in. split; intros (f & F & E); exists f; (split; [|exact E]); [apply (Permutation_in f P)|apply (Permutation_in f (Permutation_sym P))]; exact F. Qed.
Theorem order_irrelevant : forall fs fs' m, Permutation fs fs' -> gains_agree fs -> calibrate_darks rg tel fs = Ok m -> exists m', calibrate_darks rg tel fs' = Ok m' /\ same_maps m m'.
Proof using.
  intros fs fs' m P GA Q. destruct (twin_maps rg tel (fun _ _ => 0) fs fs' m) as (m' & Q' & S0); [|exact Q|exists m'; split; [exact Q'|apply shifted_same; exact S0]].
  unfold substacks. rewrite <- (keys_perm _ _ P). assert (KI : forall k, In k (keys fs) -> In k (keys fs)) by auto. revert KI. generalize (keys fs) at 1 3 4. intros ks KI.
  induction ks as [|k ks IH]; cbn [map]; constructor; [|apply IH; intros x X; apply KI; right; exact X]. clear IH. specialize (KI k (or_introl eq_refl)).
  pose proof (filter_perm _ (fun f => key_eqb (key_of f) k) _ _ P) as G. set (s := filter (fun f => key_eqb (key_of f) k) fs) in *. set (s' := filter (fun f => key_eqb (key_of f) k) fs') in *.
  assert (K1 : forall f, In f s -> In f fs /\ key_of f = k) by (intros f F; apply filter_In in F as [F E]; apply key_eqb_iff in E; auto).
  split; [apply Permutation_length; exact G|]. split.
  - intros f t E. destruct s' as [|f' t'] eqn:E'; [apply Permutation_sym, Permutation_nil in G; rewrite E in G; discriminate G|]. exists f', t'. split; [reflexivity|].
    assert (F1 : In f s) by (rewrite E; left; reflexivity). assert (F2 : In f' s) by (apply (Permutation_in f' (Permutation_sym G)); left; reflexivity). destruct (K1 f F1) as [A1 B1]. destruct (K1 f' F2) as [A2 B2].
    assert (AL : alike f f') by (apply alike_key; congruence). destruct (GA f f' A1 A2 AL) as [G1 G2]. destruct AL as (T1 & T2 & T3). split; [apply gain_is_ext; assumption|]. split; assumption.
  - intros a si F. split; [apply Forall_forall; intros x X; rewrite Forall_forall in F; apply F; apply (Permutation_in x (Permutation_sym G)); exact X|]. intros r c. split; [|split].
    + intros _. rewrite <- (mean_pix_perm s s' r c G). destruct (mean_pix tel s r c); [cbn; f_equal; ring|reflexivity].
    + symmetry. apply total_err_perm. exact G.
    + symmetry. apply Permutation_length. apply filter_perm. exact G.
Qed.

(** ** Values at flagged pixels *)
Lemma f2_keys : forall (P : frame -> frame -> Prop) fs fs', (forall f g, P f g -> key_of f = key_of g) -> Forall2 P fs fs' -> keys fs = keys fs'.
Proof using. intros P fs fs' H F. unfold keys. induction F as [|f g l l' X F IH]; [reflexivity|]. cbn [fold_right]. rewrite IH, (H f g X). reflexivity. Qed.
Lemma f2_filter : forall (P : frame -> frame -> Prop) (p : frame -> bool) fs fs', (forall f g, P f g -> p f = p g) -> Forall2 P fs fs' -> Forall2 P (filter p fs) (filter p fs').
Proof using. intros P p fs fs' H F. induction F as [|f g l l' X F IH]; [constructor|]. cbn [filter]. rewrite <- (H f g X). destruct (p f); [constructor; assumption|exact IH]. Qed.
Lemma f2_map_eq : forall A (P : frame -> frame -> Prop) (h h' : frame -> A) l l', (forall f g, P f g -> h f = h' g) -> Forall2 P l l' -> map h l = map h' l'.
Proof using. intros A P h h' l l' H F. induction F as [|f g l l' X F IH]; [reflexivity|]. cbn [map]. rewrite IH, (H f g X). reflexivity. Qed.
Lemma f2_forall : forall (P : frame -> frame -> Prop) (Q : frame -> Prop) l l', (forall f g, P f g -> Q f -> Q g) -> Forall2 P l l' -> Forall Q l -> Forall Q l'.
Proof using. intros P Q l l' H F. induction F as [|f g l l' X F IH]; intros A; [constructor|]. inversion A; subst. constructor; [apply (H f g X); assumption|apply IH; assumption]. Qed.
Lemma sub_flagged_twin : forall s s', Forall2 same_but_flagged s s' -> twin tel (fun _ _ => 0) s s'.
Proof using.
  intros s s' F. split; [exact (f2_length _ _ _ _ _ F)|]. split.
  - intros f t ->. inversion F as [|? g ? t' X F']; subst. exists g, t'. split; [reflexivity|]. destruct X as (_ & _ & _ & T & G & K & M & A & _). split; [apply gain_is_ext; assumption|]. split; assumption.
  - intros a si H. split.
    + revert F H. apply f2_forall. intros f g (R0 & C0 & _ & _ & _ & _ & _ & _ & X) [[PE RD] [Z1 Z2]]. unfold readable, sized. rewrite <- R0, <- C0. split; [|split; assumption]. split; [exact PE|]. intros p P. destruct (RD p P) as [N1 N2]. split; [exact N1|]. intros Z. apply N2. apply (X (fst p) (snd p)). exact Z.
    + intros r c. assert (GF : Forall2 (fun f g => same_but_flagged f g /\ f_dq f r c = 0%Z) (good r c s) (good r c s')).
      { unfold good. clear H. induction F as [|f g l l' X F IH]; [constructor|]. cbn [filter]. pose proof X as (_ & _ & DQ & _). rewrite <- DQ. destruct (f_dq f r c =? 0)%Z eqn:E; [|exact IH]. apply Z.eqb_eq in E. constructor; [split; assumption|exact IH]. }
      assert (VE : forall f g, same_but_flagged f g /\ f_dq f r c = 0%Z -> value tel f r c = value tel g r c).
      { intros f g [(R0 & _ & _ & _ & _ & _ & _ & _ & X) E]. unfold value. rewrite <- R0. destruct (among _ _); [reflexivity|]. apply (proj1 (X r c) E). }
      assert (EE : forall f g, same_but_flagged f g /\ f_dq f r c = 0%Z -> f_err f r c = f_err g r c) by (intros f g [(_ & _ & _ & _ & _ & _ & _ & _ & X) E]; apply (proj1 (X r c) E)).
      pose proof (f2_length _ _ _ _ _ GF) as LG. pose proof (f2_map_eq _ _ _ _ _ _ VE GF) as VM. split; [|split].
      * intros _. unfold mean_pix. rewrite <- VM. destruct (average (map (fun f => value tel f r c) (good r c s))); [cbn; f_equal; ring|reflexivity].
      * assert (ME : mean_err s' r c = mean_err s r c). { unfold mean_err. f_equal. f_equal. symmetry. revert GF. apply f2_map_eq. intros f g H'. rewrite (EE f g H'). reflexivity. }
        assert (SE : stat_std tel s' r c = stat_std tel s r c).
        { unfold stat_std. rewrite <- VM. destruct (average (map (fun f => value tel f r c) (good r c s))) as [m|]; [|reflexivity].
          assert (X : map (fun f => option_map (fun x => (x - m) ^ 2) (value tel f r c)) (good r c s') = map (fun f => option_map (fun x => (x - m) ^ 2) (value tel f r c)) (good r c s)).
          { symmetry. revert GF. apply f2_map_eq. intros f g H'. rewrite (VE f g H'). reflexivity. }
          clear - LG X. revert LG X. generalize (good r c s) (good r c s'). intros [|f t] [|f' t'] LG X; try discriminate LG; [reflexivity|]. rewrite X, LG. reflexivity. }
        unfold total_err. rewrite ME, SE. reflexivity.
      * symmetry. exact LG.
Qed.
Theorem flagged_irrelevant : forall fs fs' m, Forall2 same_but_flagged fs fs' -> calibrate_darks rg tel fs = Ok m -> exists m', calibrate_darks rg tel fs' = Ok m' /\ same_maps m m'.
Proof using.
  intros fs fs' m F Q. destruct (twin_maps rg tel (fun _ _ => 0) fs fs' m) as (m' & Q' & S0); [|exact Q|exists m'; split; [exact Q'|apply shifted_same; exact S0]].
  assert (K : forall f g, same_but_flagged f g -> key_of f = key_of g) by (intros f g (_ & _ & _ & T & G & K & _); unfold key_of; congruence).
  unfold substacks. rewrite (f2_keys _ _ _ K F). induction (keys fs') as [|k ks IH]; cbn [map]; constructor; [|exact IH]. apply sub_flagged_twin. revert F. apply f2_filter. intros f g X. rewrite (K f g X). reflexivity.
Qed.

(** ** A raised fixed pattern *)
Lemma good_raised : forall k r c s, good r c (map (raised k) s) = map (raised k) (good r c s).
Proof using. intros k r c s. unfold good. induction s as [|f s IH]; [reflexivity|]. cbn [map filter]. change (f_dq (raised k f) r c) with (f_dq f r c). destruct (f_dq f r c =? 0)%Z; cbn [map]; rewrite IH; reflexivity. Qed.
Lemma average_shift : forall l k, l <> [] -> average (map (option_map (fun x => x + k)) l) = option_map (fun x => x + k) (average l).
Proof using.
  intros l k N. destruct (average_cases l) as [[E _]|[(xs & -> & NX & E)|[I E]]]; [elim N; exact E| |].
  - rewrite E. rewrite map_map. cbn [option_map]. rewrite <- (map_map (fun x => x + k) Some). unfold average. rewrite allsome_map, somes_map, !map_length. destruct xs as [|x xs]; [congruence|]. cbn [map]. f_equal.
    assert (P : INR (List.length (x :: xs)) <> 0) by (apply not_0_INR; discriminate).
    assert (Q : forall l, rsum (map (fun x => x + k) l) = rsum l + INR (List.length l) * k). { clear. unfold rsum. induction l as [|y l IH]; [cbn; ring|]. cbn [map fold_right]. rewrite IH. cbn [List.length]. rewrite S_INR. ring. }
    change (x + k :: map (fun x => x + k) xs) with (map (fun x => x + k) (x :: xs)). rewrite Q. field. exact P.
  - rewrite E. destruct (average_cases (map (option_map (fun x => x + k)) l)) as [[E' _]|[(xs & E' & _)|[_ E']]]; [destruct l; [elim N; reflexivity|discriminate E']| |exact E'].
    exfalso. apply (none_not_map xs). rewrite <- E'. apply in_map_iff. exists None. split; [reflexivity|exact I].
Qed.
Lemma raised_twin : forall k s, (forall r c, lost r c s -> k r c = 0) -> twin tel k s (map (raised k) s).
Proof using.
  intros k s NL. split; [symmetry; apply map_length|]. split.
  - intros f t ->. exists (raised k f), (map (raised k) t). split; [reflexivity|]. split; [intros g; reflexivity|]. split; reflexivity.
  - intros a si H. split.
    + apply Forall_forall. intros x X. apply in_map_iff in X as (f & <- & F). rewrite Forall_forall in H. destruct (H f F) as [[PE RD] SZ]. split; [|exact SZ]. split; [exact PE|]. intros p P. destruct (RD p P) as [N1 N2]. split; [exact N1|]. cbn [raised f_img pix]. intros Z. apply N2. destruct (pix (f_img f) (fst p) (snd p)); [discriminate Z|reflexivity].
    + intros r c. rewrite good_raised, map_length.
      assert (TV : forall f, In f s -> among (telem tel (rows (f_img f))) r = among (telem tel (Z.to_nat (a_rows a))) r).
      { intros f F. rewrite Forall_forall in H. destruct (H f F) as [_ [E _]]. replace (rows (f_img f)) with (Z.to_nat (a_rows a)) by lia. reflexivity. }
      assert (GI : forall f, In f (good r c s) -> In f s) by (intros f F; apply filter_In in F; exact (proj1 F)).
      set (d := if among (telem tel (Z.to_nat (a_rows a))) r then 0 else k r c).
      assert (VM : map (fun f => value tel f r c) (map (raised k) (good r c s)) = map (option_map (fun x => x + d)) (map (fun f => value tel f r c) (good r c s))).
      { rewrite !map_map. apply map_ext_in. intros f F. unfold value. cbn [raised f_img rows pix]. rewrite (TV f (GI f F)). unfold d. destruct (among (telem tel (Z.to_nat (a_rows a))) r); [cbn; f_equal; ring|reflexivity]. }
      assert (MS : average (map (fun f => value tel f r c) (map (raised k) (good r c s))) = option_map (fun x => x + d) (average (map (fun f => value tel f r c) (good r c s)))).
      { rewrite VM. destruct (good r c s) as [|f t] eqn:G; [|apply average_shift; discriminate]. cbn [map average option_map]. f_equal. unfold d. destruct (among _ r); [ring|]. rewrite (NL r c); [ring|]. apply used_iff. symmetry. exact G. }
      split; [|split].
      * intros NT. unfold mean_pix. rewrite good_raised, MS. f_equal. unfold d. destruct (among (telem tel (Z.to_nat (a_rows a))) r) eqn:T; [apply telem_iff in T; contradiction|reflexivity].
      * assert (ME : mean_err (map (raised k) s) r c = mean_err s r c) by (unfold mean_err; rewrite good_raised, map_map; reflexivity).
        assert (SE : stat_std tel (map (raised k) s) r c = stat_std tel s r c).
        { unfold stat_std. rewrite good_raised, MS. destruct (average (map (fun f => value tel f r c) (good r c s))) as [m|]; [|reflexivity]. cbn [option_map].
          assert (X : map (fun f => option_map (fun x => (x - (m + d)) ^ 2) (value tel f r c)) (map (raised k) (good r c s)) = map (fun f => option_map (fun x => (x - m) ^ 2) (value tel f r c)) (good r c s)).
          { rewrite <- (map_map (fun f => value tel f r c) (fun v => option_map (fun x => (x - (m + d)) ^ 2) v)), VM, !map_map. apply map_ext. intros f. destruct (value tel f r c); [|reflexivity]. cbn [option_map]. f_equal. ring. }
          clear - X. revert X. destruct (good r c s) as [|f0 t0]; [reflexivity|]. intros X. change (map (raised k) (f0 :: t0)) with (raised k f0 :: map (raised k) t0) in *. cbv iota beta. rewrite X. cbn [List.length]. rewrite map_length. reflexivity. }
        unfold total_err. rewrite ME, SE. reflexivity.
      * reflexivity.
Qed.
Lemma substacks_raised : forall k fs, substacks (map (raised k) fs) = map (map (raised k)) (substacks fs).
Proof using.
  intros k fs. unfold substacks. assert (K : keys (map (raised k) fs) = keys fs) by (unfold keys; induction fs as [|f fs IH]; [reflexivity|]; cbn [map fold_right]; rewrite IH; reflexivity). rewrite K, map_map. apply map_ext. intros x.
  induction fs as [|f fs IH]; [reflexivity|]. cbn [map filter]. change (key_of (raised k f)) with (key_of f). assert (K' : keys (map (raised k) fs) = keys fs) by (unfold keys; clear; induction fs as [|f fs IH]; [reflexivity|]; cbn [map fold_right]; rewrite IH; reflexivity).
  destruct (key_eqb (key_of f) x); cbn [map]; rewrite (IH K'); reflexivity.
Qed.
Theorem pattern_absorbed : forall k fs m, (forall ss s r c, splits fs ss -> In s ss -> lost r c s -> k r c = 0) -> calibrate_darks rg tel fs = Ok m ->
  exists m', calibrate_darks rg tel (map (raised k) fs) = Ok m' /\ shifted_maps k m m'.
Proof using.
  intros k fs m NL Q. apply (twin_maps rg tel k fs _ m); [|exact Q]. rewrite substacks_raised. assert (H : forall s, In s (substacks fs) -> forall r c, lost r c s -> k r c = 0) by (intros s S0 r c Ls; apply (NL (substacks fs) s r c); [apply splits_iff; reflexivity|exact S0|exact Ls]).
  induction (substacks fs) as [|s ss IH]; cbn [map]; constructor; [apply raised_twin; apply H; left; reflexivity|apply IH; intros x X; apply H; right; exact X].
Qed.

(** ** Exact data *)
Lemma fit_exact : forall gts ys q, det (normal_of gts) <> 0 -> Forall2 (fun p y => y = predicted p q) gts ys -> fit gts ys = q /\ sigma2 gts ys = 0.
Proof using.
  intros gts ys q N F. assert (L : List.length ys = List.length gts) by (symmetry; exact (f2_length _ _ _ _ _ F)).
  assert (Z : misfit gts ys q = 0). { unfold misfit. clear L N. induction F as [|p y gts ys -> F IH]; [reflexivity|]. cbn [combine map fold_right fst snd]. rewrite IH. ring. }
  assert (E : q = fit gts ys) by (apply best_iff; [exact N|exact L|]; intros q'; rewrite Z; apply misfit_nonneg). split; [congruence|]. rewrite sigma2_misfit, <- E, Z. unfold Rdiv. ring.
Qed.
Lemma average_const : forall l x, l <> [] -> Forall (fun v => v = Some x) l -> average l = Some x.
Proof using.
  intros l x N F. assert (E : l = map Some (repeat x (List.length l))). { clear N. induction F as [|v l -> F IH]; [reflexivity|]. cbn [List.length repeat map]. congruence. }
  assert (NL : List.length l <> O) by (destruct l; [congruence|discriminate]). rewrite E. set (n := List.length l) in *. clearbody n. clear E F N l. unfold average. rewrite allsome_map, somes_map, map_length, repeat_length. destruct n as [|n]; [congruence|]. cbn [repeat map]. f_equal.
  assert (Q : forall n, rsum (repeat x n) = INR n * x) by (clear; unfold rsum; induction n as [|n IH]; [cbn; ring|]; cbn [repeat fold_right]; rewrite IH, S_INR; ring).
  change (x :: repeat x n) with (repeat x (S n)). rewrite Q. field. apply not_0_INR. discriminate.
Qed.
Theorem exact_recovered : forall fs m r c F C0 D, calibrate_darks rg tel fs = Ok m -> obeys fs r c F C0 D -> ~ telemetry tel (m_rows m) r ->
  m_fpn m r c = Some F /\ m_cic m r c = Some (Rmax 0 C0) /\ e_fpn m r c = Some 0
  /\ forall a r0 c0 h w, lookup "SCI" rg = Some a -> shielded a r0 c0 h w -> in_box (m_rows m) (m_cols m) r0 c0 h w (r, c) -> m_dc m r c = Some (Rmax 0 D) /\ e_dc m r c = Some 0.
Proof using.
  intros fs m r c F C0 D Q (ss0 & gts0 & ks0 & SP & ST & OB) NT. apply calibrate_ok in Q as (a & si & sp & gs & r0 & c0 & h & w & b & up & low & L & A & SI & PRE & SH & G & SB & NG & DN & PN & B & U & LO & ->).
  apply (gather_iff rg tel a si _ None gs A SI) in G as (GS & RD & EQ & _). destruct (gains_len fs gs GS) as [Lg Lt]. apply splits_iff in SP. subst ss0. set (ss := substacks fs) in *. set (gts := combine gs (times ss)) in *. set (nr := Z.to_nat (a_rows a)) in *. set (nc := Z.to_nat (a_cols a)) in *.
  cbn [product m_rows m_cols] in *. fold nr in NT.
  assert (GE : gts0 = gts). { apply settings_split in ST as (gs' & GS' & -> & _). unfold gts. f_equal. clear - GS GS'. revert gs' GS'. induction GS as [|s g ss gs (f & t & -> & X) GS IH]; intros gs' GS'; inversion GS' as [|? g' ? gs1 (f' & t' & E & X') GS1]; subst; [reflexivity|]. injection E as <- <-. f_equal; [|apply IH; exact GS1].
    apply gain_used_iff in X, X'. congruence. }
  subst gts0. assert (RZ : forall s f, In s ss -> In f s -> rows (f_img f) = nr). { intros s f S0 F0. rewrite Forall_forall in RD. specialize (RD s S0). rewrite Forall_forall in RD. destruct (RD f F0) as [_ [Z _]]. unfold nr. lia. }
  assert (MP : Forall2 (fun s p => mean_pix tel s r c = Some (predicted p (F, C0, D))) ss gts).
  { assert (IS : forall s, In s ss -> In s ss) by auto. revert OB IS. generalize gts. generalize ss at 1 2 4. intros l gl OB. induction OB as [|s p l gl [NL H] OB IH]; intros IS; constructor; [|apply IH; intros x X; apply IS; right; exact X].
    unfold mean_pix. apply average_const.
    - intros Z. apply NL. apply used_iff. destruct (good r c s); [reflexivity|discriminate Z].
    - apply Forall_forall. intros v V. apply in_map_iff in V as (f & <- & FI). apply filter_In in FI as [FI Z]. apply Z.eqb_eq in Z. unfold value. rewrite (RZ s f (IS s (or_introl eq_refl)) FI). destruct (among (telem tel nr) r) eqn:T; [apply telem_iff in T; contradiction|]. apply H; assumption. }
  assert (PA : exists e2, parts tel nr gts ss r c = Some ((F, C0, D), (0, e2, 0))).
  { unfold parts, observed. destruct (among (telem tel nr) r) eqn:T; [apply telem_iff in T; contradiction|].
    assert (E : map (fun s => mean_pix tel s r c) ss = map Some (map (fun p => predicted p (F, C0, D)) gts)) by (clear - MP; induction MP as [|s p l gl H MP IH]; [reflexivity|]; cbn [map]; rewrite H, IH; reflexivity).
    rewrite E, allsome_map, somes_map. destruct (fit_exact gts (map (fun p => predicted p (F, C0, D)) gts) (F, C0, D) DN) as [E1 E2].
    { clear. induction gts as [|p l IH]; cbn [map]; constructor; [reflexivity|exact IH]. }
    rewrite E1, E2. rewrite !Rmult_0_l, sqrt_0. eexists. reflexivity. }
  destruct PA as (e2 & PA). unfold product. cbn [m_fpn m_cic e_fpn m_dc e_dc]. fold nr nc. rewrite PA. cbn [option_map fst snd]. rewrite clip_floor. cbn [floor0 option_map]. split; [reflexivity|]. split; [reflexivity|]. split; [reflexivity|].
  intros a' r0' c0' h' w' A' SH' IB. rewrite A in A'. injection A' as <-. assert (GG : (h', w', r0', c0') = (h, w, r0, c0)) by (apply (geom_iff rg a) in SH; [|exact A]; apply (geom_iff rg a) in SH'; [|exact A]; congruence).
  injection GG as -> -> -> ->. apply in_area_iff in IB. fold nr nc in IB. rewrite IB, clip_floor. split; reflexivity.
Qed.

(** ** Signs *)
Theorem signs : forall fs m r c, calibrate_darks rg tel fs = Ok m ->
  (forall x, m_cic m r c = Some x -> 0 <= x) /\ (forall x, m_dc m r c = Some x -> 0 <= x) /\ (forall x, e_fpn m r c = Some x -> 0 <= x) /\ (forall x, e_cic m r c = Some x -> 0 <= x) /\ (forall x, e_dc m r c = Some x -> 0 <= x).
Proof using.
  intros fs m r c Q. apply calibrate_ok in Q as (a & si & sp & gs & r0 & c0 & h & w & b & up & low & _ & _ & _ & _ & _ & _ & _ & _ & _ & _ & _ & _ & _ & ->).
  cbn [product m_cic m_dc e_fpn e_cic e_dc]. set (ss := substacks fs). set (gts := combine gs (times ss)). set (nr := Z.to_nat (a_rows a)).
  assert (CL : forall v x, clip v = Some x -> 0 <= x) by (intros v x E; rewrite clip_floor in E; destruct v as [y|]; [|discriminate E]; cbn in E; injection E as <-; apply Rmax_l).
  split; [intros x; apply CL|]. split. { intros x E. destruct (_ && _); [exact (CL _ _ E)|]. destruct (among _ _); [discriminate E|]. injection E as <-. lra. }
  assert (PD : forall q e, parts tel nr gts ss r c = Some (q, e) -> 0 <= fst (fst e) /\ 0 <= snd (fst e) /\ 0 <= snd e) by (intros q e; apply parts_dev).
  split. { intros x E. destruct (parts tel nr gts ss r c) as [[q e]|]; [|discriminate E]. cbn in E. injection E as <-. apply (PD q e eq_refl). }
  split. { intros x E. destruct (parts tel nr gts ss r c) as [[q e]|]; [|discriminate E]. destruct (stacks_err tel ss r c); [|discriminate E]. injection E as <-. apply sqrt_pos. }
  intros x E. destruct (_ && _); [|injection E as <-; lra]. destruct (parts tel nr gts ss r c) as [[q e]|]; [|discriminate E]. cbn in E. injection E as <-. apply (PD q e eq_refl).
Qed.

(** ** A prescan without structure *)
Lemma residual_sum : forall gts ys, det (normal_of gts) <> 0 -> List.length ys = List.length gts -> rsum (map (fun o => snd o - predicted (fst o) (fit gts ys)) (combine gts ys)) = 0.
Proof using.
  intros gts ys N L. destruct (fit gts ys) as [[F C0] D] eqn:E. destruct (fit_normal gts ys F C0 D N E) as (A & _ & _).
  assert (X : rsum (map (fun o => snd o - predicted (fst o) (F, C0, D)) (combine gts ys)) = b1 gts ys - (n11 (normal_of gts) * F + n12 (normal_of gts) * C0 + n13 (normal_of gts) * D)).
  { unfold b1, sumy, normal_of, sum, n11, n12, n13, predicted, rsum. cbn [fst snd]. clear - L. revert ys L. induction gts as [|[g t] l IH]; intros [|y ys] L; try discriminate L; cbn [combine map fold_right fst snd]; [ring|]. injection L as L. rewrite (IH ys L). ring. }
  rewrite X, A. ring.
Qed.

Lemma median_const : forall l x m, Forall (fun v => v = None \/ v = Some x) l -> nanmedian l = Some m -> m = x.
Proof using.
  intros l x m F H. pose proof (nanmedian_of l) as M. rewrite H in M. cbn [median_of] in M. destruct M as (s & _ & P & K).
  assert (X : forall k a, nth_error s k = Some a -> a = x).
  { intros k a E. apply nth_error_In in E. apply (Permutation_in a P) in E. clear - F E. induction F as [|v l [->| ->] F IH]; cbn [somes] in E; [destruct E|exact (IH E)|]. destruct E as [<-|E]; [reflexivity|exact (IH E)]. }
  destruct K as [(k & a & b & _ & A & B & ->)|(k & _ & A)]; [rewrite (X _ _ A), (X _ _ B); field|exact (X _ _ A)].
Qed.
Lemma rsum_div : forall l k, rsum (map (fun x => x / k) l) = rsum l / k.
Proof using. intros l k. unfold rsum. induction l as [|x l IH]; cbn [map fold_right]; [unfold Rdiv; ring|]. rewrite IH. unfold Rdiv. ring. Qed.
Theorem plain_prescan : forall fs m ss gts ks a sp k, calibrate_darks rg tel fs = Ok m -> splits fs ss -> settings ss gts ks -> Forall (fun x => x = k) ks -> lookup "SCI" rg = Some a -> lookup "prescan" (a_secs a) = Some sp ->
  (forall s p q v, In s ss -> in_section (m_rows m) (m_cols m) sp p -> in_section (m_rows m) (m_cols m) sp q -> ~ telemetry tel (m_rows m) (fst p) -> ~ telemetry tel (m_rows m) (fst q) ->
     stack_mean tel s (fst p) (snd p) v -> stack_mean tel s (fst q) (snd q) v) -> m_off m = 0.
Proof using.
  intros fs m ss0 gts0 ks0 a0 sp0 k Q SP ST KE A0 SP0 H. apply calibrate_ok in Q as (a & si & sp & gs & r0 & c0 & h & w & b & up & low & L & A & SI & PRE & SH & G & SB & NG & DN & PN & B & U & LO & ->).
  apply (gather_iff rg tel a si _ None gs A SI) in G as (GS & RD & EQ & _). destruct (gains_len fs gs GS) as [Lg Lt]. apply splits_iff in SP. subst ss0. set (ss := substacks fs) in *. set (gts := combine gs (times ss)) in *. cbn [product m_rows m_cols m_off] in *. set (nr := Z.to_nat (a_rows a)) in *. set (nc := Z.to_nat (a_cols a)) in *.
  assert (a0 = a) by congruence. subst a0. assert (sp0 = sp) by congruence. subst sp0. apply settings_split in ST as (gs' & _ & _ & ->). clear gs' gts0.
  apply settings_iff in SB; [|exact Lg]. assert (KP : Forall (fun k => 0 < k) (kgains ss)) by (destruct SB as (_ & _ & _ & K & _); exact K).
  set (ps := cells (mkimg nr nc (fun _ _ => None)) sp) in *. assert (PS : forall p, In p ps <-> in_section nr nc sp p) by (intros p; apply (cells_in (mkimg nr nc (fun _ _ => None)))).
  assert (ME : forall s p q, In s ss -> In p ps -> In q ps -> ~ telemetry tel nr (fst p) -> ~ telemetry tel nr (fst q) -> mean_pix tel s (fst q) (snd q) = mean_pix tel s (fst p) (snd p)).
  { intros s p q S0 P Q NP NQ. symmetry. apply stack_mean_iff. apply (H s p q); try assumption; [apply PS; exact P|apply PS; exact Q|]. apply stack_mean_iff. reflexivity. }
  pose proof (proj1 (per_some ps ss gts (kgains ss) (left_mid tel nr gts ss) KP) (ex_intro _ b B)) as EX.
  assert (ZL : forall z, In z (combine (combine ss gts) (kgains ss)) -> In (fst (fst z)) ss) by (intros [[x y] kk] Z; apply in_combine_l in Z; apply in_combine_l in Z; exact Z).
  (* the pixel *)
  assert (P0 : exists p, In p ps /\ parts tel nr gts ss (fst p) (snd p) <> None).
  { destruct (combine (combine ss gts) (kgains ss)) as [|z zs] eqn:CE.
    - apply (f_equal (@List.length _)) in CE. rewrite !combine_length in CE. unfold kgains in CE. rewrite map_length, Lt in CE. cbn in CE. lia.
    - destruct (EX z (or_introl eq_refl)) as (p & P & N). exists p. split; [exact P|]. intros Z. apply N. unfold left_mid. rewrite Z. reflexivity. }
  destruct P0 as (p & P & NP). pose proof (proj1 (parts_some tel nr gts ss (fst p) (snd p)) NP) as [NT MN].
  assert (PE : forall q, In q ps -> ~ telemetry tel nr (fst q) -> parts tel nr gts ss (fst q) (snd q) = parts tel nr gts ss (fst p) (snd p)).
  { intros q Q NQ. unfold parts, observed. destruct (among (telem tel nr) (fst q)) eqn:T1; [apply telem_iff in T1; contradiction|]. destruct (among (telem tel nr) (fst p)) eqn:T2; [apply telem_iff in T2; contradiction|].
    replace (map (fun s => mean_pix tel s (fst q) (snd q)) ss) with (map (fun s => mean_pix tel s (fst p) (snd p)) ss); [reflexivity|]. apply map_ext_in. intros s S0. symmetry. apply (ME s p q); assumption. }
  destruct (parts tel nr gts ss (fst p) (snd p)) as [[[[F C0] D] e]|] eqn:PT; [|congruence]. pose proof PT as PT'. unfold parts, observed in PT. destruct (among (telem tel nr) (fst p)); [discriminate PT|]. destruct (allsome (map (fun s => mean_pix tel s (fst p) (snd p)) ss)) eqn:AL; [|discriminate PT].
  apply allsome_iff in AL. set (ys := somes (map (fun s => mean_pix tel s (fst p) (snd p)) ss)) in *. assert (Ly : List.length ys = List.length gts) by (rewrite Lt, <- (map_length Some ys), <- AL; apply map_length).
  assert (FT : fit gts ys = (F, C0, D)) by (pose proof (f_equal (fun z => match z with Some x => fst x | None => (0, 0, 0) end) PT) as X; exact X).
  pose proof (residual_sum gts ys DN Ly) as RS. rewrite FT in RS.
  assert (MZ : map (med_left (left_mid tel nr gts ss) ps) (combine (combine ss gts) (kgains ss)) = map Some (map (fun x => x / k) (map (fun o => snd o - predicted (fst o) (F, C0, D)) (combine gts ys)))).
  { assert (ONE : forall z y, In z (combine (combine ss gts) (kgains ss)) -> mean_pix tel (fst (fst z)) (fst p) (snd p) = Some y -> med_left (left_mid tel nr gts ss) ps z = Some ((y - predicted (snd (fst z)) (F, C0, D)) / k)).
    { intros z y Z Y. assert (KZ : snd z = k) by (rewrite Forall_forall in KE; apply KE; destruct z as [z kk]; eapply in_combine_r; exact Z). assert (KN : 0 < k) by (rewrite Forall_forall in KP; rewrite <- KZ; apply KP; destruct z as [z kk]; eapply in_combine_r; exact Z).
      unfold med_left, offset_of. rewrite KZ. destruct (nanmedian (map (fun q => left_mid tel nr gts ss (fst (fst z)) (fst (snd (fst z))) (snd (snd (fst z))) (fst q) (snd q)) ps)) as [v|] eqn:V.
      - cbn [vdiv]. destruct (Req_EM_T k 0); [lra|]. do 2 f_equal. apply (median_const _ (y - predicted (snd (fst z)) (F, C0, D))) in V; [exact V|]. apply Forall_forall. intros u UI. apply in_map_iff in UI as (q & <- & QI).
        destruct (parts tel nr gts ss (fst q) (snd q)) as [x|] eqn:PQ; [|left; unfold left_mid; rewrite PQ; reflexivity]. right. assert (NQ : ~ telemetry tel nr (fst q)) by (apply (parts_some tel nr gts ss (fst q) (snd q)); congruence).
        unfold left_mid. rewrite (PE q QI NQ), (ME (fst (fst z)) p q (ZL z Z) P QI NT NQ), Y. f_equal. unfold predicted. cbn [fst snd]. ring.
      - apply nanmedian_none in V. rewrite Forall_forall in V. assert (X : left_mid tel nr gts ss (fst (fst z)) (fst (snd (fst z))) (snd (snd (fst z))) (fst p) (snd p) = None) by (apply V; apply in_map_iff; exists p; auto). unfold left_mid in X. rewrite PT', Y in X. discriminate X. }
    assert (LK : List.length (kgains ss) = List.length ss) by apply map_length. set (M := med_left (left_mid tel nr gts ss) ps) in *. clear - ONE AL Lt Ly LK. revert ONE AL Lt Ly LK. generalize (kgains ss). clearbody M ys gts ss. revert gts ys. generalize ss. clear ss. intros l. induction l as [|s l IH]; intros gl yl kl ONE AL Lt Ly LK.
    - destruct gl as [|g gl]; [|discriminate Lt]. reflexivity.
    - destruct gl as [|g gl]; [discriminate Lt|]. destruct yl as [|y yl]; [discriminate Ly|]. destruct kl as [|kk kl]; [discriminate LK|]. cbn [combine map fst snd]. cbn [map] in AL. injection AL as AL1 AL2. f_equal.
      + rewrite (ONE (s, g, kk) y (or_introl eq_refl) AL1). reflexivity.
      + apply (IH gl yl kl); [|exact AL2|injection Lt as Lt; exact Lt|injection Ly as Ly; exact Ly|injection LK as LK; exact LK]. intros z y' Z. apply ONE. right. exact Z. }
  unfold per, mean_all in B. rewrite MZ, allsome_map, somes_map, rsum_div, RS in B. cbv iota in B. assert (X : forall x y : R, Some x = Some y -> y = x) by (intros x y E; congruence). apply X in B. rewrite B. unfold Rdiv. rewrite !Rmult_0_l. reflexivity.
Qed.
End More.
