(** Proofs for the K gain calibration: clipping, mode, the whole. *)
From Coq Require Import List Arith Bool Reals ZArith String Lia Lra.
From Verif Require Import Base DqModel DqProofs AngleModel NearModel CombineModel CombineSpec CombineProofs ComboSpec ComboProofs FindModel FlatModel FlatSpec FlatProofs CtDataProofs ThruModel ThruSpec ThruProofs FrnModel ThruRunProofs FrnProofs FluxRunProofs KgainModel KgainSpec KgainProofs KgainCurveProofs.
Import ListNotations.
Local Open Scope R_scope.

(** ** Clipping *)
Lemma spread_rdev : forall l m s, spread l m s <-> l <> [] /\ m = rmean l /\ s = rdev l.
Proof.
  intros l m s. unfold spread. split.
  - intros (M & S0 & V). apply is_mean_rmean in M. destruct M as (N & ->). fold (rmean l) in *. split; [exact N|]. split; [reflexivity|]. apply is_mean_rmean in V. destruct V as (_ & V). rewrite map_length in V. unfold rdev. rewrite <- V. replace (s ^ 2) with (Rsqr s) by (unfold Rsqr; ring). symmetry. apply sqrt_Rsqr, S0.
  - intros (N & -> & ->). split; [apply is_mean_rmean; split; [exact N|reflexivity]|]. split; [apply sqrt_pos|]. apply is_mean_rmean. split; [destruct l; [congruence|discriminate]|]. rewrite map_length. unfold rdev. apply root_sq. apply Rmult_le_pos; [apply sumsq_nonneg|]. apply Rlt_le, Rinv_0_lt_compat, lt_0_INR. destruct l; [congruence|cbn; lia].
Qed.
Lemma outlier_iff : forall sigma l x, outlier sigma l x = true <-> sigma * rdev l < Rabs (x - rmean l).
Proof. intros. apply rltb_iff. Qed.
Lemma keep_iff : forall sigma l x, negb (outlier sigma l x) = true <-> Rabs (x - rmean l) <= sigma * rdev l.
Proof. intros sigma l x. rewrite negb_true_iff. rewrite <- not_true_iff_false, outlier_iff. lra. Qed.
Lemma clip_iff : forall sigma n l c, clips sigma n l c <-> c = sigma_clip sigma n l.
Proof.
  intros sigma n l c. split.
  - intros H. induction H as [l|n|n l m s SP A|n l m s x l1 l2 SP I O SV H IH]; cbn [sigma_clip]; [reflexivity|reflexivity| |].
    + apply spread_rdev in SP. destruct SP as (_ & -> & ->). destruct (existsb (outlier sigma l) l) eqn:E; [|reflexivity]. exfalso. apply existsb_exists in E. destruct E as (x & I & O). apply outlier_iff in O. specialize (A x I). lra.
    + apply spread_rdev in SP. destruct SP as (_ & -> & ->). assert (E : existsb (outlier sigma l) l = true) by (apply existsb_exists; exists x; split; [exact I|apply outlier_iff; exact O]). rewrite E. apply (sieve_filter _ _ _ (keep_iff sigma l)) in SV. rewrite <- SV. exact IH.
  - intros ->. revert l. induction n as [|n IH]; intros l; cbn [sigma_clip]; [constructor|]. destruct l as [|y l]; [constructor|]. set (L := y :: l). assert (SP : spread L (rmean L) (rdev L)) by (apply spread_rdev; repeat split; discriminate).
    destruct (existsb (outlier sigma L) L) eqn:E.
    + apply existsb_exists in E. destruct E as (x & I & O). apply outlier_iff in O. eapply clips_some; [exact SP|exact I|exact O| |apply IH]. apply (sieve_filter _ _ _ (keep_iff sigma L)). reflexivity.
    + eapply clips_same; [exact SP|]. intros x I. apply keep_iff. rewrite negb_true_iff. destruct (outlier sigma L x) eqn:O; [|reflexivity]. exfalso. apply not_true_iff_false in E. apply E, existsb_exists. exists x. split; assumption.
Qed.

(** ** Mode *)
Lemma span_iff : forall l a b, span_of l a b <-> l <> [] /\ (a, b) = range_of l.
Proof.
  intros l a b. unfold span_of, range_of. destruct l as [|x t]; [split; [intros (u & v & (I & _) & _); destruct I|intros (H & _); congruence]|]. split.
  - intros (u & v & LU & GV & H). split; [discriminate|]. apply least_fold in LU. apply greatest_fold in GV. rewrite <- LU, <- GV. cbv zeta. destruct H as [(UV & -> & ->)|(-> & -> & ->)]; [destruct (Req_EM_T u v); [lra|reflexivity]|destruct (Req_EM_T v v); [reflexivity|congruence]].
  - intros (_ & E). exists (fold_left Rmin t x), (fold_left Rmax t x). split; [apply least_fold; reflexivity|]. split; [apply greatest_fold; reflexivity|]. assert (LE : fold_left Rmin t x <= fold_left Rmax t x). { destruct (fold_rmin t x) as (_ & A & _). destruct (fold_rmax t x) as (_ & B & _). lra. }
    cbv zeta in E. destruct (Req_EM_T _ _) as [Q|Q]; apply pair_equal_spec in E; destruct E as (-> & ->); [right|left]; (split; [lra|split; [reflexivity|lra]]).
Qed.
Lemma span_lt : forall l a b, span_of l a b -> a < b.
Proof. intros l a b (x & y & _ & _ & [(H & -> & ->)|(_ & -> & ->)]); lra. Qed.
Lemma holds_iff : forall a b k x, in_bin (a, b) k x = true <-> holds a b k x.
Proof.
  intros a b k x. unfold in_bin, holds, edge. cbn [fst snd]. rewrite plus_INR. change (INR 1) with 1. rewrite andb_true_iff. destruct (Rle_dec (a + INR k * ((b - a) / 10)) x) as [A|A].
  - destruct (Nat.eqb k 9) eqn:K.
    + apply Nat.eqb_eq in K. subst k. replace (INR 9) with 9 by (cbn; ring). destruct (Rle_dec x _) as [B|B]; split; intro H; try (destruct H; discriminate); try (split; reflexivity).
      * split; [replace (INR 9) with 9 in A by (cbn; ring); lra|right; split; [reflexivity|lra]].
      * exfalso. destruct H as (_ & [H|(_ & H)]); lra.
    + apply Nat.eqb_neq in K. rewrite rltb_iff. split; [intros (_ & H); split; [exact A|left; exact H]|intros (_ & [H|(H & _)]); [split; [reflexivity|exact H]|contradiction]].
  - split; [intros (H & _); discriminate|intros (H & _); contradiction].
Qed.
Lemma members_iff : forall a b l k n, members a b l k n <-> n = count (a, b) l k.
Proof.
  intros a b l k n. unfold members, count. split.
  - intros (s & S & <-). apply (sieve_filter _ _ _ (holds_iff a b k)) in S. subst s. reflexivity.
  - intros ->. exists (filter (in_bin (a, b) k) l). split; [apply (sieve_filter _ _ _ (holds_iff a b k)); reflexivity|reflexivity].
Qed.
Lemma argmax_spec : forall f l best, (forall i, In i l -> (best < i)%nat) -> (forall pre i post j, l = pre ++ i :: post -> In j post -> (i < j)%nat) ->
  In (argmax f best l) (best :: l) /\ forall j, In j (best :: l) -> (f j <= f (argmax f best l))%nat /\ ((j < argmax f best l)%nat -> (f j < f (argmax f best l))%nat).
Proof.
  intros f. induction l as [|k l IH]; intros best LB SR; cbn [argmax].
  - split; [left; reflexivity|]. intros j [<-|[]]. split; lia.
  - assert (KL : forall i, In i l -> (k < i)%nat) by (intros i I; apply (SR [] k l i); [reflexivity|exact I]). assert (SR' : forall pre i post j, l = pre ++ i :: post -> In j post -> (i < j)%nat) by (intros pre i post j E I; apply (SR (k :: pre) i post j); [rewrite E; reflexivity|exact I]).
    assert (BK : (best < k)%nat) by (apply LB; left; reflexivity). destruct (Nat.ltb (f best) (f k)) eqn:E.
    + apply Nat.ltb_lt in E. destruct (IH k KL SR') as (A & B). set (r := argmax f k l) in *. split; [right; exact A|]. intros j [<-|J]; [|apply B, J]. destruct (B k (or_introl eq_refl)) as (B1 & _). split; [lia|]. intros _. lia.
    + apply Nat.ltb_ge in E. assert (BL : forall i, In i l -> (best < i)%nat) by (intros i I; specialize (KL i I); lia). destruct (IH best BL SR') as (A & B). set (r := argmax f best l) in *. destruct (B best (or_introl eq_refl)) as (B1 & B2). split; [destruct A as [A|A]; [left; exact A|right; right; exact A]|]. intros j [<-|[<-|J]]; [split; [exact B1|exact B2]| |apply B; right; exact J].
      split; [lia|]. intros KR. assert (f best < f r)%nat by (apply B2; lia). lia.
Qed.
Lemma seq_sorted_split : forall n a pre i post j, seq a n = pre ++ i :: post -> In j post -> (i < j)%nat.
Proof.
  induction n as [|n IH]; intros a pre i post j E I; [destruct pre; discriminate|]. cbn [seq] in E. destruct pre as [|p pre]; cbn [app] in E.
  - injection E as <- <-. apply in_seq in I. lia.
  - injection E as _ E. eapply IH; eauto.
Qed.
Lemma mode_iff : forall l v, mode_is l v <-> l <> [] /\ v = calculate_mode l.
Proof.
  intros l v. destruct l as [|x0 t]; [split; [intros (a & b & k & n & S & _); apply span_iff in S; destruct S; congruence|intros (H & _); congruence]|]. set (L := x0 :: t).
  destruct (range_of L) as [a b] eqn:RE.
  assert (AM : forall f : nat -> nat, (argmax f 0 (seq 1 9) < 10)%nat /\ forall j, (j < 10)%nat -> (f j <= f (argmax f 0 (seq 1 9)))%nat /\ ((j < argmax f 0 (seq 1 9))%nat -> (f j < f (argmax f 0 (seq 1 9)))%nat)).
  { intros f. destruct (argmax_spec f (seq 1 9) 0) as (A & B).
    - intros i I. apply in_seq in I. lia.
    - intros pre i post j E I. eapply seq_sorted_split; eauto.
    - change (0%nat :: seq 1 9) with (seq 0 10) in *. split; [apply in_seq in A; lia|]. intros j J. apply B. apply in_seq. lia. }
  unfold calculate_mode. rewrite RE. cbv zeta. destruct (AM (count (a, b) L)) as (A & B). set (K := argmax (count (a, b) L) 0 (seq 1 9)) in *.
  assert (VE : (edge (a, b) K + edge (a, b) (K + 1)) / 2 = a + (INR K + 1 / 2) * ((b - a) / 10)) by (unfold edge; cbn [fst snd]; rewrite plus_INR; change (INR 1) with 1; lra).
  rewrite VE. split.
  - intros (a' & b' & k & n & S & KL & M & -> & H). apply span_iff in S. destruct S as (N & S). rewrite RE in S. apply pair_equal_spec in S. destruct S as (-> & ->). split; [discriminate|]. apply members_iff in M. subst n.
    assert (k = K); [|subst; reflexivity]. destruct (H K _ A (proj2 (members_iff a b L K _) eq_refl)) as (H1 & H2). destruct (B k KL) as (B1 & B2). destruct (Nat.lt_trichotomy k K) as [T|[T|T]]; [specialize (B2 T); lia|exact T|specialize (H2 T); lia].
  - intros (_ & ->). exists a, b, K, (count (a, b) L K). split; [apply span_iff; split; [discriminate|rewrite RE; reflexivity]|]. split; [exact A|]. split; [apply members_iff; reflexivity|]. split; [reflexivity|]. intros j i J M. apply members_iff in M. subst i. apply B, J.
Qed.

(** ** The product *)
Lemma finish_iff : forall t rn ks out, rn <> [] -> (finish t rn ks = Ok out <-> product_of t rn ks out).
Proof.
  intros t rn ks out RN. unfold finish, product_of. destruct (sigma_clip (5 / 2) 6 ks) as [|x c] eqn:E.
  - split; [discriminate|]. intros (c & m & r & s & C & M & _). apply clip_iff in C. rewrite E in C. subst c. apply mode_iff in M. destruct M; congruence.
  - set (L := x :: c) in *. set (k := calculate_mode L). assert (QN : 0 <= (k * rdev rn) ^ 2 + (rmean rn * rdev L) ^ 2) by (pose proof (pow2_ge_0 (k * rdev rn)); pose proof (pow2_ge_0 (rmean rn * rdev L)); lra). split.
    + intros H. apply (f_equal (fun r => match r with Ok q => q | _ => out end)) in H. cbn beta iota zeta in H. fold k in H. exists L, (rmean L), (rmean rn), (rdev rn). subst out. cbn [k_gain k_err k_ptc k_rn k_rn_err].
      split; [apply clip_iff; symmetry; exact E|]. split; [apply mode_iff; split; [discriminate|reflexivity]|]. split; [apply spread_rdev; repeat split; discriminate|]. split; [reflexivity|]. split; [apply spread_rdev; repeat split; assumption|]. split; [reflexivity|]. split; [apply sqrt_pos|]. apply root_sq, QN.
    + intros (c' & m & r & s & C & M & SP & PT & SR & RR & E0 & EE). apply clip_iff in C. rewrite E in C. subst c'. apply mode_iff in M. destruct M as (_ & M). fold k in M. apply spread_rdev in SP, SR. destruct SP as (_ & _ & SE). destruct SR as (_ & -> & ->). destruct out as [o1 o2 o3 o4 o5]. cbn [k_gain k_err k_ptc k_rn k_rn_err] in *. subst o1 o2 o3 o4.
      cbv zeta. fold k. rewrite <- EE. replace (o5 ^ 2) with (Rsqr o5) by (unfold Rsqr; ring). rewrite sqrt_Rsqr by exact E0. reflexivity.
Qed.

(** ** Acceptance *)
Lemma pos_iff : forall s z, positive_int s = Ok z <-> s = Whole z /\ (0 < z)%Z.
Proof.
  intros [y|x|] z; cbn [positive_int]; try (split; [discriminate|intros (H & _); discriminate]). destruct (0 <? y)%Z eqn:E.
  - apply Z.ltb_lt in E. split; [intros H; injection H as ->; split; [reflexivity|exact E]|intros (H & _); injection H as ->; reflexivity].
  - apply Z.ltb_ge in E. split; [discriminate|]. intros (H & Z). injection H as ->. lia.
Qed.
Lemma accept_iff : forall sets means gain n_cal n_mean smin smax sw q,
  accept sets means gain n_cal n_mean smin smax sw = Ok q <-> exists a b w, accepted sets means gain n_cal n_mean smin smax sw a b w /\ q = (a, b, Z.to_nat w).
Proof.
  intros sets means gain n_cal n_mean smin smax sw q. unfold accept, accepted. split.
  - destruct (Nat.eqb (List.length sets) 0) eqn:A1; [discriminate|]. apply Nat.eqb_neq in A1. destruct (Nat.ltb _ n_cal) eqn:A2; [discriminate|]. apply Nat.ltb_ge in A2. destruct (existsb _ sets) eqn:A3; [discriminate|]. destruct (forallb _ sets) eqn:A4; cbn [negb]; [|discriminate]. destruct (Nat.eqb (List.length means) 0) eqn:A5; [discriminate|]. apply Nat.eqb_neq in A5. destruct (Nat.ltb _ n_mean) eqn:A6; [discriminate|]. apply Nat.ltb_ge in A6.
    destruct (Rle_dec gain 0); [discriminate|]. destruct (Rlt_dec gain 1) as [|G]; [discriminate|]. destruct (positive_int smin) as [a|] eqn:PA; [cbn [bind]|discriminate]. destruct (positive_int smax) as [b|] eqn:PB; [cbn [bind]|discriminate]. destruct (b <=? a)%Z eqn:AB; [discriminate|]. apply Z.leb_gt in AB. destruct (positive_int sw) as [w|] eqn:PW; [cbn [bind]|discriminate]. destruct ((w <? 10) || (800 <? w))%Z%bool eqn:W; [discriminate|]. apply orb_false_iff in W. destruct W as (W1 & W2). apply Z.ltb_ge in W1, W2.
    intros H. apply pos_iff in PA, PB, PW. destruct PA as (-> & PA), PB as (-> & PB), PW as (-> & PW). exists a, b, w. split; [|congruence]. rewrite forallb_forall in A4. assert (AL : forall s, In s sets -> List.length s = List.length (hd [] sets)) by (intros s I; apply Nat.eqb_eq, A4, I).
    split; [intros ->; apply A1; reflexivity|]. split; [exact A2|]. split. { intros s I. destruct (le_lt_dec 5 (List.length s)) as [L|L]; [exact L|]. exfalso. apply not_true_iff_false in A3. apply A3, existsb_exists. exists s. split; [exact I|apply Nat.ltb_lt; exact L]. }
    split; [intros s s' I I'; rewrite (AL s I), (AL s' I'); reflexivity|]. split; [intros ->; apply A5; reflexivity|]. split; [exact A6|]. split; [lra|]. repeat split; try lia; reflexivity.
  - intros (a & b & w & (B1 & B2 & B3 & B4 & B5 & B6 & B7 & -> & -> & -> & (P1 & P2) & P3 & P4) & ->).
    destruct (Nat.eqb (List.length sets) 0) eqn:A1; [apply Nat.eqb_eq, length_zero_iff_nil in A1; contradiction|]. destruct (Nat.ltb _ n_cal) eqn:A2; [apply Nat.ltb_lt in A2; lia|]. destruct (existsb _ sets) eqn:A3. { exfalso. apply existsb_exists in A3. destruct A3 as (s & I & L). apply Nat.ltb_lt in L. specialize (B3 s I). lia. }
    destruct (forallb _ sets) eqn:A4; cbn [negb]. 2:{ exfalso. apply not_true_iff_false in A4. apply A4, forallb_forall. intros s I. apply Nat.eqb_eq, B4; [exact I|]. destruct sets; [congruence|left; reflexivity]. }
    destruct (Nat.eqb (List.length means) 0) eqn:A5; [apply Nat.eqb_eq, length_zero_iff_nil in A5; contradiction|]. destruct (Nat.ltb _ n_mean) eqn:A6; [apply Nat.ltb_lt in A6; lia|]. destruct (Rle_dec gain 0); [lra|]. destruct (Rlt_dec gain 1); [lra|].
    rewrite (proj2 (pos_iff (Whole a) a)) by (split; [reflexivity|lia]). cbn [bind]. rewrite (proj2 (pos_iff (Whole b) b)) by (split; [reflexivity|lia]). cbn [bind]. destruct (b <=? a)%Z eqn:AB; [apply Z.leb_le in AB; lia|]. rewrite (proj2 (pos_iff (Whole w) w)) by (split; [reflexivity|lia]). cbn [bind]. destruct ((w <? 10) || (800 <? w))%Z%bool eqn:W; [|reflexivity]. apply orb_true_iff in W. destruct W as [W|W]; apply Z.ltb_lt in W; lia.
Qed.

(** ** The whole *)
Section Run.
Variable prescan : img -> list val.
Variable width : Z * Z -> img -> result R.

Lemma set_rn : forall p w good fs pts rn, set_of prescan width p w good fs pts rn -> rn <> [].
Proof using.
  intros p w good fs pts rn (frames & diffs & f & whole & a & b & k & avs & devs & _ & F2 & F3 & _). inversion F2; subst. inversion F3; subst. discriminate.
Qed.
Lemma set_ext : forall p w good good' fs pts rn, rows good' = rows good -> cols good' = cols good -> (forall r c, pix good' r c = pix good r c) ->
  set_of prescan width p w good fs pts rn -> set_of prescan width p w good' fs pts rn.
Proof using.
  intros p w good good' fs pts rn RG CG PG (frames & diffs & f & whole & a & b & k & avs & devs & F1 & F2 & F3 & F4 & MI & MA & MB & RT & F5 & F6 & E).
  exists frames, diffs, f, whole, a, b, k, avs, devs. rewrite (everywhere_ext _ _ RG CG PG).
  assert (CE : forall g t, cells g (fun r c => KgainSpec.times k (pix good r c)) w (p_top p) t -> cells g (fun r c => KgainSpec.times k (pix good' r c)) w (p_top p) t) by (intros g t; apply cells_ext; intros r c; rewrite PG; reflexivity).
  split; [exact F1|]. split; [exact F2|]. split; [exact F3|]. split; [exact F4|]. split; [exact MI|]. split; [exact MA|]. split; [exact MB|]. split; [exact RT|]. split; [revert F5; apply f2_impl; intros g av (t & C & H); exists t; split; [apply CE, C|exact H]|]. split; [|exact E].
  revert F6. apply f2_impl. intros d dv (t & s & C & H). exists t, s. split; [apply CE, C|exact H].
Qed.

Theorem calibrate_iff : forall d sets means gain n_cal n_mean smin smax sw out h c, one_shape sets means h c ->
  (calibrate_kgain prescan width d sets means gain n_cal n_mean smin smax sw = Ok out <-> calibrated prescan width d sets means gain n_cal n_mean smin smax sw out).
Proof using.
  intros d sets means gain n_cal n_mean smin smax sw out h c (SS & SM). unfold calibrate_kgain, calibrated. cbv zeta.
  assert (ST : forall p w gm fs (q : list (val * val) * list R), (10 <= w)%Z -> (5 <= List.length fs)%nat -> In fs sets -> In gm means -> forall g, mean_image means gm g ->
     (one_set prescan width p (Z.to_nat w) (crop (p_box p) (average means gm)) fs = Ok q <-> set_of prescan width p (Z.to_nat w) (region (p_box p) g) fs (fst q) (snd q))).
  { intros p w gm fs q W L IS IM g MG. destruct (SM gm IM) as (GH & GC). rewrite region_eq. destruct (mean_image_eq _ _ _ MG) as (R1 & C1 & P1). destruct (region_ext (p_box p) (average means gm) g R1 C1 P1) as (R2 & C2 & P2). rewrite (surjective_pairing q) at 1.
    rewrite (set_iff prescan width p (Z.to_nat w) (average means gm) (region (p_box p) (average means gm)) fs (fst q) (snd q) h c); [|lia|exact L|intros f I; apply (SS fs f IS I)|exact GH|exact GC|reflexivity|reflexivity].
    split; apply set_ext; try assumption; try (symmetry; assumption). intros r k. symmetry. apply P2. }
  split.
  - intros H. apply bind_ok in H. destruct H as (u & CK & H). apply bind_ok in H. destruct H as (q & AC & H). apply accept_iff in AC. destruct AC as (a & b & w & AC & ->). cbn [fst snd] in H. apply bind_ok in H. destruct H as (p & RP & H). apply read_iff in RP. apply bind_ok in H. destruct H as (m & PM & H). apply pick_iff in PM.
    apply bind_ok in H. destruct H as (per & PER & H). apply bind_ok in H. destruct H as (t & CV & H). apply bind_ok in H. destruct H as (ks & GN & H). apply bind_ok in H. destruct H as (fin & LF & H). apply mapR_f2 in PER. assert (IM : In m means) by (eapply nth_error_In; exact PM).
    assert (AC' := AC). destruct AC' as (B1 & B2 & B3 & B4 & B5 & B6 & B7 & E1 & E2 & E3 & (P1 & P2) & P3 & P4).
    assert (F : Forall2 (fun fs q => set_of prescan width p (Z.to_nat w) (region (p_box p) (average means m)) fs (fst q) (snd q)) sets per). { revert PER. apply f2_iff. intros fs q I. symmetry. apply ST; [lia|apply B3, I|exact I|exact IM|apply average_mean]. }
    exists p, a, b, w, m, (average means m), per, t, ks, (fst fin), (snd fin). split; [exact RP|]. split; [exact AC|]. split; [exact PM|]. split; [apply average_mean|]. split; [exact F|]. apply curve_iff in CV. split; [exact CV|].
    apply gains_iff in GN; [|apply IZR_le; lia|eapply curve_rising; exact CV]. split; [exact GN|]. rewrite (f2_len _ _ _ _ _ F). unfold getkey in LF. destruct (nth_error per (List.length per - 1)) as [fin'|] eqn:LE; [|discriminate]. assert (fin' = fin) by congruence. subst fin'. split; [rewrite <- surjective_pairing; reflexivity|].
    apply finish_iff in H; [exact H|]. destruct (nth_f2 _ _ _ _ _ F _ _ LE) as (fs & _ & S). exact (set_rn _ _ _ _ _ _ S).
  - intros (p & a & b & w & m & good & per & t & ks & pts & rn & RP & AC & PM & MG & F & CV & GN & LE & FN). assert (AC' := AC). destruct AC' as (B1 & B2 & B3 & B4 & B5 & B6 & B7 & E1 & E2 & E3 & (P1 & P2) & P3 & P4). assert (IM : In m means) by (eapply nth_error_In; exact PM).
    assert (CK : check_kgain_params d = Ok tt). { assert (RP' := RP). apply read_iff in RP'. unfold read_params in RP'. destruct (check_kgain_params d) as [[]|]; [reflexivity|discriminate]. }
    rewrite CK. cbn [bind]. rewrite (proj2 (accept_iff sets means gain n_cal n_mean smin smax sw (a, b, Z.to_nat w))) by (exists a, b, w; split; [exact AC|reflexivity]). cbn [bind fst snd]. rewrite (proj2 (read_iff d p) RP). cbn [bind]. rewrite (proj2 (pick_iff _ means 0 m) PM). cbn [bind].
    assert (PER : mapR (one_set prescan width p (Z.to_nat w) (crop (p_box p) (average means m))) sets = Ok per). { apply mapR_f2. revert F. apply f2_iff. intros fs q I. apply ST; [lia|apply B3, I|exact I|exact IM|exact MG]. }
    rewrite PER. cbn [bind]. rewrite (proj2 (curve_iff _ _ t) CV). cbn [bind]. rewrite (proj2 (gains_iff (IZR a) (IZR b) t ks ltac:(apply IZR_le; lia) (curve_rising _ _ _ CV)) GN). cbn [bind]. rewrite <- (f2_len _ _ _ _ _ F), LE. cbn [getkey bind snd]. apply finish_iff; [|exact FN]. destruct (nth_f2 _ _ _ _ _ F _ _ LE) as (fs & _ & S). exact (set_rn _ _ _ _ _ _ S).
Qed.
End Run.
