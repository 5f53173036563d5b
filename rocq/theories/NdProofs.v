(** Lemmas on grouping and on the order of the bright frames. *)
From Coq Require Import List Arith Bool Reals String Sorted Permutation Lia Lra.
From Verif Require Import Base DqModel AngleModel ComboSpec ComboProofs SplitSpec SortGroupProofs NdModel NdSpec.
Import ListNotations.
Local Open Scope R_scope.

Lemma prefix_iff : forall k, is_nd k = true <-> exists r, k = ("ND" ++ r)%string.
Proof.
  intros k. unfold is_nd. split.
  - intros H. apply prefix_correct in H. exists (substring 2 (String.length k - 2) k). destruct k as [|a [|b k]]; cbn in H; try discriminate H. injection H as <- <-.
    cbn [append]. do 2 f_equal. cbn [String.length]. replace (S (S (String.length k)) - 2)%nat with (String.length k) by lia. cbn [substring].
    clear. induction k as [|c k IH]; [reflexivity|]. cbn [String.length substring]. f_equal. exact IH.
  - intros [r ->]. cbn [append String.prefix]. repeat (match goal with |- context [Ascii.ascii_dec ?a ?b] => destruct (Ascii.ascii_dec a b); [|congruence] end). destruct r; reflexivity.
Qed.

Section Order.
Variable leb : string -> string -> bool.
Hypothesis Leb : total_order leb.
Lemma leb_refl : forall a, leb a a = true.
Proof. intros a. destruct (proj1 Leb a a); assumption. Qed.
Definition slt (a b : string) : Prop := a <> b /\ leb a b = true.
Lemma insert_in : forall k l x, In x (insert leb k l) <-> x = k \/ In x l.
Proof.
  intros k l. induction l as [|y l IH]; intros x; cbn [insert]; [cbn; intuition congruence|].
  destruct (String.eqb_spec k y) as [->|N]; [cbn; intuition congruence|]. destruct (leb k y); cbn [In]; [intuition congruence|]. rewrite IH. intuition congruence.
Qed.
Lemma insert_sorted : forall k l, StronglySorted slt l -> StronglySorted slt (insert leb k l).
Proof.
  intros k l. induction l as [|y l IH]; intros S; cbn [insert]; [repeat constructor|]. inversion S as [|? ? S1 F]; subst.
  destruct (String.eqb_spec k y) as [->|N]; [exact S|]. destruct (leb k y) eqn:E.
  - constructor; [exact S|]. constructor; [split; assumption|]. rewrite Forall_forall in *. intros z I. destruct (F z I) as [N1 E1]. split; [|apply (proj2 (proj2 Leb)) with y; assumption].
    intros <-. apply N. apply (proj1 (proj2 Leb)); assumption.
  - constructor; [exact (IH S1)|]. rewrite Forall_forall in *. intros z I. apply insert_in in I. destruct I as [->|I]; [|exact (F z I)].
    split; [congruence|]. destruct (proj1 Leb k y); [congruence|assumption].
Qed.
Lemma names_in : forall l x, In x (names leb l) <-> In x l.
Proof. induction l as [|y l IH]; intros x; cbn [names fold_right]; [reflexivity|]. fold (names leb l). rewrite insert_in, IH. cbn. intuition congruence. Qed.
Lemma names_sorted : forall l, StronglySorted slt (names leb l).
Proof. induction l as [|y l IH]; [constructor|]. cbn [names fold_right]. apply insert_sorted. exact IH. Qed.

Section Frames.
Variable D : Type.
Notation frame := (frame D).
Lemma has_name_iff : forall key k (f : frame), has_name D key k f = true <-> key f = Some k.
Proof. intros key k f. unfold has_name. destruct (key f) as [x|]; [|split; discriminate]. rewrite String.eqb_eq. split; congruence. Qed.
Lemma group_by_iff : forall key (fs : list frame) gs, group_by D leb key fs = Ok gs <->
  (forall f, In f fs -> key f <> None) /\ exists ks, StronglySorted slt ks /\ (forall k, In k ks <-> exists f, In f fs /\ key f = Some k) /\ gs = map (fun k => (k, filter (has_name D key k) fs)) ks.
Proof.
  intros key fs gs. unfold group_by. destruct (mapR (fun f => getkey (key f)) fs) as [ks|e] eqn:E; cbn [bind].
  - apply mapR_iff in E. assert (A : forall f, In f fs -> exists k, In k ks /\ key f = Some k).
    { intros f I. destruct (Forall2_in _ _ _ _ _ _ E I) as (k & K & H). exists k. split; [exact K|]. destruct (key f); cbn in H; [injection H as <-; reflexivity|discriminate]. }
    assert (B : forall k, In k (names leb ks) <-> exists f, In f fs /\ key f = Some k).
    { intros k. rewrite names_in. split.
      - intros K. destruct (Forall2_in' _ _ _ _ _ _ E K) as (f & I & H). exists f. split; [exact I|]. destruct (key f); cbn in H; [injection H as <-; reflexivity|discriminate].
      - intros (f & I & H). destruct (A f I) as (k' & K & H'). congruence. }
    split.
    + intros H. injection H as <-. split; [intros f I; destruct (A f I) as (k & _ & ->); discriminate|]. exists (names leb ks). split; [apply names_sorted|]. split; [exact B|reflexivity].
    + intros (_ & ks' & S & B' & ->). do 2 f_equal. apply SortRunProofs.sorted_unique with (R := slt).
      * intros a b _ _ [N L] [_ L']. apply (proj1 (proj2 Leb)); assumption.
      * apply names_sorted.
      * exact S.
      * apply NoDup_Permutation.
        -- assert (G := names_sorted ks). clear -G. induction G as [|x l G IH F]; constructor; [|exact IH]. intros I. rewrite Forall_forall in F. destruct (F x I) as [N _]. congruence.
        -- clear -S. induction S as [|x l G IH F]; constructor; [|exact IH]. intros I. rewrite Forall_forall in F. destruct (F x I) as [N _]. congruence.
        -- intros k. rewrite B, B'. reflexivity.
  - split; [discriminate|]. intros (T & _). exfalso. apply DqProofs.mapR_raise in E. destruct E as (f & I & H). specialize (T f I). destruct (key f); [discriminate H|congruence].
Qed.

Lemma slt_nodup : forall ks, StronglySorted (slt) ks -> NoDup ks.
Proof. intros ks S. induction S as [|x l G IH F]; constructor; [|exact IH]. intros I. rewrite Forall_forall in F. destruct (F x I) as [N _]. congruence. Qed.
Lemma filter_none : forall A (p : A -> bool) l, (forall x, In x l -> p x = false) -> filter p l = [].
Proof. intros A p l H. induction l as [|x l IH]; [reflexivity|]. cbn [filter]. rewrite (H x (or_introl eq_refl)). apply IH. intros y I. apply H. right. exact I. Qed.
Lemma filter_sub : forall A (p q : A -> bool) l, (forall x, In x l -> p x = true -> q x = true) -> filter p (filter q l) = filter p l.
Proof.
  intros A p q l H. induction l as [|x l IH]; [reflexivity|]. assert (IH' := IH (fun y I => H y (or_intror I))). specialize (H x (or_introl eq_refl)). cbn [filter].
  destruct (q x) eqn:E; cbn [filter]; rewrite IH'; [reflexivity|]. destruct (p x); [specialize (H eq_refl); congruence|reflexivity].
Qed.
Lemma flat_in : forall key (l : list frame) ks p k0, (forall x, p x = true -> key x = Some k0) -> NoDup ks -> In k0 ks -> filter p (flat_map (fun k => filter (has_name D key k) l) ks) = filter p l.
Proof.
  intros key l ks p k0 P ND. induction ND as [|k ks N ND IH]; intros I; [destruct I|]. cbn [flat_map]. rewrite filter_app. destruct (string_dec k k0) as [->|NE].
  - rewrite filter_sub; [|intros x _ X; apply has_name_iff; apply P; exact X]. rewrite (filter_none _ p (flat_map _ ks)); [apply app_nil_r|].
    intros x X. apply in_flat_map in X. destruct X as (k & K & X). apply filter_In in X. destruct X as [_ X]. apply has_name_iff in X. destruct (p x) eqn:E; [|reflexivity]. apply P in E. congruence.
  - rewrite filter_none; [apply IH; destruct I; [congruence|assumption]|]. intros x X. apply filter_In in X. destruct X as [_ X]. apply has_name_iff in X. destruct (p x) eqn:E; [|reflexivity]. apply P in E. congruence.
Qed.
Lemma flat_out : forall key (l : list frame) ks p k0, (forall x, p x = true -> key x = Some k0) -> ~ In k0 ks -> filter p (flat_map (fun k => filter (has_name D key k) l) ks) = [].
Proof.
  intros key l ks p k0 P N. apply filter_none. intros x X. apply in_flat_map in X. destruct X as (k & K & X). apply filter_In in X. destruct X as [_ X]. apply has_name_iff in X. destruct (p x) eqn:E; [|reflexivity]. apply P in E. congruence.
Qed.
Lemma app_sorted : forall A (R : A -> A -> Prop) l m, StronglySorted R l -> StronglySorted R m -> (forall x y, In x l -> In y m -> R x y) -> StronglySorted R (l ++ m).
Proof.
  intros A R l m S M H. induction S as [|x l S IH F]; [exact M|]. cbn [app]. constructor; [apply IH; intros a b I J; apply H; [right; exact I|exact J]|].
  rewrite Forall_forall in *. intros y I. apply in_app_or in I. destruct I as [I|I]; [exact (F y I)|apply H; [left; reflexivity|exact I]].
Qed.
Lemma flat_sorted : forall key (l : list frame) ks R, StronglySorted slt ks -> (forall k, In k ks -> StronglySorted R (filter (has_name D key k) l))
  -> (forall x y a b, In x l -> In y l -> key x = Some a -> key y = Some b -> slt a b -> R x y) -> StronglySorted R (flat_map (fun k => filter (has_name D key k) l) ks).
Proof.
  intros key l ks R S H X. induction S as [|k ks S IH F]; [constructor|]. cbn [flat_map]. apply app_sorted; [apply H; left; reflexivity|apply IH; intros a I; apply H; right; exact I|].
  intros x y I J. apply in_flat_map in J. destruct J as (k' & K & J). apply filter_In in I, J. destruct I as [I I'], J as [J J']. apply has_name_iff in I', J'. rewrite Forall_forall in F. apply (X x y k k'); auto.
Qed.
Lemma flat_mem : forall key (l : list frame) ks x, In x (flat_map (fun k => filter (has_name D key k) l) ks) <-> In x l /\ exists k, In k ks /\ key x = Some k.
Proof.
  intros key l ks x. rewrite in_flat_map. split.
  - intros (k & K & I). apply filter_In in I. destruct I as [I H]. apply has_name_iff in H. eauto.
  - intros (I & k & K & H). exists k. split; [exact K|]. apply filter_In. split; [exact I|]. apply has_name_iff. exact H.
Qed.
Lemma part_map : forall key (fs : list frame) ks nd, part D nd (map (fun k => (k, filter (has_name D key k) fs)) ks) = flat_map (fun k => filter (has_name D key k) fs) (filter (fun k => Bool.eqb (is_nd k) nd) ks).
Proof. intros key fs ks nd. unfold part. induction ks as [|k ks IH]; [reflexivity|]. cbn [map flat_map filter fst snd]. rewrite IH. destruct (Bool.eqb (is_nd k) nd); reflexivity. Qed.
Lemma sorted_filter : forall A (R : A -> A -> Prop) p l, StronglySorted R l -> StronglySorted R (filter p l).
Proof.
  intros A R p l S. induction S as [|x l S IH F]; [constructor|]. cbn [filter]. destruct (p x); [|exact IH]. constructor; [exact IH|]. rewrite Forall_forall in *. intros y I. apply filter_In in I. apply F. tauto.
Qed.

(** A list sorted by class is determined by its classes. *)
Lemma stable_unique : forall A (P : A -> Prop) (C : A -> A -> bool) (R : A -> A -> Prop), (forall x, P x -> C x x = true) -> (forall x y, P x -> P y -> (C x y = true <-> R x y /\ R y x)) ->
  forall l m, Forall P l -> Forall P m -> StronglySorted R l -> StronglySorted R m -> (forall x, In x l \/ In x m -> filter (C x) l = filter (C x) m) -> l = m.
Proof.
  intros A P C R Cr CR. induction l as [|a l IH]; intros m Pl Pm S M H.
  - destruct m as [|b m]; [reflexivity|]. inversion Pm; subst. specialize (H b (or_intror (or_introl eq_refl))). cbn [filter] in H. rewrite Cr in H by assumption. discriminate H.
  - inversion Pl as [|? ? Pa Pl']; subst. destruct m as [|b m]; [specialize (H a (or_introl (or_introl eq_refl))); cbn [filter] in H; rewrite Cr in H by assumption; discriminate H|].
    inversion Pm as [|? ? Pb Pm']; subst. inversion S as [|? ? S1 F]; subst. inversion M as [|? ? M1 G]; subst. rewrite Forall_forall in F, G.
    assert (Cab : C a b = true).
    { destruct (C a b) eqn:E; [reflexivity|]. exfalso. assert (Ha := H a (or_introl (or_introl eq_refl))). assert (Hb := H b (or_intror (or_introl eq_refl))). cbn [filter] in Ha, Hb. rewrite Cr in Ha, Hb by assumption. rewrite E in Ha.
      assert (Ia : In a (filter (C a) m)) by (rewrite <- Ha; left; reflexivity). apply filter_In in Ia. destruct Ia as [Ia _].
      assert (Rba := G a Ia). destruct (C b a) eqn:E2; [apply CR in E2; [|assumption|assumption]; assert (C a b = true) by (apply CR; tauto); congruence|].
      assert (Ib : In b (filter (C b) l)) by (rewrite Hb; left; reflexivity). apply filter_In in Ib. destruct Ib as [Ib _]. assert (Rab := F b Ib). assert (C a b = true) by (apply CR; tauto). congruence. }
    assert (Ha := H a (or_introl (or_introl eq_refl))). cbn [filter] in Ha. rewrite (Cr a Pa), Cab in Ha. injection Ha as <- Ha. f_equal. apply IH; [exact Pl'|exact Pm'|exact S1|exact M1|].
    intros x I. assert (Hx := H x). cbn [filter In] in Hx. destruct (C x a); [|apply Hx; tauto]. assert (X : a :: filter (C x) l = a :: filter (C x) m) by (apply Hx; tauto). congruence.
Qed.

Lemma opt_eqb_iff : forall a b, opt_eqb a b = true <-> a = b.
Proof. intros [a|] [b|]; cbn; try (split; [discriminate|discriminate]); [rewrite String.eqb_eq; split; congruence|split; reflexivity]. Qed.

(** ** The frames behind the filter, by target *)
Section Arrange.
Variable key : frame -> option string.
Variable fs : list frame.
Variable ks ts : list string.
Hypothesis ks_sorted : StronglySorted slt ks.
Hypothesis ks_in : forall k, In k ks <-> exists f, In f fs /\ key f = Some k.
Hypothesis keyed : forall f, In f fs -> key f <> None.
Definition nds : list string := filter (fun k => Bool.eqb (is_nd k) true) ks.
Definition lit : list frame := flat_map (fun k => filter (has_name D key k) fs) nds.
Lemma nds_in : forall k, In k nds <-> In k ks /\ exists r, k = ("ND" ++ r)%string.
Proof. intros k. unfold nds. rewrite filter_In, <- prefix_iff. destruct (is_nd k); cbn; intuition congruence. Qed.
Lemma lit_in : forall f, In f lit <-> In f fs /\ filtered key f.
Proof.
  intros f. unfold lit. rewrite flat_mem. split.
  - intros (I & k & K & H). split; [exact I|]. apply nds_in in K. destruct K as (_ & r & ->). exists r. exact H.
  - intros (I & r & H). split; [exact I|]. exists ("ND" ++ r)%string. split; [|exact H]. apply nds_in. split; [apply ks_in; eauto|eauto].
Qed.
Hypothesis ts_sorted : StronglySorted slt ts.
Hypothesis ts_in : forall t, In t ts <-> exists f, In f lit /\ f_target D f = Some t.
Hypothesis aimed : forall f, In f lit -> f_target D f <> None.
Definition out : list frame := flat_map (fun t => filter (has_name D (f_target D) t) lit) ts.
Definition classb (t k : string) (f : frame) : bool := has_name D (f_target D) t f && has_name D key k f.
Lemma classb_iff : forall t k f, classb t k f = true <-> of_class key t k f.
Proof. intros t k f. unfold classb, of_class. rewrite andb_true_iff, !has_name_iff. reflexivity. Qed.
Lemma out_in : forall f, In f out <-> In f lit.
Proof.
  intros f. unfold out. rewrite flat_mem. split; [tauto|]. intros I. split; [exact I|]. destruct (f_target D f) as [t|] eqn:T; [|destruct (aimed f I T)]. exists t. split; [apply ts_in; eauto|reflexivity].
Qed.
Lemma lit_class : forall t r, filter (classb t ("ND" ++ r)) lit = filter (classb t ("ND" ++ r)) fs.
Proof.
  intros t r. assert (P : forall x, classb t ("ND" ++ r) x = true -> key x = Some ("ND" ++ r)%string) by (intros x X; apply classb_iff in X; apply X).
  destruct (in_dec string_dec ("ND" ++ r)%string ks) as [I|N].
  - apply (flat_in _ _ _ _ ("ND" ++ r)%string P); [apply NoDup_filter; apply slt_nodup; exact ks_sorted|]. apply nds_in. eauto.
  - assert (N' : ~ In ("ND" ++ r)%string nds) by (intros I; apply nds_in in I; tauto). unfold lit. rewrite (flat_out _ _ _ _ _ P N'). symmetry. apply filter_none. intros x I. destruct (classb t ("ND" ++ r) x) eqn:E; [|reflexivity]. exfalso. apply N. apply ks_in. eauto.
Qed.
Lemma out_class : forall t r, filter (classb t ("ND" ++ r)) out = filter (classb t ("ND" ++ r)) fs.
Proof.
  intros t r. rewrite <- lit_class. assert (P : forall x, classb t ("ND" ++ r) x = true -> f_target D x = Some t) by (intros x X; apply classb_iff in X; apply X).
  destruct (in_dec string_dec t ts) as [I|N].
  - apply (flat_in _ _ _ _ t P); [apply slt_nodup; exact ts_sorted|exact I].
  - unfold out. rewrite (flat_out _ _ _ _ _ P N). symmetry. apply filter_none. intros x I. destruct (classb t ("ND" ++ r) x) eqn:E; [|reflexivity]. exfalso. apply N. apply ts_in. eauto.
Qed.
Lemma same_before : forall l t k, (forall f, In f l -> of_class key t k f) -> StronglySorted (before leb key) l.
Proof.
  intros l t k H. induction l as [|x l IH]; constructor; [apply IH; intros f I; apply H; right; exact I|]. apply Forall_forall. intros y I. exists t, t, k, k. split; [apply H; left; reflexivity|]. split; [apply H; right; exact I|]. right. split; [reflexivity|apply leb_refl].
Qed.
Lemma out_sorted : StronglySorted (before leb key) out.
Proof.
  apply flat_sorted; [exact ts_sorted| |].
  - intros t T. replace (filter (has_name D (f_target D) t) lit) with (flat_map (fun k => filter (has_name D key k) (filter (has_name D (f_target D) t) fs)) nds).
    + apply flat_sorted; [apply sorted_filter; exact ks_sorted| |].
      * intros k K. apply same_before with t k. intros f I. apply filter_In in I. destruct I as [I I1]. apply filter_In in I. destruct I as [_ I2]. apply has_name_iff in I1, I2. split; assumption.
      * intros x y a b I J A B L. apply filter_In in I, J. destruct I as [_ I], J as [_ J]. apply has_name_iff in I, J. exists t, t, a, b. split; [split; assumption|]. split; [split; assumption|]. right. split; [reflexivity|apply L].
    + unfold lit. induction nds as [|k l IH]; [reflexivity|]. cbn [flat_map]. rewrite filter_app, IH, !filter_filter. f_equal. apply filter_ext. intros x. apply andb_comm.
  - intros x y a b I J A B L. apply lit_in in I, J. destruct I as [_ [r I]], J as [_ [s J]]. exists a, b, ("ND" ++ r)%string, ("ND" ++ s)%string. split; [split; assumption|]. split; [split; assumption|]. left. exact L.
Qed.
Lemma arranged_iff : forall o, arranged leb key fs o <-> o = out.
Proof.
  intros o. split.
  - intros (_ & A & S & H).
    apply (stable_unique frame (fun f => exists t r, of_class key t ("ND" ++ r) f) (fun f g => opt_eqb (f_target D f) (f_target D g) && opt_eqb (key f) (key g)) (before leb key)).
    + intros x _. apply andb_true_iff. split; apply opt_eqb_iff; reflexivity.
    + intros x y (t & r & Xt & Xk) (u & q & Yt & Yk). rewrite andb_true_iff, !opt_eqb_iff. split.
      * intros [E1 E2]. split; (eapply ex_intro; eapply ex_intro; eapply ex_intro; eapply ex_intro; split; [split; eassumption|split; [split; eassumption|right; split; [congruence|]]]).
        -- replace ("ND" ++ q)%string with ("ND" ++ r)%string by congruence. apply leb_refl.
        -- replace ("ND" ++ q)%string with ("ND" ++ r)%string by congruence. apply leb_refl.
      * intros [(t1 & u1 & k1 & l1 & [X1 X2] & [Y1 Y2] & H1) (u2 & t2 & l2 & k2 & [Y3 Y4] & [X3 X4] & H2)].
        assert (t2 = t1) by congruence. assert (u2 = u1) by congruence. assert (k2 = k1) by congruence. assert (l2 = l1) by congruence. subst.
        assert (t1 = u1). { destruct H1 as [[N L]|[-> _]]; [|reflexivity]. destruct H2 as [[_ L']|[-> _]]; [|reflexivity]. apply (proj1 (proj2 Leb)); assumption. }
        subst u1. destruct H1 as [[N _]|[_ L]]; [congruence|]. destruct H2 as [[N _]|[_ L']]; [congruence|]. assert (k1 = l1) by (apply (proj1 (proj2 Leb)); assumption). subst. split; congruence.
    + apply Forall_forall. intros f I. destruct (A f I) as [[r R] T]. destruct (f_target D f) as [t|] eqn:E; [|congruence]. exists t, r. split; assumption.
    + apply Forall_forall. intros f I. apply out_in in I. assert (T := aimed f I). apply lit_in in I. destruct I as [_ [r R]]. destruct (f_target D f) as [t|] eqn:E; [|congruence]. exists t, r. split; assumption.
    + exact S.
    + exact out_sorted.
    + intros x X. assert (Y : exists t r, of_class key t ("ND" ++ r) x).
      { destruct X as [I|I]; [destruct (A x I) as [[r R] T]|apply out_in in I; assert (T := aimed x I); apply lit_in in I; destruct I as [_ [r R]]]; (destruct (f_target D x) as [t|] eqn:E; [|congruence]; exists t, r; split; assumption). }
      destruct Y as (t & r & Yt & Yk). assert (E : forall l, filter (fun g => opt_eqb (f_target D x) (f_target D g) && opt_eqb (key x) (key g)) l = filter (classb t ("ND" ++ r)) l).
      { intros l. apply filter_ext. intros g. unfold classb. rewrite Yt, Yk. unfold has_name. f_equal; [destruct (f_target D g)|destruct (key g)]; cbn [opt_eqb]; try reflexivity; apply String.eqb_sym. }
      rewrite !E, out_class. destruct (H t r) as (g & G1 & G2). rewrite (sieve_filter _ _ _ (classb_iff t ("ND" ++ r))) in G1, G2. congruence.
  - intros ->. split; [intros f I F; apply aimed; apply lit_in; split; assumption|]. split; [|split; [exact out_sorted|]].
    + intros f I. apply out_in in I. split; [apply lit_in; exact I|apply aimed; exact I].
    + intros t r. exists (filter (classb t ("ND" ++ r)) fs). split; apply (sieve_filter _ _ _ (classb_iff t ("ND" ++ r))); [reflexivity|symmetry; apply out_class].
Qed.
End Arrange.
End Frames.
End Order.
