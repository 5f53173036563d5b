(** Lemmas on splitting by a key and on the mean frames. *)
From Coq Require Import List Arith Bool QArith ZArith String Sorted Permutation Lia Lqa.
From Verif Require Import Base DqModel SortModel SortSpec SortNameProofs SortRunProofs.
Import ListNotations.
Local Open Scope Z_scope.
Local Open Scope list_scope.

(** ** mapR *)
Lemma mapR_iff : forall A B (f : A -> result B) l r, mapR f l = Ok r <-> Forall2 (fun a b => f a = Ok b) l r.
Proof.
  intros A B f. induction l as [|x l IH]; intros r; cbn [mapR].
  - split; [intros H; injection H as <-; constructor|intros H; inversion H; reflexivity].
  - split.
    + destruct (f x) as [y|] eqn:E; cbn [bind]; [|discriminate]. destruct (mapR f l) as [t|] eqn:T; cbn [bind]; [|discriminate].
      intros H. injection H as <-. constructor; [exact E|apply IH; reflexivity].
    + intros H. inversion H as [|? y ? t E F]; subst. rewrite E. cbn [bind]. rewrite (proj2 (IH t) F). reflexivity.
Qed.
Lemma Forall2_perm : forall A B (P : A -> B -> Prop) l l' m, Permutation l l' -> Forall2 P l m -> exists m', Forall2 P l' m' /\ Permutation m m'.
Proof.
  intros A B P l l' m Q. revert m. induction Q as [|x l l' Q IH|x y l|l l' l'' Q1 IH1 Q2 IH2]; intros m F.
  - exists m. split; [exact F|reflexivity].
  - inversion F as [|? b ? m0 H F0]; subst. destruct (IH _ F0) as (m' & F' & Q'). exists (b :: m'). split; constructor; assumption.
  - inversion F as [|? b ? m0 H F0]; subst. inversion F0 as [|? c ? m1 H1 F1]; subst. exists (c :: b :: m1). split; [repeat constructor; assumption|constructor].
  - destruct (IH1 _ F) as (m1 & F1 & P1). destruct (IH2 _ F1) as (m2 & F2 & P2). exists m2. split; [exact F2|]. transitivity m1; assumption.
Qed.
Lemma Forall2_nth : forall A B (P : A -> B -> Prop) l m i a, Forall2 P l m -> nth_error l i = Some a -> exists b, nth_error m i = Some b /\ P a b.
Proof.
  intros A B P l m i a F. revert i. induction F as [|x y l m H F IH]; intros [|i] E; try discriminate E; cbn in E.
  - injection E as <-. exists y. auto.
  - exact (IH i E).
Qed.
Lemma Forall2_nth' : forall A B (P : A -> B -> Prop) l m i b, Forall2 P l m -> nth_error m i = Some b -> exists a, nth_error l i = Some a /\ P a b.
Proof.
  intros A B P l m i b F. revert i. induction F as [|x y l m H F IH]; intros [|i] E; try discriminate E; cbn in E.
  - injection E as <-. exists x. auto.
  - exact (IH i E).
Qed.
Lemma Forall2_in : forall A B (P : A -> B -> Prop) l m a, Forall2 P l m -> In a l -> exists b, In b m /\ P a b.
Proof. intros A B P l m a F I. apply In_nth_error in I. destruct I as (n & E). destruct (Forall2_nth _ _ _ _ _ _ _ F E) as (b & N & H). exists b. split; [exact (nth_error_In _ _ N)|exact H]. Qed.
Lemma Forall2_in' : forall A B (P : A -> B -> Prop) l m b, Forall2 P l m -> In b m -> exists a, In a l /\ P a b.
Proof. intros A B P l m a F I. apply In_nth_error in I. destruct I as (n & E). destruct (Forall2_nth' _ _ _ _ _ _ _ F E) as (b & N & H). exists b. split; [exact (nth_error_In _ _ N)|exact H]. Qed.
Lemma Forall2_impl : forall A B (P P' : A -> B -> Prop) l m, (forall a b, In a l -> P a b -> P' a b) -> Forall2 P l m -> Forall2 P' l m.
Proof. intros A B P P' l m I F. induction F as [|x y l m H F IH]; constructor; [apply I; [left; reflexivity|exact H]|apply IH; intros a b J; apply I; right; exact J]. Qed.
Lemma Forall2_mapl : forall A A' B (g : A -> A') (P : A' -> B -> Prop) l m, Forall2 P (map g l) m <-> Forall2 (fun a b => P (g a) b) l m.
Proof.
  intros A A' B g P. induction l as [|x l IH]; intros m; cbn [map]; split; intros H; inversion H; subst; constructor; try assumption; apply IH; assumption.
Qed.
Lemma Forall2_mapr : forall A B B' (g : B -> B') (P : A -> B' -> Prop) l m, Forall2 P l (map g m) <-> Forall2 (fun a b => P a (g b)) l m.
Proof.
  intros A B B' g P l m. revert l. induction m as [|x m IH]; intros l; cbn [map]; split; intros H; inversion H; subst; constructor; try assumption; apply IH; assumption.
Qed.
Lemma Forall2_len : forall A B (P : A -> B -> Prop) l m, Forall2 P l m -> List.length l = List.length m.
Proof. intros A B P l m F. induction F; cbn; congruence. Qed.

(** ** Numbered lists and positions *)
Lemma number_nth : forall A (l : list A) i j, nth_error (number i l) j = option_map (fun x => ((i + j)%nat, x)) (nth_error l j).
Proof.
  intros A. induction l as [|x l IH]; intros i j; [destruct j; reflexivity|]. destruct j as [|j]; cbn [number nth_error].
  - cbn. rewrite Nat.add_0_r. reflexivity.
  - rewrite IH. destruct (nth_error l j); cbn; [do 2 f_equal; lia|reflexivity].
Qed.
Lemma number_in : forall A (l : list A) i x, In (i, x) (number 0 l) <-> nth_error l i = Some x.
Proof.
  intros A l i x. split.
  - intros I. apply In_nth_error in I. destruct I as (n & E). rewrite number_nth in E. cbn in E.
    destruct (nth_error l n) as [y|] eqn:Y; [|discriminate E]. cbn in E. injection E as <- <-. exact Y.
  - intros E. apply nth_error_In with (n := i). rewrite number_nth, E. reflexivity.
Qed.
Lemma number_sorted : forall A (l : list A) i, StronglySorted lt (map fst (number i l)).
Proof.
  intros A l i. rewrite SS_nth. intros a b x y L X Y. rewrite nth_error_map, number_nth in X, Y.
  destruct (nth_error l a); [|discriminate X]. destruct (nth_error l b); [|discriminate Y]. cbn in X, Y. injection X as <-. injection Y as <-. lia.
Qed.
Lemma SS_filter_map : forall A B (R : B -> B -> Prop) (g : A -> B) (p : A -> bool) l, StronglySorted R (map g l) -> StronglySorted R (map g (filter p l)).
Proof.
  intros A B R g p l. induction l as [|x l IH]; intros S; [exact S|]. cbn [map] in S. inversion S as [|? ? S1 F]; subst. cbn [filter].
  destruct (p x); [cbn [map]; constructor|]; try exact (IH S1).
  rewrite Forall_forall in *. intros y I. apply F. apply in_map_iff in I. destruct I as (z & <- & I). apply filter_In in I. apply in_map. tauto.
Qed.
Lemma filter_positions : forall fs (p : nat * sfr -> bool) P, (forall i f, In f fs -> (p (i, f) = true <-> P f)) -> positions fs P (map fst (filter p (number 0 fs))).
Proof.
  intros fs p P H. split; [apply SS_filter_map; apply number_sorted|]. intros i. rewrite in_map_iff. split.
  - intros ((j & f) & E & I). cbn in E. subst j. apply filter_In in I. destruct I as [I B]. apply number_in in I. exists f. split; [exact I|].
    apply (H i); [exact (nth_error_In _ _ I)|exact B].
  - intros (f & E & Pf). exists (i, f). split; [reflexivity|]. apply filter_In. split; [apply number_in; exact E|]. apply H; [exact (nth_error_In _ _ E)|exact Pf].
Qed.
Lemma lt_sorted_unique : forall l l', StronglySorted lt l -> StronglySorted lt l' -> (forall i, In i l <-> In i l') -> l = l'.
Proof.
  intros l l' S S' H. apply (sorted_unique _ lt); [intros; lia|exact S|exact S'|].
  assert (ND : forall m, StronglySorted lt m -> NoDup m).
  { clear. intros m S. induction S as [|x m S IH F]; constructor; [|exact IH]. intros I. rewrite Forall_forall in F. specialize (F x I). lia. }
  apply NoDup_Permutation; auto.
Qed.
Lemma positions_fun : forall fs P P' l l', positions fs P l -> positions fs P' l' -> (forall f, In f fs -> (P f <-> P' f)) -> l = l'.
Proof.
  intros fs P P' l l' [S A] [S' A'] H. apply lt_sorted_unique; [exact S|exact S'|]. intros i. rewrite A, A'.
  split; intros (f & E & X); exists f; split; try exact E; apply (H f (nth_error_In _ _ E)); exact X.
Qed.
Lemma positions_ext : forall fs P P' l, (forall f, In f fs -> (P f <-> P' f)) -> positions fs P l -> positions fs P' l.
Proof.
  intros fs P P' l H [S A]. split; [exact S|]. intros i. rewrite A.
  split; intros (f & E & X); exists f; split; try exact E; apply (H f (nth_error_In _ _ E)); exact X.
Qed.

(** ** Keys *)
Lemma insertQ_in : forall q l k, In k (insertQ q l) -> k = q \/ In k l.
Proof.
  intros q l. induction l as [|x r IH]; intros k I; cbn [insertQ] in I; [destruct I as [<-|[]]; left; reflexivity|].
  destruct (Qeq_bool q x); [right; exact I|]. destruct (Qle_bool q x); [destruct I as [<-|I]; [left; reflexivity|right; exact I]|].
  destruct I as [<-|I]; [right; left; reflexivity|]. destruct (IH k I) as [->|J]; [left; reflexivity|right; right; exact J].
Qed.
Lemma insertQ_cover : forall q l, (exists k, In k (insertQ q l) /\ (k == q)%Q) /\ forall k, In k l -> In k (insertQ q l).
Proof.
  intros q l. induction l as [|x r [[k [I E]] J]]; cbn [insertQ].
  - split; [exists q; split; [left; reflexivity|reflexivity]|intros k []].
  - destruct (Qeq_bool q x) eqn:E1; [apply Qeq_bool_iff in E1; split; [exists x; split; [left; reflexivity|symmetry; exact E1]|auto]|].
    destruct (Qle_bool q x).
    + split; [exists q; split; [left; reflexivity|reflexivity]|intros z Z; right; exact Z].
    + split; [exists k; split; [right; exact I|exact E]|]. intros z [<-|Z]; [left; reflexivity|right; apply J; exact Z].
Qed.
Lemma insertQ_sorted : forall q l, StronglySorted Qlt l -> StronglySorted Qlt (insertQ q l).
Proof.
  intros q l. induction l as [|x r IH]; intros S; cbn [insertQ]; [repeat constructor|]. inversion S as [|? ? S1 F]; subst.
  destruct (Qeq_bool q x) eqn:E1; [exact S|]. apply Qeq_bool_neq in E1.
  destruct (Qle_bool q x) eqn:E2.
  - apply Qle_bool_iff in E2. assert (L : (q < x)%Q) by (apply Qle_lteq in E2; destruct E2; [assumption|contradiction]).
    constructor; [exact S|]. constructor; [exact L|]. eapply Forall_impl; [|exact F]. intros z Z. cbn in Z. lra.
  - assert (L : (x < q)%Q) by (apply Qnot_le_lt; intros X; apply Qle_bool_iff in X; congruence).
    constructor; [exact (IH S1)|]. rewrite Forall_forall in *. intros z I. apply insertQ_in in I. destruct I as [->|I]; [exact L|exact (F z I)].
Qed.
Lemma keysQ_spec : forall l, StronglySorted Qlt (keysQ l) /\ (forall k, In k (keysQ l) -> In k l) /\ forall q, In q l -> exists k, In k (keysQ l) /\ (k == q)%Q.
Proof.
  induction l as [|x l (S & I & C)]; [split; [constructor|split; intros k []]|]. cbn [keysQ fold_right]. fold (keysQ l). split; [|split].
  - apply insertQ_sorted. exact S.
  - intros k K. apply insertQ_in in K. destruct K as [->|K]; [left; reflexivity|right; exact (I k K)].
  - intros q [<-|Q]; [apply insertQ_cover|]. destruct (C q Q) as (k & K & E). exists k. split; [|exact E]. apply insertQ_cover. exact K.
Qed.

Definition keyed (key : sfr -> option Q) (k : Q) (f : nat * sfr) : bool := match key (snd f) with Some q => Qeq_bool q k | None => false end.
Lemma keyed_iff : forall key k i f, keyed key k (i, f) = true <-> exists q, key f = Some q /\ (q == k)%Q.
Proof.
  intros key k i f. unfold keyed. cbn [snd]. destruct (key f) as [q|].
  - rewrite Qeq_bool_iff. split; [intros H; exists q; auto|intros (q' & E & H); injection E as <-; exact H].
  - split; [discriminate|]. intros (q & E & _). discriminate E.
Qed.
Definition good_keys (key : sfr -> option Q) (l : list (nat * sfr)) (ks : list Q) : Prop :=
  StronglySorted Qlt ks /\ (forall k, In k ks -> exists f, In f l /\ keyed key k f = true) /\ forall f q, In f l -> key (snd f) = Some q -> exists k, In k ks /\ (k == q)%Q.
Lemma split_by_ok : forall key l gs, split_by key l = Ok gs ->
  (forall f, In f l -> key (snd f) <> None) /\ exists ks, gs = map (fun k => (k, filter (keyed key k) l)) ks /\ good_keys key l ks.
Proof.
  intros key l gs H. unfold split_by in H. destruct (mapR _ l) as [qs|] eqn:M; cbn [bind] in H; [|discriminate H]. injection H as <-.
  apply mapR_iff in M. assert (K : Forall2 (fun f q => key (snd f) = Some q) l qs).
  { eapply Forall2_impl; [|exact M]. cbn. intros f q _ E. destruct (key (snd f)); cbn in E; [injection E as ->; reflexivity|discriminate E]. }
  split.
  - intros f I. destruct (Forall2_in _ _ _ _ _ _ K I) as (q & _ & E). congruence.
  - exists (keysQ qs). split; [reflexivity|]. destruct (keysQ_spec qs) as (S & I & C). split; [exact S|]. split.
    + intros k K'. apply I in K'. destruct (Forall2_in' _ _ _ _ _ _ K K') as (f & J & E). exists f. split; [exact J|].
      unfold keyed. rewrite E. apply Qeq_bool_refl.
    + intros f q J E. destruct (Forall2_in _ _ _ _ _ _ K J) as (q' & J' & E'). assert (q' = q) by congruence. subst. exact (C q J').
Qed.
Lemma split_by_total : forall key l, (forall f, In f l -> key (snd f) <> None) -> exists gs, split_by key l = Ok gs.
Proof.
  intros key l H. unfold split_by. assert (T : exists qs, mapR (fun f => getkey (key (snd f))) l = Ok qs).
  { induction l as [|x l IH]; [exists []; reflexivity|]. cbn [mapR]. destruct IH as (qs & E); [intros f I; apply H; right; exact I|].
    destruct (key (snd x)) as [q|] eqn:Q; [|destruct (H x (or_introl eq_refl) Q)]. exists (q :: qs). cbn [getkey bind]. rewrite E. reflexivity. }
  destruct T as (qs & E). rewrite E. eexists. reflexivity.
Qed.

Lemma keys_inj : forall ks i j a b, StronglySorted Qlt ks -> nth_error ks i = Some a -> nth_error ks j = Some b -> ((a == b)%Q -> i = j) /\ ((a < b)%Q -> (i < j)%nat).
Proof.
  intros ks i j a b S A B. rewrite SS_nth in S. destruct (Nat.lt_trichotomy i j) as [H|[H|H]].
  - pose proof (S _ _ _ _ H A B). split; [intros; lra|auto].
  - subst j. assert (a = b) by congruence. subst b. split; [auto|]. intros. lra.
  - pose proof (S _ _ _ _ H B A). split; intros; lra.
Qed.

(** ** Permutations: the frames of the other groups *)
Lemma filter_or_perm : forall A (p q : A -> bool) l, (forall x, In x l -> p x = true -> q x = false) -> Permutation (filter p l ++ filter q l) (filter (fun x => p x || q x) l).
Proof.
  intros A p q l. induction l as [|x l IH]; intros D; [constructor|]. assert (IH' := IH (fun y I => D y (or_intror I))). cbn [filter].
  destruct (p x) eqn:P; cbn [orb].
  - rewrite (D x (or_introl eq_refl) P). cbn [app]. constructor. exact IH'.
  - destruct (q x); [|exact IH']. rewrite <- Permutation_middle. constructor. exact IH'.
Qed.
Lemma flat_perm : forall key ks l, (forall i j a b, nth_error ks i = Some a -> nth_error ks j = Some b -> (a == b)%Q -> i = j) ->
  Permutation (flat_map (fun k => filter (keyed key k) l) ks) (filter (fun f => existsb (fun k => keyed key k f) ks) l).
Proof.
  intros key ks l. induction ks as [|k ks IH]; intros D; cbn [flat_map existsb].
  - clear. induction l as [|x l IH]; [constructor|]. cbn. exact IH.
  - rewrite IH.
    + apply filter_or_perm. intros (i & f) I H. apply keyed_iff in H. destruct H as (q & E & H).
      destruct (existsb (fun k0 => keyed key k0 (i, f)) ks) eqn:X; [|reflexivity]. exfalso. apply existsb_exists in X. destruct X as (k' & K' & H').
      apply keyed_iff in H'. destruct H' as (q' & E' & H'). assert (q' = q) by congruence. subst q'. apply In_nth_error in K'. destruct K' as (n & K').
      assert (O : 0%nat = S n); [|discriminate O]. apply (D 0%nat (S n) k k' eq_refl K'). rewrite <- H. exact H'.
    + intros i j a b A B E. assert (O : S i = S j) by (apply (D (S i) (S j) a b A B E)). congruence.
Qed.
Lemma nth_del_in : forall A (l : list A) n x, In x (nth_del n l) <-> exists i, i <> n /\ nth_error l i = Some x.
Proof.
  intros A l n x. unfold nth_del. rewrite in_app_iff. split.
  - intros [I|I]; apply In_nth_error in I; destruct I as (i & E).
    + assert (L : (i < List.length (firstn n l))%nat) by (apply nth_error_Some; congruence). rewrite firstn_length in L. exists i. split; [lia|].
      rewrite <- (firstn_skipn n l), nth_error_app1 by (rewrite firstn_length; lia). exact E.
    + exists (S n + i)%nat. split; [lia|]. assert (L : (i < List.length (skipn (S n) l))%nat) by (apply nth_error_Some; congruence). rewrite skipn_length in L.
      rewrite <- (firstn_skipn (S n) l), nth_error_app2 by (rewrite firstn_length; lia).
      rewrite firstn_length. replace (S n + i - Init.Nat.min (S n) (List.length l))%nat with i by lia. exact E.
  - intros (i & N & E). assert (L : (i < List.length l)%nat) by (apply nth_error_Some; congruence). destruct (lt_dec i n) as [Q|Q].
    + left. apply nth_error_In with (n := i). rewrite <- (firstn_skipn n l), nth_error_app1 in E by (rewrite firstn_length; lia). exact E.
    + right. apply nth_error_In with (n := (i - S n)%nat). rewrite <- (firstn_skipn (S n) l), nth_error_app2 in E by (rewrite firstn_length; lia).
      rewrite firstn_length in E. replace (i - Init.Nat.min (S n) (List.length l))%nat with (i - S n)%nat in E by lia. exact E.
Qed.
Lemma nth_del_map : forall A B (g : A -> B) n l, nth_del n (map g l) = map g (nth_del n l).
Proof. intros A B g n l. unfold nth_del. rewrite firstn_map, skipn_map, map_app. reflexivity. Qed.
Lemma nth_del_sorted : forall A (R : A -> A -> Prop) n l, StronglySorted R l -> StronglySorted R (nth_del n l).
Proof.
  intros A R n l. revert n. induction l as [|x l IH]; intros n S; [unfold nth_del; rewrite firstn_nil, skipn_nil; constructor|].
  inversion S as [|? ? S1 F]; subst. destruct n as [|n]; [exact S1|]. change (nth_del (Datatypes.S n) (x :: l)) with (x :: nth_del n l).
  constructor; [exact (IH n S1)|]. rewrite Forall_forall in *. intros y I. apply nth_del_in in I. destruct I as (i & _ & E). apply F. exact (nth_error_In _ _ E).
Qed.
Lemma del_perm : forall key l ks n k, good_keys key l ks -> (forall f, In f l -> key (snd f) <> None) -> nth_error ks n = Some k ->
  Permutation (flat_map snd (nth_del n (map (fun k => (k, filter (keyed key k) l)) ks))) (filter (fun f => negb (keyed key k f)) l).
Proof.
  intros key l ks n k (S & W & C) T K. rewrite nth_del_map, flat_map_concat_map, map_map. cbn [snd]. rewrite <- flat_map_concat_map.
  rewrite flat_perm.
  - rewrite (filter_ext_in (fun f => existsb (fun k0 => keyed key k0 f) (nth_del n ks)) (fun f => negb (keyed key k f))); [reflexivity|].
    intros (i & f) I. destruct (key f) as [q|] eqn:Q; [|destruct (T _ I Q)].
    destruct (keyed key k (i, f)) eqn:E; cbn [negb].
    + apply keyed_iff in E. destruct E as (q' & E' & H). assert (q' = q) by congruence. subst q'.
      destruct (existsb _ _) eqn:X; [|reflexivity]. exfalso. apply existsb_exists in X. destruct X as (k' & K' & H').
      apply keyed_iff in H'. destruct H' as (q' & E'' & H'). assert (q' = q) by congruence. subst q'.
      apply nth_del_in in K'. destruct K' as (j & N & K'). apply N. apply (keys_inj ks j n k' k S K' K). rewrite <- H'. exact H.
    + apply existsb_exists. destruct (C _ _ I Q) as (k' & K' & H'). exists k'. split.
      * apply nth_del_in. apply In_nth_error in K'. destruct K' as (j & K'). exists j. split; [|exact K'].
        intros ->. assert (k' = k) by congruence. subst k'. assert (X : keyed key k (i, f) = true) by (apply keyed_iff; exists q; split; [exact Q|symmetry; exact H']). congruence.
      * apply keyed_iff. exists q. split; [exact Q|symmetry; exact H'].
  - intros i j a b A B E. assert (SD : StronglySorted Qlt (nth_del n ks)) by (apply nth_del_sorted; exact S). apply (keys_inj _ i j a b SD A B). exact E.
Qed.

(** ** The mean frames *)
Definition gaink (k : Q) : nat * sfr -> bool := keyed s_gain k.
Definition expk (k : Q) : nat * sfr -> bool := keyed s_exp k.
Lemma filter_filter : forall A (p q : A -> bool) l, filter p (filter q l) = filter (fun x => q x && p x) l.
Proof. intros A p q l. induction l as [|x l IH]; [reflexivity|]. cbn [filter]. destruct (q x); cbn [filter andb]; [destruct (p x); rewrite IH; reflexivity|exact IH]. Qed.
Lemma group_positions : forall fs u k, (u == 1)%Q -> positions fs (fun f => has_gain 1 f /\ has_exp k f) (map fst (filter (expk k) (filter (gaink u) (number 0 fs)))).
Proof.
  intros fs u k U. rewrite filter_filter. apply filter_positions. intros i f I. rewrite andb_true_iff. unfold gaink, expk. rewrite !keyed_iff.
  unfold has_gain, has_exp. split; intros [(q & E & H) X]; (split; [exists q; split; [exact E|]|exact X]); [rewrite <- U|rewrite U]; exact H.
Qed.
Lemma memZ_iff : forall z l, memZ z l = true <-> In z l.
Proof.
  intros z l. unfold memZ. rewrite existsb_exists. split; [intros (x & I & E); apply Z.eqb_eq in E; subst; exact I|intros I; exists z; split; [exact I|apply Z.eqb_refl]].
Qed.
Lemma with_id_iff : forall f r, with_id f = Ok r <-> snd r = f /\ frame_number (s_name (snd f)) (fst r).
Proof.
  intros f (z & g). unfold with_id. destruct (extract_frame_id (s_name (snd f))) as [i|] eqn:E; cbn [bind fst snd].
  - apply frame_id_spec in E. split.
    + intros H. injection H as <- <-. split; [reflexivity|exact E].
    + intros [-> H]. apply frame_id_spec in H. apply frame_id_spec in E. congruence.
  - split; [discriminate|]. intros [-> H]. apply frame_id_spec in H. congruence.
Qed.

Section Mean.
Variable fs : list sfr.
Variable u : Q.
Hypothesis U1 : (u == 1)%Q.
Let U := filter (gaink u) (number 0 fs).
Variable ks : list Q.
Hypothesis KS : good_keys s_exp U ks.
Hypothesis TOT : forall f, In f U -> s_exp (snd f) <> None.
Let groups := map (fun k => (k, filter (expk k) U)) ks.

Lemma in_U : forall i f, In (i, f) U -> nth_error fs i = Some f /\ has_gain 1 f.
Proof.
  intros i f I. apply filter_In in I. destruct I as [I G]. apply number_in in I. split; [exact I|]. apply keyed_iff in G. destruct G as (q & E & H).
  exists q. split; [exact E|]. rewrite H. exact U1.
Qed.
Lemma group_key : forall e l', positions fs (fun f => has_gain 1 f /\ has_exp e f) l' -> l' <> [] -> exists i k, nth_error ks i = Some k /\ (k == e)%Q /\ l' = map fst (filter (expk k) U).
Proof.
  intros e l' [S' P] N. destruct l' as [|p l']; [congruence|]. destruct (proj1 (P p) (or_introl eq_refl)) as (f & F & (q & G & GQ) & (qe & E & EQ)).
  assert (I : In (p, f) U).
  { apply filter_In. split; [apply number_in; exact F|]. apply keyed_iff. exists q. split; [exact G|]. rewrite GQ. symmetry. exact U1. }
  destruct KS as (S & W & C). destruct (C _ _ I E) as (k & K & KE). apply In_nth_error in K. destruct K as (i & K).
  exists i, k. split; [exact K|]. split; [rewrite KE; exact EQ|].
  apply (positions_fun fs _ _ _ _ (conj S' P) (group_positions fs u k U1)). intros g _. split; intros [A (x & X & Y)]; (split; [exact A|]); exists x; (split; [exact X|]);
    rewrite Y, KE, ?EQ; reflexivity.
Qed.
Lemma largest_iff : forall i k, nth_error ks i = Some k ->
  (is_argmax (map (fun g => Z.of_nat (List.length (snd g))) groups) i <-> most_populated fs k (map fst (filter (expk k) U))).
Proof.
  intros i k K. pose proof KS as (S & W & C). unfold most_populated.
  assert (LEN : forall j, nth_error (map (fun g => Z.of_nat (List.length (snd g))) groups) j = option_map (fun k => Z.of_nat (List.length (filter (expk k) U))) (nth_error ks j)).
  { intros j. unfold groups. rewrite map_map, nth_error_map. cbn [snd]. reflexivity. }
  assert (NE : forall j k', nth_error ks j = Some k' -> (0 < List.length (filter (expk k') U))%nat).
  { intros j k' K'. destruct (W k' (nth_error_In _ _ K')) as (f & I & F). destruct (filter (expk k') U) eqn:Z; [|cbn; lia].
    assert (X : In f (filter (expk k') U)) by (apply filter_In; split; assumption). rewrite Z in X. destruct X. }
  split.
  - intros (x & X & MX & FX). rewrite LEN, K in X. cbn in X. injection X as <-. split; [apply group_positions; exact U1|]. split.
    + intros Z. pose proof (NE _ _ K) as L. apply (f_equal (@List.length nat)) in Z. rewrite map_length in Z. cbn in Z. lia.
    + intros e' l' G'. rewrite !map_length. destruct l' as [|p l'']; [split; [cbn; lia|intros _; cbn; exact (NE _ _ K)]|].
      destruct (group_key e' _ G' ltac:(discriminate)) as (j & k' & K' & E' & ->). rewrite map_length.
      assert (Lj : nth_error (map (fun g => Z.of_nat (List.length (snd g))) groups) j = Some (Z.of_nat (List.length (filter (expk k') U)))) by (rewrite LEN, K'; reflexivity).
      split; [pose proof (MX _ _ Lj); lia|]. intros LT. assert (J : (j < i)%nat) by (apply (keys_inj ks j i k' k S K' K); lra).
      pose proof (FX _ _ J Lj). lia.
  - intros (G & N & M). exists (Z.of_nat (List.length (filter (expk k) U))). split; [rewrite LEN, K; reflexivity|]. split.
    + intros j y Y. rewrite LEN in Y. destruct (nth_error ks j) as [k'|] eqn:K'; [|discriminate Y]. cbn in Y. injection Y as <-.
      destruct (M k' _ (group_positions fs u k' U1)) as [L _]. rewrite !map_length in L. fold U in L. lia.
    + intros j y J Y. rewrite LEN in Y. destruct (nth_error ks j) as [k'|] eqn:K'; [|discriminate Y]. cbn in Y. injection Y as <-.
      destruct (M k' _ (group_positions fs u k' U1)) as [_ L]. rewrite !map_length in L. fold U in L.
      assert (LT : (k' < k)%Q) by (exact (proj1 (SS_nth _ _ _) S j i k' k J K' K)). specialize (L LT). lia.
Qed.
Lemma members : forall k fi, Forall2 (fun f r => with_id f = Ok r) (filter (expk k) U) fi -> forall run,
  let m := map (fun p => fst (snd p)) (filter (fun p : Z * (nat * sfr) => memZ (fst p) run) fi) in
  StronglySorted lt m /\ forall i, In i m <-> In i (map fst (filter (expk k) U)) /\ exists z, numbered fs i z /\ In z run.
Proof.
  intros k fi F run m. assert (MF : map snd fi = filter (expk k) U).
  { clear m. induction F as [|f r l fi' H F IH]; [reflexivity|]. apply with_id_iff in H. destruct H as [H _]. cbn [map]. rewrite H, IH. reflexivity. }
  assert (IU : forall f, In f (filter (expk k) U) -> nth_error fs (fst f) = Some (snd f)).
  { intros (i & f) I. apply filter_In in I. destruct I as [I _]. apply in_U in I. cbn. tauto. }
  split.
  - unfold m. apply SS_filter_map. rewrite <- (map_map snd fst fi), MF. apply SS_filter_map. apply SS_filter_map. apply number_sorted.
  - intros i. unfold m. rewrite !in_map_iff. split.
    + intros ((z & f) & E & I). cbn [snd] in E. apply filter_In in I. destruct I as [I Mz]. cbn [fst] in Mz. apply memZ_iff in Mz.
      destruct (Forall2_in' _ _ _ _ _ _ F I) as (f' & I' & H). apply with_id_iff in H. cbn [fst snd] in H. destruct H as [-> H].
      split; [exists f'; split; [exact E|exact I']|]. exists z. split; [|exact Mz]. exists (snd f'). split; [rewrite <- E; apply IU; exact I'|exact H].
    + intros ((f & E & I) & z & (g & G & H) & J). destruct (Forall2_in _ _ _ _ _ _ F I) as ((z' & f') & I' & W). apply with_id_iff in W. cbn [fst snd] in W. destruct W as [-> W].
      assert (g = snd f) by (specialize (IU f I); congruence). subst g. exists (z', f). split; [exact E|]. apply filter_In. split; [exact I'|]. cbn [fst]. apply memZ_iff.
      assert (z' = z); [|congruence]. apply frame_id_spec in W, H. congruence.
Qed.
Lemma numbered_group : forall k fi, Forall2 (fun f r => with_id f = Ok r) (filter (expk k) U) fi -> Forall2 (numbered fs) (map fst (filter (expk k) U)) (map fst fi).
Proof.
  intros k fi F. rewrite Forall2_mapl, Forall2_mapr. eapply Forall2_impl; [|exact F]. cbn. intros (i & f) (z & g) I H. apply with_id_iff in H. cbn [fst snd] in *.
  exists f. split; [|tauto]. apply filter_In in I. destruct I as [I _]. apply in_U in I. tauto.
Qed.
End Mean.

Lemma mean_frames_ext : forall fs e e' m, (e == e')%Q -> mean_frames fs e m -> mean_frames fs e' m.
Proof.
  intros fs e e' m E (l & ids & run & (G & N & M) & R). exists l, ids, run. split; [|exact R].
  assert (X : forall f, has_exp e f <-> has_exp e' f) by (intros f; split; intros (q & A & B); exists q; (split; [exact A|]); rewrite B; [exact E|symmetry; exact E]).
  split; [|split; [exact N|]].
  - eapply positions_ext; [|exact G]. cbn. intros f _. rewrite X. reflexivity.
  - intros a b H. destruct (M a b H) as [A B]. split; [exact A|]. intros L. apply B. lra.
Qed.

Definition rest_of (fs : list sfr) (u e : Q) : list (nat * sfr) := filter (fun f => negb (expk e f)) (filter (gaink u) (number 0 fs)).
Lemma mean_stage_ok : forall fs u m rest, (u == 1)%Q -> mean_stage (filter (gaink u) (number 0 fs)) = Ok (m, rest) ->
  (forall f, In f fs -> has_gain 1 f -> s_exp f <> None) /\ exists e, mean_frames fs e m /\ Permutation rest (rest_of fs u e).
Proof.
  intros fs u m rest U1 H. unfold mean_stage in H. destruct (split_by s_exp _) as [gs|] eqn:SB; cbn [bind] in H; [|discriminate H].
  destruct (split_by_ok _ _ _ SB) as (TOT & ks & -> & KS).
  destruct (argmax _) as [k|] eqn:AM; [|discriminate H]. apply argmax_ok in AM.
  destruct (nth_error ks k) as [e|] eqn:K.
  2:{ exfalso. destruct AM as (x & X & _). rewrite !nth_error_map, K in X. discriminate X. }
  assert (NK : nth k (map (fun k => (k, filter (keyed s_exp k) (filter (gaink u) (number 0 fs)))) ks) (0%Q, []) = (e, filter (expk e) (filter (gaink u) (number 0 fs)))).
  { apply nth_error_nth. rewrite nth_error_map, K. reflexivity. }
  cbv zeta in H. rewrite NK in H. cbn [snd] in H.
  destruct (mapR with_id _) as [fi|] eqn:M; cbn [bind] in H; [|discriminate H]. apply mapR_iff in M.
  destruct (mean_ids (map fst fi)) as [run|] eqn:R; cbn [bind] in H; [|discriminate H]. injection H as <- <-.
  split.
  - intros f I G. apply In_nth_error in I. destruct I as (i & I). apply (TOT (i, f)). apply filter_In. split; [apply number_in; exact I|].
    apply keyed_iff. destruct G as (q & E & G). exists q. split; [exact E|]. rewrite G. symmetry. exact U1.
  - exists e. split; [|apply (del_perm s_exp _ ks k e KS TOT K)].
    assert (MP : most_populated fs e (map fst (filter (expk e) (filter (gaink u) (number 0 fs))))) by (apply (largest_iff fs u U1 ks KS k e K); exact AM).
    assert (NE : map fst fi <> []).
    { intros Z. apply map_eq_nil in Z. subst fi. destruct MP as (_ & N & _). apply N. inversion M; subst. reflexivity. }
    exists (map fst (filter (expk e) (filter (gaink u) (number 0 fs)))), (map fst fi), run. split; [exact MP|]. split; [apply (numbered_group fs u U1); exact M|].
    split; [apply mean_ids_iff; assumption|]. apply (members fs u U1 e fi M run).
Qed.
Lemma mean_stage_complete : forall fs u e m, (u == 1)%Q -> (forall f, In f fs -> has_gain 1 f -> s_exp f <> None) -> mean_frames fs e m ->
  exists rest, mean_stage (filter (gaink u) (number 0 fs)) = Ok (m, rest) /\ Permutation rest (rest_of fs u e).
Proof.
  intros fs u e m U1 T MF.
  assert (TOT : forall f, In f (filter (gaink u) (number 0 fs)) -> s_exp (snd f) <> None).
  { intros (i & f) I. apply in_U in I; [|exact U1]. apply T; [exact (nth_error_In _ _ (proj1 I))|tauto]. }
  destruct (split_by_total s_exp _ TOT) as (gs & SB). destruct (split_by_ok _ _ _ SB) as (_ & ks & -> & KS).
  unfold mean_stage. rewrite SB. cbn [bind].
  assert (KE : exists k e', nth_error ks k = Some e' /\ (e' == e)%Q).
  { destruct MF as (l & ids & run & (G & N & _) & _). destruct (group_key fs u U1 ks KS e l G N) as (i & k & A & B & _). exists i, k. auto. }
  destruct KE as (k & e' & K & E). apply (mean_frames_ext fs e e' m (Qeq_sym _ _ E)) in MF.
  destruct MF as (l & ids & run & MP & NB & LR & S & IN).
  assert (EL : l = map fst (filter (expk e') (filter (gaink u) (number 0 fs)))).
  { destruct MP as (G & _). apply (positions_fun fs _ _ _ _ G (group_positions fs u e' U1)). intros; reflexivity. }
  rewrite EL in MP, NB. assert (AM := proj2 (largest_iff fs u U1 ks KS k e' K) MP). apply argmax_ok in AM. unfold expk in AM. rewrite AM.
  assert (NK : nth k (map (fun k => (k, filter (keyed s_exp k) (filter (gaink u) (number 0 fs)))) ks) (0%Q, []) = (e', filter (expk e') (filter (gaink u) (number 0 fs)))).
  { apply nth_error_nth. rewrite nth_error_map, K. reflexivity. }
  cbv zeta. rewrite NK. cbn [snd].
  assert (FI : exists fi, Forall2 (fun f r => with_id f = Ok r) (filter (expk e') (filter (gaink u) (number 0 fs))) fi /\ map fst fi = ids).
  { assert (IU : forall f, In f (filter (expk e') (filter (gaink u) (number 0 fs))) -> nth_error fs (fst f) = Some (snd f)).
    { intros (i & f) I. apply filter_In in I. destruct I as [I _]. apply in_U in I; [|exact U1]. cbn. tauto. }
    rewrite Forall2_mapl in NB. clear - NB IU. induction NB as [|f z l ids H NB IH]; [exists []; split; [constructor|reflexivity]|].
    destruct IH as (fi & F & E); [intros g I; apply IU; right; exact I|]. exists ((z, f) :: fi). split; [|cbn; rewrite E; reflexivity].
    constructor; [|exact F]. apply with_id_iff. cbn [fst snd]. split; [reflexivity|]. destruct H as (g & G & H). rewrite (IU f (or_introl eq_refl)) in G. injection G as <-. exact H. }
  destruct FI as (fi & F & EI). rewrite (proj2 (mapR_iff _ _ _ _ _) F). cbn [bind].
  assert (NE : ids <> []).
  { intros Z. subst ids. rewrite Z in NB. destruct MP as (_ & N & _). apply N. inversion NB; subst. reflexivity. }
  rewrite EI, (proj2 (mean_ids_iff ids run NE) LR). cbn [bind]. eexists. split.
  - f_equal. f_equal. destruct (members fs u U1 e' fi F run) as [S' IN']. apply lt_sorted_unique; [exact S'|exact S|]. intros i. rewrite IN', IN, EL. reflexivity.
  - rewrite (del_perm s_exp _ ks k e' KS TOT K). unfold rest_of.
    rewrite (filter_ext_in (fun f => negb (keyed s_exp e' f)) (fun f => negb (expk e f))); [reflexivity|].
    intros (i & f) _. f_equal. apply eq_true_iff_eq. unfold expk. rewrite !keyed_iff. split; intros (q & A & B); exists q; (split; [exact A|]); rewrite B; [exact E|symmetry; exact E].
Qed.
