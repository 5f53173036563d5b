(** Noise maps: sub-stacks, windows, values of a sub-stack at a pixel, flags. *)
From Coq Require Import List Arith Bool Reals ZArith Lia Lra Sorting.Sorted String.
From Verif Require Import Base CombineModel CombineSpec CombineProofs ComboSpec ComboProofs GeomModel GeomSpec FlatModel FlatSpec NoiseModel NoiseSpec NoiseFitProofs.
Import ListNotations.
Local Open Scope R_scope.

(** ** Sub-stacks *)
Lemma reqb_iff : forall x y, reqb x y = true <-> x = y.
Proof. intros x y. unfold reqb. destruct (Req_EM_T x y); split; intros; congruence. Qed.
Lemma rltb_iff : forall x y, rltb x y = true <-> x < y.
Proof. intros x y. unfold rltb. destruct (Rlt_dec x y); split; intros; try assumption; try reflexivity; try contradiction; discriminate. Qed.
Notation key := (R * R * R)%type (only parsing).
Definition klt (a b : key) : Prop := fst (fst a) < fst (fst b) \/ fst (fst a) = fst (fst b) /\ (snd (fst a) < snd (fst b) \/ snd (fst a) = snd (fst b) /\ snd a < snd b).
Lemma key_eqb_iff : forall a b, key_eqb a b = true <-> a = b.
Proof.
  intros [[a1 a2] a3] [[b1 b2] b3]. unfold key_eqb. cbn [fst snd]. rewrite !andb_true_iff, !reqb_iff. split; [intros [[-> ->] ->]; reflexivity|].
  intros E. pose proof (f_equal (fun q => fst (fst q)) E) as X. pose proof (f_equal (fun q => snd (fst q)) E) as Y. pose proof (f_equal snd E) as W. cbn [fst snd] in *. auto.
Qed.
Lemma key_ltb_iff : forall a b, key_ltb a b = true <-> klt a b.
Proof. intros a b. unfold key_ltb, klt. rewrite !orb_true_iff, !andb_true_iff, !orb_true_iff, !andb_true_iff, !reqb_iff, !rltb_iff. reflexivity. Qed.
Lemma klt_total : forall a b, a <> b -> ~ klt a b -> klt b a.
Proof.
  intros [[a1 a2] a3] [[b1 b2] b3] N H. unfold klt in *. cbn [fst snd] in *.
  destruct (Rtotal_order a1 b1) as [L|[->|L]]; [exfalso; apply H; left; exact L| |left; lra]. right. split; [reflexivity|].
  destruct (Rtotal_order a2 b2) as [L|[->|L]]; [exfalso; apply H; right; split; [reflexivity|left; exact L]| |left; lra]. right. split; [reflexivity|].
  destruct (Rtotal_order a3 b3) as [L|[->|L]]; [exfalso; apply H; right; split; [reflexivity|right; split; [reflexivity|exact L]]|congruence|lra].
Qed.
Lemma klt_trans : forall a b c, klt a b -> klt b c -> klt a c.
Proof.
  intros [[a1 a2] a3] [[b1 b2] b3] [[c1 c2] c3]. unfold klt. cbn [fst snd]. intros [A|[-> [A|[-> A]]]] [B|[-> [B|[-> B]]]].
  all: try (left; lra). all: right; split; [reflexivity|]. all: try (left; lra). right. split; [reflexivity|lra].
Qed.
Lemma klt_irrefl : forall a, ~ klt a a.
Proof. intros a [A|[_ [A|[_ A]]]]; lra. Qed.

Lemma insert_key_in : forall k l x, In x (insert_key k l) <-> x = k \/ In x l.
Proof.
  intros k l x. induction l as [|y t IH]; cbn [insert_key]; [cbn; intuition|]. destruct (key_eqb k y) eqn:E.
  - apply key_eqb_iff in E. subst y. cbn. intuition.
  - destruct (key_ltb k y); cbn [In]; [intuition|]. rewrite IH. intuition.
Qed.
Lemma insert_key_sorted : forall k l, StronglySorted klt l -> StronglySorted klt (insert_key k l).
Proof.
  intros k l. induction l as [|y t IH]; intros S0; cbn [insert_key]; [repeat constructor|]. apply StronglySorted_inv in S0 as [S1 F]. destruct (key_eqb k y) eqn:E; [constructor; assumption|].
  destruct (key_ltb k y) eqn:L.
  - apply key_ltb_iff in L. constructor; [constructor; assumption|]. constructor; [exact L|]. rewrite Forall_forall in *. intros z Z. exact (klt_trans _ _ _ L (F z Z)).
  - constructor; [exact (IH S1)|]. rewrite Forall_forall in *. intros z Z. apply insert_key_in in Z as [->|Z]; [|exact (F z Z)]. apply klt_total.
    + intros ->. assert (T : key_eqb y y = true) by (apply key_eqb_iff; reflexivity). congruence.
    + intros X. apply key_ltb_iff in X. congruence.
Qed.
Lemma keys_in : forall fs k, In k (keys fs) <-> exists f, In f fs /\ key_of f = k.
Proof.
  intros fs k. unfold keys. induction fs as [|g t IH]; cbn [fold_right].
  - split; [intros []|intros (f & [] & _)].
  - rewrite insert_key_in, IH. split.
    + intros [->|(f & F & K)]; [exists g; split; [left; reflexivity|reflexivity]|exists f; split; [right; exact F|exact K]].
    + intros (f & [->|F] & K); [left; symmetry; exact K|right; exists f; split; assumption].
Qed.
Lemma keys_sorted : forall fs, StronglySorted klt (keys fs).
Proof. intros fs. unfold keys. induction fs as [|g t IH]; cbn [fold_right]; [constructor|apply insert_key_sorted; exact IH]. Qed.
Lemma sorted_one : forall l m, StronglySorted klt l -> StronglySorted klt m -> (forall k, In k l <-> In k m) -> l = m.
Proof.
  induction l as [|x l IH]; intros [|y m] S1 S2 E; [reflexivity|destruct (proj2 (E y) (or_introl eq_refl))|destruct (proj1 (E x) (or_introl eq_refl))|].
  apply StronglySorted_inv in S1 as [S1 F1]. apply StronglySorted_inv in S2 as [S2 F2]. rewrite Forall_forall in F1, F2.
  assert (x = y) as ->. { destruct (proj1 (E x) (or_introl eq_refl)) as [X|X]; [symmetry; exact X|]. destruct (proj2 (E y) (or_introl eq_refl)) as [Y|Y]; [exact Y|].
    exfalso. exact (klt_irrefl x (klt_trans _ _ _ (F1 y Y) (F2 x X))). }
  f_equal. apply IH; [exact S1|exact S2|]. intros k. split; intros K.
  - destruct (proj1 (E k) (or_intror K)) as [->|Q]; [|exact Q]. exfalso. exact (klt_irrefl k (F1 k K)).
  - destruct (proj2 (E k) (or_intror K)) as [->|Q]; [|exact Q]. exfalso. exact (klt_irrefl k (F2 k K)).
Qed.
Definition group (fs : list frame) (k : key) : list frame := filter (fun f => key_eqb (key_of f) k) fs.
Lemma group_in : forall fs k f, In f (group fs k) <-> In f fs /\ key_of f = k.
Proof. intros. unfold group. rewrite filter_In, key_eqb_iff. reflexivity. Qed.
Lemma alike_key : forall f g, alike f g <-> key_of g = key_of f.
Proof.
  intros f g. unfold alike, key_of. split; [intros (-> & -> & ->); reflexivity|]. intros E. pose proof (f_equal (fun q => fst (fst q)) E) as X. pose proof (f_equal (fun q => snd (fst q)) E) as Y.
  pose proof (f_equal snd E) as W. cbn [fst snd] in *. auto.
Qed.
Lemma group_sieve : forall fs f s, sieve (alike f) fs s <-> s = group fs (key_of f).
Proof. intros fs f s. apply sieve_filter. intros x. rewrite key_eqb_iff. symmetry. apply alike_key. Qed.
Lemma before_key : forall f g, before f g <-> klt (key_of f) (key_of g).
Proof. intros. reflexivity. Qed.
Lemma splits_iff : forall fs ss, splits fs ss <-> ss = substacks fs.
Proof.
  intros fs ss. split.
  - intros (A & B & S0).
    assert (K : exists ks, ss = map (group fs) ks /\ Forall (fun k => exists f, In f fs /\ key_of f = k) ks).
    { clear B S0. induction A as [|s t (f & F & V) A (ks & -> & K)]; [exists []; split; [reflexivity|constructor]|]. apply group_sieve in V. subst s. exists (key_of f :: ks).
      split; [reflexivity|]. constructor; [|exact K]. exists f. apply group_in in F as [F _]. split; [exact F|reflexivity]. }
    destruct K as (ks & -> & K). change (substacks fs) with (map (group fs) (keys fs)). f_equal. apply sorted_one; [|apply keys_sorted|].
    + clear A B. induction ks as [|k ks IH]; [constructor|]. cbn [map] in S0. apply StronglySorted_inv in S0 as [S1 F]. inversion K as [|? ? (f & Ff & Kf) K']; subst. constructor; [exact (IH S1 K')|].
      rewrite Forall_forall in *. intros k' K1. destruct (K' k' K1) as (f' & Ff' & Kf'). rewrite <- Kf'. apply before_key.
      apply (F (group fs k') (in_map _ _ _ K1)); apply group_in; split; auto.
    + intros k. rewrite keys_in. split; [intros I; rewrite Forall_forall in K; exact (K k I)|]. intros (f & F & E). destruct (B f F) as (s & Is & Fs). apply in_map_iff in Is as (k' & <- & I'). apply group_in in Fs as [_ Q]. congruence.
  - intros ->. change (substacks fs) with (map (group fs) (keys fs)). split; [|split].
    + apply Forall_forall. intros s Is. apply in_map_iff in Is as (k & <- & I). apply keys_in in I as (f & F & E). exists f. split; [apply group_in; auto|]. apply group_sieve. rewrite E. reflexivity.
    + intros f F. exists (group fs (key_of f)). split; [|apply group_in; auto]. apply in_map. apply keys_in. exists f. auto.
    + pose proof (keys_sorted fs) as S0. induction S0 as [|k l S0 IH F]; [constructor|]. cbn [map]. constructor; [exact IH|]. apply Forall_forall. intros s Is. apply in_map_iff in Is as (k' & <- & I).
      rewrite Forall_forall in F. intros f f' A B. apply group_in in A as [_ <-]. apply group_in in B as [_ E]. apply before_key. rewrite E. exact (F k' I).
Qed.
Lemma substacks_in : forall fs s, In s (substacks fs) -> exists f, In f s /\ s = group fs (key_of f) /\ In f fs.
Proof. intros fs s I. apply in_map_iff in I as (k & <- & I). apply keys_in in I as (f & F & E). exists f. split; [apply group_in; auto|]. rewrite E. split; [reflexivity|exact F]. Qed.
Lemma substacks_all : forall fs f, In f fs <-> exists s, In s (substacks fs) /\ In f s.
Proof.
  intros fs f. split.
  - intros F. exists (group fs (key_of f)). split; [|apply group_in; auto]. apply in_map. apply keys_in. exists f. auto.
  - intros (s & I & F). apply in_map_iff in I as (k & <- & _). apply group_in in F as [F _]. exact F.
Qed.

(** ** Windows *)
Lemma skipn_seq : forall n a k, skipn k (seq a n) = seq (a + k) (n - k).
Proof. induction n as [|n IH]; intros a [|k]; cbn [skipn seq]; rewrite ?Nat.add_0_r; try reflexivity. rewrite IH. f_equal; lia. Qed.
Lemma firstn_seq : forall n a k, firstn k (seq a n) = seq a (min k n).
Proof. induction n as [|n IH]; intros a [|k]; cbn [firstn seq min]; try reflexivity. f_equal. apply IH. Qed.
Lemma cut_in : forall n lo hi r, In r (cut n lo hi) <-> within n lo hi r.
Proof.
  intros n lo hi r. unfold cut, pyslice, within, norm, norm_ix, zlen. rewrite seq_length, skipn_seq, firstn_seq, in_seq.
  destruct (Z.ltb_spec lo 0), (Z.ltb_spec hi 0); lia.
Qed.
Definition withinb (n : nat) (lo hi : Z) (r : nat) : bool := (Nat.ltb r n && (norm n lo <=? Z.of_nat r) && (Z.of_nat r <? norm n hi))%Z.
Lemma withinb_iff : forall n lo hi r, withinb n lo hi r = true <-> within n lo hi r.
Proof. intros. unfold withinb, within. rewrite !andb_true_iff, Nat.ltb_lt, Z.leb_le, Z.ltb_lt. tauto. Qed.
Lemma seq_sorted : forall n a, StronglySorted lt (seq a n).
Proof. induction n as [|n IH]; intros a; cbn [seq]; [constructor|]. constructor; [apply IH|]. apply Forall_forall. intros x X. apply in_seq in X. lia. Qed.
Lemma filter_sorted : forall (p : nat -> bool) l, StronglySorted lt l -> StronglySorted lt (filter p l).
Proof.
  intros p l S0. induction S0 as [|x l S0 IH F]; cbn [filter]; [constructor|]. destruct (p x); [|exact IH]. constructor; [exact IH|]. rewrite Forall_forall in *. intros y Y. apply filter_In in Y as [Y _]. exact (F y Y).
Qed.
Lemma sorted_nat_one : forall l m, StronglySorted lt l -> StronglySorted lt m -> (forall k, In k l <-> In k m) -> l = m.
Proof.
  induction l as [|x l IH]; intros [|y m] S1 S2 E; [reflexivity|destruct (proj2 (E y) (or_introl eq_refl))|destruct (proj1 (E x) (or_introl eq_refl))|].
  apply StronglySorted_inv in S1 as [S1 F1]. apply StronglySorted_inv in S2 as [S2 F2]. rewrite Forall_forall in F1, F2.
  assert (x = y) as ->. { destruct (proj1 (E x) (or_introl eq_refl)) as [X|X]; [symmetry; exact X|]. destruct (proj2 (E y) (or_introl eq_refl)) as [Y|Y]; [exact Y|]. specialize (F1 y Y). specialize (F2 x X). lia. }
  f_equal. apply IH; [exact S1|exact S2|]. intros k. split; intros K.
  - destruct (proj1 (E k) (or_intror K)) as [->|Q]; [|exact Q]. specialize (F1 k K). lia.
  - destruct (proj2 (E k) (or_intror K)) as [->|Q]; [|exact Q]. specialize (F2 k K). lia.
Qed.
Lemma cut_filter : forall n lo hi, cut n lo hi = filter (withinb n lo hi) (seq 0 n).
Proof.
  intros n lo hi. apply sorted_nat_one.
  - unfold cut, pyslice. rewrite skipn_seq, firstn_seq. apply seq_sorted.
  - apply filter_sorted, seq_sorted.
  - intros k. rewrite cut_in, filter_In, withinb_iff, in_seq. split; [intros W; split; [destruct W as [W _]; lia|exact W]|tauto].
Qed.
Lemma among_iff : forall n lo hi r, among (cut n lo hi) r = true <-> within n lo hi r.
Proof. intros. unfold among. rewrite existsb_exists, <- cut_in. split; [intros (x & X & E); apply Nat.eqb_eq in E; subst; exact X|intros H; exists r; split; [exact H|apply Nat.eqb_refl]]. Qed.
Lemma filter_map_pair : forall (x : nat) (q : nat -> bool) (pq : nat * nat -> bool) m, (forall y, pq (x, y) = q y) -> filter pq (map (fun y => (x, y)) m) = map (fun y => (x, y)) (filter q m).
Proof. intros x q pq m H. induction m as [|y m IH]; [reflexivity|]. cbn [map filter]. rewrite H. destruct (q y); cbn [map]; rewrite IH; reflexivity. Qed.
Lemma prod_filter : forall (p q : nat -> bool) l m, list_prod (filter p l) (filter q m) = filter (fun x => p (fst x) && q (snd x)) (list_prod l m).
Proof.
  intros p q l m. induction l as [|x l IH]; [reflexivity|]. cbn [list_prod]. rewrite filter_app. cbn [filter].
  rewrite (filter_map_pair x (fun y => p x && q y) _ m (fun y => eq_refl)).
  assert (FN : filter (fun _ : nat => false) m = []) by (clear; induction m as [|y m IH]; [reflexivity|exact IH]).
  destruct (p x); cbn [list_prod andb]; rewrite IH; [reflexivity|]. rewrite FN. reflexivity.
Qed.
Lemma cells_sieve : forall f s ps, sieve (in_section (rows f) (cols f) s) (list_prod (seq 0 (rows f)) (seq 0 (cols f))) ps <-> ps = cells f s.
Proof.
  intros f s ps. unfold cells. rewrite !cut_filter, prod_filter. apply sieve_filter. intros [r c]. unfold in_section, in_box. cbn [fst snd]. rewrite andb_true_iff, !withinb_iff. reflexivity.
Qed.
Lemma cells_in : forall f s p, In p (cells f s) <-> in_section (rows f) (cols f) s p.
Proof. intros f s [r c]. unfold cells. rewrite in_prod_iff, !cut_in. reflexivity. Qed.

(** ** Values that are numbers *)
Lemma allsome_iff : forall l, allsome l = true <-> l = map Some (somes l).
Proof.
  induction l as [|[x|] l IH]; [split; reflexivity| |].
  - change (allsome (Some x :: l)) with (allsome l). cbn [somes map]. rewrite IH. split; [intros <-; reflexivity|intros E; injection E as E; exact E].
  - change (allsome (None :: l)) with false. split; [discriminate|]. cbn [somes]. intros E. destruct (somes l); discriminate E.
Qed.
Lemma allsome_false : forall l, allsome l = false <-> In None l.
Proof.
  induction l as [|[x|] l IH]; [split; [discriminate|intros []]| |].
  - change (allsome (Some x :: l)) with (allsome l). rewrite IH. split; [right; assumption|intros [E|E]; [discriminate E|exact E]].
  - change (allsome (None :: l)) with false. split; [left; reflexivity|reflexivity].
Qed.
Lemma somes_map : forall xs, somes (map Some xs) = xs.
Proof. induction xs as [|x xs IH]; [reflexivity|]. cbn [map somes]. rewrite IH. reflexivity. Qed.
Lemma allsome_map : forall xs, allsome (map Some xs) = true.
Proof. intros xs. apply allsome_iff. rewrite somes_map. reflexivity. Qed.
Lemma none_not_map : forall xs, ~ In (@None R) (map Some xs).
Proof. intros xs I. apply in_map_iff in I as (x & X & _). discriminate X. Qed.

Lemma mean_iff : forall xs m, xs <> [] -> (is_mean xs m <-> m = rsum xs / INR (List.length xs)).
Proof.
  intros xs m N. assert (P : INR (List.length xs) <> 0) by (apply not_0_INR; destruct xs; [congruence|discriminate]). unfold is_mean, rsum. split.
  - intros [_ E]. rewrite <- E. field. exact P.
  - intros ->. split; [exact N|]. field. exact P.
Qed.
Lemma average_cases : forall l, (l = [] /\ average l = Some 0) \/ (exists xs, l = map Some xs /\ xs <> [] /\ average l = Some (rsum xs / INR (List.length xs))) \/ (In None l /\ average l = None).
Proof.
  intros [|v l]; [left; auto|right]. destruct (allsome (v :: l)) eqn:E.
  - left. pose proof E as E'. apply allsome_iff in E'. exists (somes (v :: l)). split; [exact E'|]. split; [intros Q; rewrite Q in E'; discriminate E'|]. unfold average. rewrite E. rewrite E' at 2. rewrite map_length. reflexivity.
  - right. split; [apply allsome_false; exact E|]. unfold average. rewrite E. reflexivity.
Qed.

Section Pixels.
Variable tel : Z * option Z.
Lemma telem_iff : forall n r, among (telem tel n) r = true <-> telemetry tel n r.
Proof. intros. apply among_iff. Qed.
Lemma read_iff : forall r c f v, read tel r c f v <-> v = value tel f r c.
Proof.
  intros r c f v. unfold read, value. destruct (among (telem tel (rows (f_img f))) r) eqn:E.
  - apply telem_iff in E. split; [intros [[_ H]|[H _]]; [exact H|contradiction]|intros ->; left; auto].
  - assert (N : ~ telemetry tel (rows (f_img f)) r) by (intros H; apply telem_iff in H; congruence). split; [intros [[H _]|[_ H]]; [contradiction|exact H]|intros ->; right; auto].
Qed.
Lemma reads_iff : forall r c gs vs, Forall2 (read tel r c) gs vs <-> vs = map (fun f => value tel f r c) gs.
Proof.
  intros r c gs vs. split.
  - intros F. induction F as [|f v gs vs V F IH]; [reflexivity|]. cbn [map]. apply read_iff in V. subst. reflexivity.
  - intros ->. induction gs as [|f gs IH]; [constructor|]. cbn [map]. constructor; [apply read_iff; reflexivity|exact IH].
Qed.
Lemma used_iff : forall s r c gs, used s r c gs <-> gs = good r c s.
Proof. intros. apply sieve_filter. intros f. apply Z.eqb_eq. Qed.

Lemma stack_mean_iff : forall s r c v, stack_mean tel s r c v <-> v = mean_pix tel s r c.
Proof.
  intros s r c v. unfold stack_mean, mean_pix. split.
  - intros (gs & vs & U & V & H). apply used_iff in U. apply reads_iff in V. subst gs. rewrite <- V. destruct (average_cases vs) as [[E A] | [(xs & E & N & A) | [I A]]]; rewrite A.
    + destruct v as [m|]; [|rewrite E in H; destruct H]. destruct H as [[_ ->]|(xs & X & M)]; [reflexivity|]. rewrite X in E. destruct xs; [destruct M as [M _]; congruence|discriminate E].
    + destruct v as [m|]; [|rewrite E in H; destruct (none_not_map _ H)]. destruct H as [[G _]|(ys & Y & M)]; [rewrite G in V; rewrite V in E; destruct xs; [congruence|discriminate E]|].
      assert (ys = xs) as -> by (rewrite <- (somes_map ys), <- Y, E; apply somes_map). apply mean_iff in M; [|exact N]. subst m. reflexivity.
    + destruct v as [m|]; [|reflexivity]. destruct H as [[G _]|(ys & Y & M)]; [rewrite G in V; rewrite V in I; destruct I|]. rewrite Y in I. destruct (none_not_map _ I).
  - intros ->. exists (good r c s), (map (fun f => value tel f r c) (good r c s)). split; [apply used_iff; reflexivity|]. split; [apply reads_iff; reflexivity|].
    destruct (average_cases (map (fun f => value tel f r c) (good r c s))) as [[E A] | [(xs & E & N & A) | [I A]]]; rewrite A.
    + left. split; [|reflexivity]. destruct (good r c s); [reflexivity|discriminate E].
    + right. exists xs. split; [exact E|]. apply mean_iff; [exact N|reflexivity].
    + exact I.
Qed.

Lemma somes_some_map : forall A (f : A -> val) (g : R -> R) l xs, map f l = map Some xs -> map (fun a => option_map g (f a)) l = map Some (map g xs).
Proof. intros A f g. induction l as [|a l IH]; intros [|x xs] E; try discriminate E; [reflexivity|]. cbn [map] in *. injection E as E1 E2. rewrite E1. cbn [option_map]. f_equal. apply IH. exact E2. Qed.
Lemma none_some_map : forall A (f : A -> val) (g : R -> R) l, In None (map (fun a => option_map g (f a)) l) <-> In None (map f l).
Proof. intros A f g l. rewrite !in_map_iff. split; intros (a & E & I); exists a; (split; [|exact I]); destruct (f a); try discriminate; try reflexivity. Qed.

Lemma stack_err_iff : forall s r c v, stack_err tel s r c v <-> v = total_err tel s r c.
Proof.
  assert (G : forall s r c, stack_err tel s r c (total_err tel s r c)).
  { intros s r c. exists (good r c s), (map (fun f => value tel f r c) (good r c s)). split; [apply used_iff; reflexivity|]. split; [apply reads_iff; reflexivity|].
    unfold total_err, mean_err, stat_std. set (gs := good r c s).
    destruct (average_cases (map (fun f => value tel f r c) gs)) as [[E A] | [(xs & E & N & A) | [I A]]]; rewrite A.
    - assert (gs = []) as -> by (destruct gs; [reflexivity|discriminate E]). cbn [map average option_map]. rewrite sqrt_0. split; [apply sqrt_pos|]. left. split; [reflexivity|]. replace (0 ^ 2 + 0 ^ 2) with 0 by ring. apply sqrt_0.
    - set (m := rsum xs / INR (List.length xs)). assert (L : List.length xs = List.length gs) by (rewrite <- (map_length Some xs), <- E; apply map_length).
      destruct gs as [|g0 gs'] eqn:Gs; [destruct xs; [congruence|discriminate L]|]. rewrite <- Gs in *.
      replace (match gs with [] => Some 0 | _ => option_map (fun v => sqrt v / sqrt (INR (List.length gs))) (average (map (fun f => option_map (fun x => (x - m) ^ 2) (value tel f r c)) gs)) end)
        with (option_map (fun v => sqrt v / sqrt (INR (List.length gs))) (average (map (fun f => option_map (fun x => (x - m) ^ 2) (value tel f r c)) gs))) by (rewrite Gs; reflexivity).
      rewrite (somes_some_map _ (fun f => value tel f r c) (fun x => (x - m) ^ 2) gs xs E).
      assert (N2 : map (fun x => (x - m) ^ 2) xs <> []) by (destruct xs; [congruence|discriminate]).
      destruct (average_cases (map Some (map (fun x => (x - m) ^ 2) xs))) as [[Q _] | [(ys & Q & N3 & A2) | [I _]]]; [destruct xs; [congruence|discriminate Q]| |destruct (none_not_map _ I)].
      assert (ys = map (fun x => (x - m) ^ 2) xs) as -> by (rewrite <- (somes_map ys), <- Q; apply somes_map). rewrite A2. cbn [option_map].
      destruct (average_cases (map (fun f => option_map (fun e => e ^ 2) (f_err f r c)) gs)) as [[Q1 _] | [(zs & Q1 & N4 & A3) | [I A3]]]; [rewrite Gs in Q1; discriminate Q1| |].
      + rewrite A3. cbn [option_map]. split; [apply sqrt_pos|]. right.
        assert (exists es, map (fun f => f_err f r c) gs = map Some es /\ zs = map (fun y => y ^ 2) es) as (es & Es & Zs).
        { exists (somes (map (fun f => f_err f r c) gs)). assert (Al : map (fun f => f_err f r c) gs = map Some (somes (map (fun f => f_err f r c) gs))).
          { apply allsome_iff. destruct (allsome (map (fun f => f_err f r c) gs)) eqn:Z; [reflexivity|]. apply allsome_false in Z. exfalso. apply (none_not_map zs). rewrite <- Q1. apply (none_some_map _ (fun f => f_err f r c) (fun e => e ^ 2)). exact Z. }
          split; [exact Al|]. rewrite (somes_some_map _ (fun f => f_err f r c) (fun e => e ^ 2) gs _ Al) in Q1. rewrite <- (somes_map zs), <- Q1. apply somes_map. }
        exists xs, es, m, (rsum (map (fun x => (x - m) ^ 2) xs) / INR (List.length (map (fun x => (x - m) ^ 2) xs))), (rsum zs / INR (List.length zs)).
        split; [exact E|]. split; [exact Es|]. split; [apply mean_iff; [exact N|reflexivity]|]. split; [apply mean_iff; [exact N2|reflexivity]|]. split; [rewrite <- Zs; apply mean_iff; [exact N4|reflexivity]|].
        assert (P : 0 < INR (List.length gs)) by (apply lt_0_INR; rewrite Gs; cbn; lia).
        assert (Sn : forall l, Forall (fun x => 0 <= x) l -> l <> [] -> 0 <= rsum l / INR (List.length l)).
        { intros l F _. apply Rmult_le_pos; [|destruct l; [cbn [List.length INR]; rewrite Rinv_0; lra|left; apply Rinv_0_lt_compat, lt_0_INR; cbn; lia]]. unfold rsum. induction F; cbn [fold_right]; lra. }
        assert (P1 : 0 <= rsum zs / INR (List.length zs)) by (apply Sn; [rewrite Zs; apply Forall_forall; intros z Z; apply in_map_iff in Z as (y & <- & _); apply pow2_ge_0|exact N4]).
        assert (P2 : 0 <= rsum (map (fun x => (x - m) ^ 2) xs) / INR (List.length (map (fun x => (x - m) ^ 2) xs))) by (apply Sn; [apply Forall_forall; intros z Z; apply in_map_iff in Z as (y & <- & _); apply pow2_ge_0|exact N2]).
        rewrite pow2_sqrt by (apply Rplus_le_le_0_compat; apply pow2_ge_0). rewrite pow2_sqrt by exact P1. f_equal. unfold Rdiv at 1. rewrite Rpow_mult_distr, pow2_sqrt by exact P2.
        rewrite pow_inv, pow2_sqrt by lra. reflexivity.
      + rewrite A3. cbn [option_map]. right. apply (none_some_map _ (fun f => f_err f r c) (fun e => e ^ 2)). exact I.
    - destruct (option_map sqrt _); left; exact I. }
  intros s r c v. split; [|intros ->; apply G]. intros (gs & vs & U & V & H). destruct (G s r c) as (gs' & vs' & U' & V' & H'). apply used_iff in U, U'. apply reads_iff in V, V'. subst gs gs' vs vs'.
  set (gs := good r c s) in *. destruct v as [e|], (total_err tel s r c) as [e'|]; [|exfalso|exfalso|reflexivity].
  - f_equal. destruct H as [P H], H' as [P' H']. destruct H as [[Z ->]|(xs & ys & m & q & u & X & Y & M & Q & U & E)], H' as [[Z' ->]|(xs' & ys' & m' & q' & u' & X' & Y' & M' & Q' & U' & E')].
    + reflexivity.
    + rewrite Z in X'. destruct xs'; [destruct M' as [M' _]; congruence|discriminate X'].
    + rewrite Z' in X. destruct xs; [destruct M as [M _]; congruence|discriminate X].
    + assert (xs' = xs) as -> by (rewrite <- (somes_map xs'), <- X', X; apply somes_map). assert (ys' = ys) as -> by (rewrite <- (somes_map ys'), <- Y', Y; apply somes_map).
      assert (m' = m) as -> by (pose proof M as [N _]; apply mean_iff in M; [|exact N]; apply mean_iff in M'; [|exact N]; congruence).
      assert (q' = q) as -> by (pose proof Q as [N _]; apply mean_iff in Q; [|exact N]; apply mean_iff in Q'; [|exact N]; congruence).
      assert (u' = u) as -> by (pose proof U as [N _]; apply mean_iff in U; [|exact N]; apply mean_iff in U'; [|exact N]; congruence).
      rewrite <- (sqrt_pow2 e P), <- (sqrt_pow2 e' P'). f_equal. congruence.
  - destruct H as [_ [[Z _]|(xs & ys & m & q & u & X & Y & _)]]; destruct H' as [I|I].
    + rewrite Z in I. destruct I.
    + rewrite Z in I. destruct I.
    + rewrite X in I. exact (none_not_map _ I).
    + rewrite Y in I. exact (none_not_map _ I).
  - destruct H' as [_ [[Z _]|(xs & ys & m & q & u & X & Y & _)]]; destruct H as [I|I].
    + rewrite Z in I. destruct I.
    + rewrite Z in I. destruct I.
    + rewrite X in I. exact (none_not_map _ I).
    + rewrite Y in I. exact (none_not_map _ I).
Qed.
End Pixels.

(** ** Flags *)
Lemma all_but_three_iff : forall P (p : list frame -> bool) ss, (forall s, p s = true <-> P s) -> (all_but_three P ss <-> (List.length ss - 3 <= List.length (filter p ss))%nat).
Proof.
  intros P p ss H. unfold all_but_three. split.
  - intros (l & V & L). apply (sieve_filter _ P p H) in V. subst l. lia.
  - intros L. exists (filter p ss). split; [apply (sieve_filter _ P p H); reflexivity|]. lia.
Qed.
Lemma flag_iff : forall ss r c v, flagged ss r c v <-> v = flag ss r c.
Proof.
  intros ss r c v. unfold flagged, flag, unfittable, unreliable.
  rewrite (all_but_three_iff (lost r c) (fun s => Nat.eqb (List.length (good r c s)) 0)). 2:{ intros s. unfold lost. rewrite used_iff, Nat.eqb_eq. destruct (good r c s); cbn; split; intros E; congruence || lia. }
  rewrite (all_but_three_iff (poor r c) (fun s => Nat.ltb (2 * List.length (good r c s)) (List.length s))). 2:{ intros s. unfold poor. rewrite Nat.ltb_lt. split; [intros L; exists (good r c s); split; [apply used_iff; reflexivity|exact L]|]. intros (gs & U & L). apply used_iff in U. subst gs. exact L. }
  destruct (Nat.leb_spec (List.length ss - 3) (List.length (filter (fun s => Nat.eqb (List.length (good r c s)) 0) ss))) as [A|A].
  - split; [intros [[_ E]|[[N _]|[N _]]]; [exact E|lia|lia]|intros ->; left; auto].
  - destruct (Nat.leb_spec (List.length ss - 3) (List.length (filter (fun s => Nat.ltb (2 * List.length (good r c s)) (List.length s)) ss))) as [B|B].
    + split; [intros [[N _]|[(_ & _ & E)|(_ & N & _)]]; [lia|exact E|lia]|intros ->; right; left; repeat split; [lia|exact B]].
    + split; [intros [[N _]|[(_ & N & _)|(_ & _ & E)]]; [lia|lia|exact E]|intros ->; right; right; repeat split; lia].
Qed.
