(** Lemmas on argmax, runs of ids and sorted lists. *)
From Coq Require Import List Arith Bool QArith ZArith String Sorted Permutation Lia.
From Verif Require Import Base DqModel SortModel SortSpec SortNameProofs.
Import ListNotations.
Local Open Scope Z_scope.
Local Open Scope list_scope.

(** ** argmax *)
Definition is_argmax (l : list Z) (k : nat) : Prop :=
  exists x, nth_error l k = Some x /\ (forall i y, nth_error l i = Some y -> y <= x) /\ forall i y, (i < k)%nat -> nth_error l i = Some y -> y < x.
Lemma argmax_fun : forall l k k', is_argmax l k -> is_argmax l k' -> k = k'.
Proof.
  intros l k k' (x & A & B & C) (x' & A' & B' & C').
  destruct (Nat.lt_trichotomy k k') as [H|[H|H]]; [|exact H|]; exfalso.
  - pose proof (C' _ _ H A). pose proof (B _ _ A'). lia.
  - pose proof (C _ _ H A'). pose proof (B' _ _ A). lia.
Qed.
Lemma argmax_from_ok : forall r l best m, nth_error l best = Some m -> (best < List.length l)%nat ->
  (forall i y, nth_error l i = Some y -> y <= m) -> (forall i y, (i < best)%nat -> nth_error l i = Some y -> y < m) ->
  is_argmax (l ++ r) (argmax_from (List.length l) best m r).
Proof.
  induction r as [|x r IH]; intros l best m A L B C.
  - cbn. rewrite app_nil_r. exists m. auto.
  - cbn [argmax_from]. replace (l ++ x :: r) with ((l ++ [x]) ++ r) by (rewrite <- app_assoc; reflexivity).
    replace (S (List.length l)) with (List.length (l ++ [x])) by (rewrite app_length; cbn; lia).
    assert (SP : forall i y, nth_error (l ++ [x]) i = Some y -> nth_error l i = Some y \/ (i = List.length l /\ y = x)).
    { intros i y H. destruct (lt_dec i (List.length l)) as [Q|Q].
      - left. rewrite nth_error_app1 in H by exact Q. exact H.
      - right. rewrite nth_error_app2 in H by lia. destruct (i - List.length l)%nat as [|[|?]] eqn:E; cbn in H; try discriminate H. injection H as <-. split; [lia|reflexivity]. }
    destruct (m <? x) eqn:E; [apply Z.ltb_lt in E|apply Z.ltb_ge in E].
    + apply IH.
      * rewrite nth_error_app2, Nat.sub_diag by lia. reflexivity.
      * rewrite app_length. cbn. lia.
      * intros i y H. destruct (SP _ _ H) as [H'|[_ ->]]; [pose proof (B _ _ H'); lia|lia].
      * intros i y LT H. destruct (SP _ _ H) as [H'|[-> _]]; [pose proof (B _ _ H'); lia|lia].
    + apply IH.
      * rewrite nth_error_app1 by exact L. exact A.
      * rewrite app_length. lia.
      * intros i y H. destruct (SP _ _ H) as [H'|[_ ->]]; [exact (B _ _ H')|exact E].
      * intros i y LT H. destruct (SP _ _ H) as [H'|[-> _]]; [exact (C _ _ LT H')|lia].
Qed.
Lemma argmax_ok : forall l k, argmax l = Some k <-> is_argmax l k.
Proof.
  intros l k. destruct l as [|x r].
  - split; [discriminate|]. intros (x & H & _). destruct k; discriminate H.
  - assert (A : is_argmax (x :: r) (argmax_from 1 0 x r)).
    { apply (argmax_from_ok r [x] 0 x); [reflexivity|cbn; lia| |lia]. intros [|[|i]] y H; cbn in H; try discriminate H. injection H as <-. lia. }
    cbn [argmax]. split; [intros H; injection H as <-; exact A|]. intros H. f_equal. exact (argmax_fun _ _ _ A H).
Qed.
Lemma argmax_none : forall l, argmax l = None <-> l = [].
Proof. intros [|x l]; cbn; split; intros H; congruence. Qed.

(** ** Sorting *)
Section Insertion.
Variable A : Type.
Variable key : A -> Z.
Fixpoint ins (x : A) (l : list A) : list A := match l with [] => [x] | y :: r => if key x <=? key y then x :: l else y :: ins x r end.
Definition isort (l : list A) : list A := fold_right ins [] l.
Lemma ins_perm : forall x l, Permutation (x :: l) (ins x l).
Proof.
  intros x l. induction l as [|y r IH]; cbn [ins]; [reflexivity|]. destruct (key x <=? key y); [reflexivity|].
  rewrite perm_swap. constructor. exact IH.
Qed.
Lemma isort_perm : forall l, Permutation l (isort l).
Proof. induction l as [|x l IH]; [constructor|]. cbn [isort fold_right]. rewrite <- ins_perm. constructor. exact IH. Qed.
Lemma ins_sorted : forall x l, StronglySorted (fun a b => key a <= key b) l -> StronglySorted (fun a b => key a <= key b) (ins x l).
Proof.
  intros x l. induction l as [|y r IH]; intros S; cbn [ins]; [repeat constructor|].
  inversion S as [|? ? S1 F1]; subst. destruct (key x <=? key y) eqn:E; [apply Z.leb_le in E|apply Z.leb_gt in E].
  - constructor; [exact S|]. constructor; [exact E|]. eapply Forall_impl; [|exact F1]. cbn. intros; lia.
  - constructor; [exact (IH S1)|]. rewrite Forall_forall. intros z I. apply (Permutation_in _ (Permutation_sym (ins_perm x r))) in I.
    destruct I as [<-|I]; [lia|]. rewrite Forall_forall in F1. exact (F1 z I).
Qed.
Lemma isort_sorted : forall l, StronglySorted (fun a b => key a <= key b) (isort l).
Proof. induction l as [|x l IH]; [constructor|]. cbn. apply ins_sorted. exact IH. Qed.
End Insertion.

Lemma sortZ_isort : forall l, sortZ l = isort Z (fun z => z) l.
Proof. reflexivity. Qed.
Lemma sortR_isort : forall l, sortR l = isort _ rid l.
Proof. reflexivity. Qed.
Lemma sortZ_perm : forall l, Permutation l (sortZ l).
Proof. intros l. exact (isort_perm Z (fun z => z) l). Qed.
Lemma sortZ_sorted : forall l, StronglySorted Z.le (sortZ l).
Proof. intros l. exact (isort_sorted Z (fun z => z) l). Qed.

Lemma sorted_unique : forall A (R : A -> A -> Prop) l l', (forall a b, In a l -> In b l -> R a b -> R b a -> a = b) ->
  StronglySorted R l -> StronglySorted R l' -> Permutation l l' -> l = l'.
Proof.
  intros A R l. induction l as [|x l IH]; intros l' AS S S' P; [apply Permutation_nil in P; congruence|].
  destruct l' as [|y l']; [apply Permutation_sym, Permutation_nil in P; discriminate P|].
  assert (E : x = y).
  { inversion S as [|? ? _ F]; inversion S' as [|? ? _ F']; subst. rewrite Forall_forall in F, F'.
    assert (I : In x (y :: l')) by (apply (Permutation_in _ P); left; reflexivity).
    assert (I' : In y (x :: l)) by (apply (Permutation_in _ (Permutation_sym P)); left; reflexivity).
    destruct I as [I|I]; [congruence|]. destruct I' as [I'|I']; [congruence|]. apply AS; [left; reflexivity|right; exact I'|apply F; exact I'|apply F'; exact I]. }
  subst y. f_equal. apply IH.
  - intros a b I J. apply AS; right; assumption.
  - inversion S; assumption.
  - inversion S'; assumption.
  - exact (Permutation_cons_inv P).
Qed.
Lemma sortZ_unique : forall l s, Permutation l s -> StronglySorted Z.le s -> s = sortZ l.
Proof.
  intros l s P S. apply (sorted_unique _ Z.le); [intros; lia|exact S|apply sortZ_sorted|].
  rewrite <- P. apply sortZ_perm.
Qed.

Lemma SS_impl : forall A (R R' : A -> A -> Prop) l, (forall a b, R a b -> R' a b) -> StronglySorted R l -> StronglySorted R' l.
Proof. intros A R R' l I S. induction S; constructor; auto. eapply Forall_impl; [|exact H]. auto. Qed.
Lemma SS_nth : forall A (R : A -> A -> Prop) l, StronglySorted R l <-> forall i j a b, (i < j)%nat -> nth_error l i = Some a -> nth_error l j = Some b -> R a b.
Proof.
  intros A R l. induction l as [|x l IH].
  - split; [|constructor]. intros _ i j a b _ H. destruct i; discriminate H.
  - split.
    + intros S. inversion S as [|? ? S1 F]; subst. intros [|i] [|j] a b L H1 H2; try lia; cbn in H1, H2.
      * injection H1 as <-. rewrite Forall_forall in F. apply F. exact (nth_error_In _ _ H2).
      * exact (proj1 IH S1 i j a b ltac:(lia) H1 H2).
    + intros H. constructor.
      * apply IH. intros i j a b L H1 H2. exact (H (S i) (S j) a b ltac:(lia) H1 H2).
      * rewrite Forall_forall. intros y I. apply In_nth_error in I. destruct I as (n & E). exact (H 0%nat (S n) x y ltac:(lia) eq_refl E).
Qed.

Lemma sortR_perm : forall l, Permutation l (sortR l).
Proof. intros l. exact (isort_perm _ rid l). Qed.
Lemma sortR_unique : forall l s, Permutation l s -> StronglySorted (fun a b => rid a < rid b) s -> s = sortR l.
Proof.
  intros l s P S.
  assert (SL : StronglySorted (fun a b => rid a <= rid b) s) by (apply (SS_impl _ (fun a b => rid a < rid b)); [intros a b H; lia|exact S]).
  apply (sorted_unique _ (fun a b => rid a <= rid b)).
  - intros a b Ia I L1 L2. apply In_nth_error in Ia, I. destruct Ia as (i & Ei), I as (j & Ej). rewrite SS_nth in S.
    destruct (Nat.lt_trichotomy i j) as [H|[H|H]]; [pose proof (S _ _ _ _ H Ei Ej); lia|subst; congruence|pose proof (S _ _ _ _ H Ej Ei); lia].
  - exact SL.
  - exact (isort_sorted _ rid l).
  - rewrite <- P. apply sortR_perm.
Qed.
Lemma sortR_strict : forall l, NoDup (map rid l) -> StronglySorted (fun a b => rid a < rid b) (sortR l).
Proof.
  intros l N. rewrite SS_nth. intros i j a b L A B.
  assert (S : rid a <= rid b) by (exact (proj1 (SS_nth _ _ _) (isort_sorted _ rid l) i j a b L A B)).
  assert (N' : NoDup (map rid (sortR l))) by (apply (Permutation_NoDup (Permutation_map rid (sortR_perm l))); exact N).
  assert (D : rid a <> rid b).
  { intros E. rewrite NoDup_nth_error in N'. assert (i = j); [|lia]. apply N'.
    - rewrite map_length. apply nth_error_Some. congruence.
    - rewrite !nth_error_map, A, B. cbn. congruence. }
  lia.
Qed.

(** ** Stretches: cutting a list where neighbours are unrelated *)
Section Blocks.
Variable A : Type.
Variable link : A -> A -> bool.   (* previous, next *)
Fixpoint blk (cur : list A) (prev : A) (l : list A) : list (list A) :=   (* cur is reversed *)
  match l with [] => [rev cur] | x :: r => if link prev x then blk (x :: cur) x r else rev cur :: blk [x] x r end.
Definition blocks (l : list A) : list (list A) := match l with [] => [] | x :: r => blk [x] x r end.

Lemma blk_concat : forall l cur prev, List.concat (blk cur prev l) = rev cur ++ l.
Proof.
  induction l as [|x l IH]; intros cur prev; cbn [blk].
  - cbn. rewrite !app_nil_r. reflexivity.
  - destruct (link prev x); [|cbn [List.concat]]; rewrite IH; cbn [rev]; [rewrite <- app_assoc|]; reflexivity.
Qed.
Lemma blocks_concat : forall l, List.concat (blocks l) = l.
Proof. intros [|x l]; [reflexivity|]. cbn [blocks]. rewrite blk_concat. reflexivity. Qed.

(** linked neighbours inside a block *)
Definition linked (b : list A) : Prop := forall i x y, nth_error b i = Some x -> nth_error b (S i) = Some y -> link x y = true.
Lemma linked_snoc : forall b x y, linked (b ++ [x]) -> link x y = true -> linked ((b ++ [x]) ++ [y]).
Proof.
  intros b x y H L i u v U V. destruct (lt_dec (S i) (List.length (b ++ [x]))) as [Q|Q].
  - rewrite nth_error_app1 in U by lia. rewrite nth_error_app1 in V by lia. exact (H _ _ _ U V).
  - assert (I : i = List.length b).
    { assert (S i < List.length ((b ++ [x]) ++ [y]))%nat by (apply nth_error_Some; congruence). rewrite !app_length in *. cbn in *. lia. }
    subst i. rewrite <- app_assoc in U, V. rewrite nth_error_app2, Nat.sub_diag in U by lia. cbn in U. injection U as <-.
    rewrite nth_error_app2 in V by lia. replace (S (List.length b) - List.length b)%nat with 1%nat in V by lia. cbn in V. injection V as <-. exact L.
Qed.
Lemma blk_good : forall l cur prev, linked (rev (prev :: cur)) ->
  (forall b, In b (blk (prev :: cur) prev l) -> b <> [] /\ linked b)
  /\ (exists t r, blk (prev :: cur) prev l = (rev (prev :: cur) ++ t) :: r)
  /\ forall i b b', nth_error (blk (prev :: cur) prev l) i = Some b -> nth_error (blk (prev :: cur) prev l) (S i) = Some b' ->
      exists p x y s, b = p ++ [x] /\ b' = y :: s /\ link x y = false.
Proof.
  induction l as [|x l IH]; intros cur prev K; cbn [blk].
  - split; [|split].
    + intros b [<-|[]]. split; [|exact K]. cbn. intros E. destruct (rev cur); discriminate E.
    + exists [], []. rewrite app_nil_r. reflexivity.
    + intros i b b' _ H. destruct i; discriminate H.
  - destruct (link prev x) eqn:E.
    + assert (K' : linked (rev (x :: prev :: cur))) by (cbn [rev]; apply linked_snoc; [exact K|exact E]).
      destruct (IH (prev :: cur) x K') as (I1 & (t & r & I2) & I3). split; [exact I1|]. split; [|exact I3].
      exists (x :: t), r. rewrite I2. cbn [rev]. rewrite <- !app_assoc. reflexivity.
    + assert (K' : linked (rev [x])) by (intros [|i] u v U V; cbn in V; discriminate V).
      destruct (IH [] x K') as (I1 & (t & r & I2) & I3). split; [|split].
      * intros b [<-|I]; [|exact (I1 _ I)]. split; [|exact K]. cbn. intros Z. destruct (rev cur); discriminate Z.
      * exists [], (blk [x] x l). rewrite app_nil_r. reflexivity.
      * intros [|i] b b' B B'; cbn [nth_error] in B, B'; [|exact (I3 _ _ _ B B')].
        injection B as <-. rewrite I2 in B'. cbn in B'. injection B' as <-. exists (rev cur), prev, x, t. cbn. repeat split; exact E.
Qed.
Definition cut (l : list A) (B : list (list A)) : Prop :=
  l = List.concat B /\ (forall b, In b B -> b <> [] /\ linked b)
  /\ forall i b b', nth_error B i = Some b -> nth_error B (S i) = Some b' -> exists p x y s, b = p ++ [x] /\ b' = y :: s /\ link x y = false.
Lemma blocks_cut : forall l, cut l (blocks l).
Proof.
  intros l. split; [symmetry; apply blocks_concat|]. destruct l as [|x l]; cbn [blocks].
  - split; [intros b []|intros [|i] b b' H; discriminate H].
  - destruct (blk_good l [] x) as (I1 & _ & I3); [|split; assumption].
    intros [|i] u v U V; cbn in V; discriminate V.
Qed.

Definition off (B : list (list A)) (k : nat) : nat := List.length (List.concat (firstn k B)).
Lemma off_S : forall B k b, nth_error B k = Some b -> off B (S k) = (off B k + List.length b)%nat.
Proof.
  intros B k b. revert B. unfold off. induction k as [|k IH]; intros [|c B] H; try discriminate H; cbn in H.
  - injection H as ->. cbn. rewrite app_nil_r. reflexivity.
  - specialize (IH _ H). cbn [firstn List.concat] in *. rewrite !app_length. lia.
Qed.
Lemma concat_nth : forall (B : list (list A)) k b i, nth_error B k = Some b -> (i < List.length b)%nat -> nth_error (List.concat B) (off B k + i) = nth_error b i.
Proof.
  intros B k. revert B. unfold off. induction k as [|k IH]; intros [|c B] b i H L; try discriminate H; cbn in H; cbn [firstn List.concat List.length].
  - injection H as ->. rewrite nth_error_app1 by (cbn; lia). reflexivity.
  - rewrite app_length, nth_error_app2 by lia.
    replace (List.length c + List.length (List.concat (firstn k B)) + i - List.length c)%nat with (List.length (List.concat (firstn k B)) + i)%nat by lia.
    apply IH; assumption.
Qed.
Lemma locate : forall (B : list (list A)) p, (p < List.length (List.concat B))%nat -> exists k b, nth_error B k = Some b /\ (off B k <= p < off B k + List.length b)%nat.
Proof.
  induction B as [|b B IH]; intros p L; cbn [List.concat] in L; [cbn in L; lia|]. rewrite app_length in L.
  destruct (lt_dec p (List.length b)) as [Q|Q].
  - exists 0%nat, b. split; [reflexivity|]. unfold off. cbn. lia.
  - destruct (IH (p - List.length b)%nat) as (k & c & N & R); [lia|]. exists (S k), c. split; [exact N|].
    unfold off in *. cbn [firstn List.concat]. rewrite app_length. lia.
Qed.
Lemma off_cut : forall (B : list (list A)) k b, nth_error B k = Some b -> List.concat B = List.concat (firstn k B) ++ b ++ List.concat (skipn (S k) B).
Proof.
  intros B k b H. apply nth_error_split in H. destruct H as (l1 & l2 & -> & <-).
  rewrite firstn_app, firstn_all, Nat.sub_diag. cbn [firstn]. rewrite app_nil_r.
  replace (skipn (S (List.length l1)) (l1 ++ b :: l2)) with l2.
  - rewrite concat_app. reflexivity.
  - replace (l1 ++ b :: l2) with ((l1 ++ [b]) ++ l2) by (rewrite <- app_assoc; reflexivity).
    replace (S (List.length l1)) with (List.length (l1 ++ [b])) by (rewrite app_length; cbn; lia).
    rewrite skipn_app, skipn_all, Nat.sub_diag. reflexivity.
Qed.
(** a linked segment lies inside one block *)
Lemma segment : forall B p m q, cut (p ++ m ++ q) B -> linked m -> m <> [] ->
  exists k b, nth_error B k = Some b /\ (off B k <= List.length p)%nat /\ (List.length p + List.length m <= off B k + List.length b)%nat.
Proof.
  intros B p m q (E & G & N) L M.
  assert (LM : (0 < List.length m)%nat) by (destruct m; [congruence|cbn; lia]).
  destruct (locate B (List.length p)) as (k & b & Hk & R); [rewrite <- E, !app_length; lia|].
  exists k, b. split; [exact Hk|]. split; [lia|].
  destruct (le_lt_dec (List.length p + List.length m) (off B k + List.length b)) as [Q|Q]; [exact Q|]. exfalso.
  assert (NX : exists b', nth_error B (S k) = Some b').
  { destruct (nth_error B (S k)) as [b'|] eqn:X; [exists b'; reflexivity|]. exfalso. apply nth_error_None in X.
    assert (T : (List.length (List.concat B) = off B k + List.length b)%nat).
    { rewrite (off_cut B k b Hk), !app_length. rewrite skipn_all2 by exact X. cbn. unfold off. lia. }
    rewrite <- E, !app_length in T. lia. }
  destruct NX as (b' & Hk'). destruct (N _ _ _ Hk Hk') as (u & x & y & v & -> & -> & F).
  assert (Z1 : nth_error (p ++ m ++ q) (off B k + List.length u) = Some x).
  { rewrite E. rewrite (concat_nth B k _ _ Hk) by (rewrite app_length; cbn; lia). rewrite nth_error_app2, Nat.sub_diag by lia. reflexivity. }
  assert (Z2 : nth_error (p ++ m ++ q) (S (off B k + List.length u)) = Some y).
  { rewrite E. replace (S (off B k + List.length u)) with (off B (S k) + 0)%nat by (rewrite (off_S _ _ _ Hk), app_length; cbn; lia).
    rewrite (concat_nth B (S k) _ _ Hk') by (cbn; lia). reflexivity. }
  rewrite app_length in Q, R. cbn in Q, R.
  rewrite nth_error_app2 in Z1 by lia. rewrite nth_error_app1 in Z1 by lia.
  rewrite nth_error_app2 in Z2 by lia. rewrite nth_error_app1 in Z2 by lia.
  replace (S (off B k + List.length u) - List.length p)%nat with (S (off B k + List.length u - List.length p)) in Z2 by lia.
  rewrite (L _ _ _ Z1 Z2) in F. discriminate F.
Qed.
Lemma off_le : forall B k k', (k <= k')%nat -> (off B k <= off B k')%nat.
Proof.
  intros B k k' L. unfold off. replace (firstn k B) with (firstn k (firstn k' B)) by (rewrite firstn_firstn; f_equal; lia).
  rewrite <- (firstn_skipn k (firstn k' B)) at 2. rewrite concat_app, app_length. lia.
Qed.
End Blocks.

(** ** The first longest run of ids *)
Definition next1 (a b : Z) : bool := b - a =? 1.
Lemma linked_consecutive : forall l, linked Z next1 l <-> consecutive l.
Proof.
  intros l. unfold linked, consecutive, next1. split; intros H i x y X Y.
  - pose proof (proj1 (Z.eqb_eq _ _) (H i x y X Y)). lia.
  - apply Z.eqb_eq. rewrite (H i x y X Y). lia.
Qed.
Lemma counts_blk : forall l prev cur, cur <> [] -> counts prev (Z.of_nat (List.length cur)) l = map (fun b => Z.of_nat (List.length b)) (blk Z next1 cur prev l).
Proof.
  induction l as [|x l IH]; intros prev cur N; cbn [counts blk].
  - cbn. rewrite rev_length. reflexivity.
  - unfold next1 at 1. destruct (x - prev =? 1).
    + replace (Z.of_nat (List.length cur) + 1) with (Z.of_nat (List.length (x :: cur))) by (cbn [List.length]; lia). apply IH. discriminate.
    + cbn [map]. rewrite rev_length. f_equal. exact (IH x [x] ltac:(discriminate)).
Qed.
Lemma sumZ_lens : forall A (B : list (list A)), sumZ (map (fun b => Z.of_nat (List.length b)) B) = Z.of_nat (List.length (List.concat B)).
Proof. intros A B. induction B as [|b B IH]; [reflexivity|]. cbn [map sumZ fold_right List.concat]. fold (sumZ (map (fun b => Z.of_nat (List.length b)) B)). rewrite IH, app_length. lia. Qed.

Lemma mean_ids_total : forall ids, ids <> [] -> exists run, mean_ids ids = Ok run /\ longest_run ids run.
Proof.
  intros ids N. unfold mean_ids. set (s := sortZ ids).
  assert (Ns : s <> []).
  { intros E. apply N. apply Permutation_nil. rewrite <- E. apply Permutation_sym. apply sortZ_perm. }
  assert (CC : count_cons s = map (fun b => Z.of_nat (List.length b)) (blocks Z next1 s)).
  { destruct s as [|x r]; [congruence|]. cbn [count_cons blocks]. exact (counts_blk r x [x] ltac:(discriminate)). }
  cbv zeta. rewrite CC. set (B := blocks Z next1 s).
  assert (CU : cut Z next1 s B) by apply blocks_cut.
  destruct (argmax (map (fun b => Z.of_nat (List.length b)) B)) as [k|] eqn:K.
  2:{ apply argmax_none in K. exfalso. apply Ns. destruct CU as (E & _). destruct B; [exact E|discriminate K]. }
  apply argmax_ok in K. destruct K as (x & X & MX & FX).
  rewrite nth_error_map in X. destruct (nth_error B k) as [b|] eqn:Eb; [|discriminate X]. cbn in X. injection X as <-.
  assert (NK : nth k (map (fun b => Z.of_nat (List.length b)) B) 0 = Z.of_nat (List.length b)).
  { apply nth_error_nth. rewrite nth_error_map, Eb. reflexivity. }
  rewrite NK, firstn_map, sumZ_lens. change (List.length (List.concat (firstn (S k) B))) with (off Z B (S k)). rewrite (off_S _ _ _ _ Eb).
  assert (SL : pyslice s (Z.of_nat (off Z B k + List.length b) - Z.of_nat (List.length b)) (Z.of_nat (off Z B k + List.length b)) = b).
  { replace (Z.of_nat (off Z B k + List.length b) - Z.of_nat (List.length b)) with (Z.of_nat (off Z B k)) by lia.
    destruct CU as (E & _). rewrite E, (off_cut _ _ _ _ Eb). apply pyslice_mid. }
  rewrite SL. exists b. split; [reflexivity|].
  destruct CU as (E & G & J).
  exists s, (List.concat (firstn k B)), (List.concat (skipn (S k) B)). split; [apply sortZ_perm|]. split; [apply sortZ_sorted|].
  split; [rewrite E; apply off_cut; exact Eb|]. split; [apply linked_consecutive; apply G; exact (nth_error_In _ _ Eb)|].
  intros p r q Es Cr Nr.
  assert (CU' : cut Z next1 (p ++ r ++ q) B) by (rewrite <- Es; split; [exact E|split; assumption]).
  destruct (segment Z next1 B p r q CU' (proj2 (linked_consecutive r) Cr) Nr) as (k' & b' & Hk' & L1 & L2).
  assert (Mb : Z.of_nat (List.length b') <= Z.of_nat (List.length b)) by (apply (MX k'); rewrite nth_error_map, Hk'; reflexivity).
  split; [lia|]. intros LT. change (List.length p < off Z B k)%nat in LT.
  assert (K' : (k' < k)%nat).
  { destruct (lt_dec k' k) as [Q|Q]; [exact Q|]. pose proof (off_le Z B k k' ltac:(lia)). lia. }
  assert (Z.of_nat (List.length b') < Z.of_nat (List.length b)) by (apply (FX k' _ K'); rewrite nth_error_map, Hk'; reflexivity).
  lia.
Qed.
Lemma longest_run_fun : forall ids r r', ids <> [] -> longest_run ids r -> longest_run ids r' -> r = r'.
Proof.
  intros ids r r' NI (s & p & q & P & S & E & C & M) (s' & p' & q' & P' & S' & E' & C' & M').
  assert (ES : s' = s) by (rewrite (sortZ_unique ids s P S), (sortZ_unique ids s' P' S'); reflexivity). rewrite ES in E', M'. clear s' ES P' S'.
  assert (Ns : s <> []) by (intros Z; apply NI; apply Permutation_nil; rewrite <- Z; apply Permutation_sym; exact P).
  assert (ON : forall x : Z, consecutive [x]) by (intros x [|i] u v U V; cbn in V; discriminate V).
  assert (Nr : r <> []).
  { intros Z. destruct s as [|x s0]; [congruence|]. destruct (M [] [x] s0 eq_refl (ON x)) as [L _]; [discriminate|]. rewrite Z in L. cbn in L. lia. }
  assert (Nr' : r' <> []).
  { intros Z. destruct s as [|x s0]; [congruence|]. destruct (M' [] [x] s0 eq_refl (ON x)) as [L _]; [discriminate|]. rewrite Z in L. cbn in L. lia. }
  destruct (M _ _ _ E' C' Nr') as [A1 A2]. destruct (M' _ _ _ E C Nr) as [B1 B2].
  assert (Lr : List.length r = List.length r') by lia.
  assert (Lp : List.length p = List.length p') by (destruct (Nat.lt_trichotomy (List.length p) (List.length p')) as [H|[H|H]]; [specialize (B2 H); lia|exact H|specialize (A2 H); lia]).
  rewrite E in E'. clear - E' Lr Lp. revert p' E' Lp. induction p as [|x p IH]; intros [|y p'] E' Lp; cbn in Lp; try lia.
  - cbn in E'. clear Lp. revert r' E' Lr. induction r as [|x r IH]; intros [|y r'] E' L; cbn in L; try lia; [reflexivity|].
    cbn in E'. injection E' as -> E'. f_equal. apply IH; [exact E'|lia].
  - cbn in E'. injection E' as _ E'. apply (IH p' E'). lia.
Qed.
Lemma mean_ids_iff : forall ids run, ids <> [] -> (mean_ids ids = Ok run <-> longest_run ids run).
Proof.
  intros ids run N. destruct (mean_ids_total ids N) as (r & E & L). rewrite E. split.
  - intros H. injection H as <-. exact L.
  - intros H. f_equal. exact (longest_run_fun ids _ _ N L H).
Qed.
