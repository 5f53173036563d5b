(** Proofs on combinations. *)
From Coq Require Import List Arith Bool Lia Sorted.
From Verif Require Import Base ComboModel ComboSpec.
Import ListNotations.
Local Open Scope list_scope.

(** ** The order *)
Lemma lex_irrefl : forall l, ~ lex l l.
Proof. induction l as [|x l IH]; intros H; inversion H; subst; [lia|contradiction]. Qed.
Lemma lex_trans : forall a b c, lex a b -> lex b c -> lex a c.
Proof.
  intros a b c H. revert c. induction H as [x y l m L|x l m H IH]; intros c K; inversion K; subst; try (constructor; lia).
  apply lex_later. apply IH. assumption.
Qed.
Lemma lex_total : forall a b, List.length a = List.length b -> lex a b \/ a = b \/ lex b a.
Proof.
  induction a as [|x a IH]; intros [|y b] L; try discriminate L; [right; left; reflexivity|]. destruct (lt_eq_lt_dec x y) as [[H| ->]|H].
  - left. constructor. exact H.
  - injection L as L. destruct (IH b L) as [H|[->|H]]; [left|right; left|right; right]; try (apply lex_later; exact H). reflexivity.
  - right. right. constructor. exact H.
Qed.

(** ** A recursive successor *)
Fixpoint succ_ (n : nat) (l : list nat) : option (list nat) :=
  match l with
  | [] => None
  | x :: t => match succ_ n t with
              | Some t' => Some (x :: t')
              | None => if x + List.length t + 1 =? n then None else Some (seq (x + 1) (S (List.length t)))
              end
  end.
(** every element is at its limit *)
Fixpoint full (n : nat) (l : list nat) : Prop := match l with [] => True | x :: t => x + List.length t + 1 = n /\ full n t end.
Lemma succ_none : forall n l, succ_ n l = None <-> full n l.
Proof.
  intros n. induction l as [|x l IH]; cbn [succ_ full]; [tauto|]. destruct (succ_ n l) as [t|] eqn:H.
  - split; [discriminate|]. intros [_ F]. apply IH in F. discriminate F.
  - destruct (x + List.length l + 1 =? n) eqn:X; [apply Nat.eqb_eq in X; split; [intros _; split; [exact X|apply IH; reflexivity]|reflexivity]|].
    apply Nat.eqb_neq in X. split; [discriminate|]. intros [E _]. contradiction.
Qed.
Lemma succ_split : forall n pre x suf, full n suf -> x + List.length suf + 1 <> n -> succ_ n (pre ++ x :: suf) = Some (pre ++ seq (x + 1) (S (List.length suf))).
Proof.
  intros n pre x suf F X. induction pre as [|y pre IH].
  - cbn [app succ_]. rewrite (proj2 (succ_none n suf) F). rewrite (proj2 (Nat.eqb_neq _ _) X). reflexivity.
  - cbn [app succ_]. rewrite IH. reflexivity.
Qed.

(** ** The loops compute it *)
Lemma upd_len : forall i v l, List.length (upd i v l) = List.length l.
Proof. intros i v l. revert i. induction l as [|x l IH]; intros [|i]; cbn; try reflexivity. rewrite IH. reflexivity. Qed.
Lemma upd_app : forall a x b v, upd (List.length a) v (a ++ x :: b) = a ++ v :: b.
Proof. induction a as [|y a IH]; intros x b v; [reflexivity|]. cbn. rewrite IH. reflexivity. Qed.
Lemma nth_app_len : forall (a b : list nat) x, nth (List.length a) (a ++ x :: b) 0 = x.
Proof. induction a as [|y a IH]; intros b x; [reflexivity|]. cbn. apply IH. Qed.

Section Gen.
Variables n r : nat.
Hypothesis RN : r <= n.

Lemma fill : forall suf pre m base, fold_left (fun l j => upd j (nth (j - 1) l 0 + 1) l) (seq (List.length pre + S m) (List.length suf)) (pre ++ seq base (S m) ++ suf) = pre ++ seq base (S m + List.length suf).
Proof.
  induction suf as [|y suf IH]; intros pre m base.
  - cbn [List.length seq fold_left]. rewrite app_nil_r, Nat.add_0_r. reflexivity.
  - cbn [List.length]. rewrite <- (cons_seq (List.length suf) (List.length pre + S m)). cbn [fold_left].
    assert (N : nth (List.length pre + S m - 1) (pre ++ seq base (S m) ++ y :: suf) 0 = base + m).
    { rewrite app_nth2 by lia. rewrite app_nth1 by (rewrite seq_length; lia). rewrite seq_nth by lia. lia. }
    assert (U : upd (List.length pre + S m) (base + m + 1) (pre ++ seq base (S m) ++ y :: suf) = pre ++ seq base (S (S m)) ++ suf).
    { replace (List.length pre + S m) with (List.length (pre ++ seq base (S m))) by (rewrite app_length, seq_length; reflexivity).
      rewrite app_assoc, upd_app. rewrite (seq_S (S m) base), <- !app_assoc. cbn [app]. replace (base + m + 1) with (base + S m) by lia. reflexivity. }
    rewrite N, U. replace (S (List.length pre + S m)) with (List.length pre + S (S m)) by lia. rewrite IH. f_equal. f_equal. lia.
Qed.
Lemma bump_spec : forall pre x suf, List.length (pre ++ x :: suf) = r -> bump r (List.length pre) (pre ++ x :: suf) = pre ++ seq (x + 1) (S (List.length suf)).
Proof.
  intros pre x suf L. unfold bump. rewrite nth_app_len, upd_app. rewrite app_length in L. cbn [List.length] in L.
  replace (r - (List.length pre + 1)) with (List.length suf) by lia. pose proof (fill suf pre 0 (x + 1)) as F. cbn [seq app] in F. rewrite F. reflexivity.
Qed.
Lemma full_nth : forall l, full n l <-> forall j, j < List.length l -> nth j l 0 = j + n - List.length l /\ List.length l <= n.
Proof.
  induction l as [|x l IH]; cbn [full].
  - split; [intros _ j H; cbn in H; lia|tauto].
  - split.
    + intros [X F] [|j] H; cbn [nth List.length] in *; [lia|]. destruct (proj1 IH F j ltac:(lia)). lia.
    + intros H. pose proof (H 0 ltac:(cbn; lia)) as [X LN]. cbn [nth List.length] in X, LN. split; [lia|]. apply IH. intros j J. destruct (H (S j) ltac:(cbn; lia)) as [Y _]. cbn [nth List.length] in Y. lia.
Qed.
Lemma find_rev : forall (p : nat -> bool) m, match find p (rev (seq 0 m)) with
  | Some i => i < m /\ p i = true /\ forall j, i < j < m -> p j = false
  | None => forall j, j < m -> p j = false end.
Proof.
  intros p. induction m as [|m IH]; [intros j J; lia|]. rewrite seq_S, rev_app_distr. cbn [rev app find]. rewrite Nat.add_0_l. destruct (p m) eqn:P.
  - split; [lia|]. split; [exact P|]. intros j J. lia.
  - destruct (find p (rev (seq 0 m))) as [i|].
    + destruct IH as (A & B & C). split; [lia|]. split; [exact B|]. intros j J. destruct (Nat.eq_dec j m) as [->|]; [exact P|apply C; lia].
    + intros j J. destruct (Nat.eq_dec j m) as [->|]; [exact P|apply IH; lia].
Qed.
Lemma split_at : forall (l : list nat) i, i < List.length l -> exists pre x suf, l = pre ++ x :: suf /\ List.length pre = i.
Proof.
  induction l as [|y l IH]; intros i H; [cbn in H; lia|]. destruct i as [|i]; [exists [], y, l; auto|]. destruct (IH i ltac:(cbn in H; lia)) as (p & x & s & -> & L). exists (y :: p), x, s. cbn. auto.
Qed.
Lemma next_succ : forall idx, List.length idx = r -> next n r idx = succ_ n idx.
Proof.
  intros idx L. unfold next, find_below. pose proof (find_rev (fun i => negb (nth i idx 0 =? i + n - r)) r) as F. destruct (find _ _) as [i|]; cbn [option_map].
  - destruct F as (I & P & A). destruct (split_at idx i ltac:(lia)) as (pre & x & suf & -> & PL). subst i.
    rewrite (bump_spec pre x suf L). symmetry. rewrite app_length in L. cbn [List.length] in L. apply succ_split.
    + apply full_nth. intros j J. split; [|lia]. specialize (A (List.length pre + S j) ltac:(lia)). apply negb_false_iff, Nat.eqb_eq in A.
      rewrite app_nth2 in A by lia. replace (List.length pre + S j - List.length pre) with (S j) in A by lia. cbn [nth] in A. rewrite A. lia.
    + rewrite nth_app_len in P. apply negb_true_iff, Nat.eqb_neq in P. lia.
  - symmetry. apply succ_none. apply full_nth. rewrite L. intros j J. split; [|exact RN]. specialize (F j J). apply negb_false_iff, Nat.eqb_eq in F. exact F.
Qed.
End Gen.

(** ** The successor is the next combination *)
(** increasing lists bounded below *)
Definition incr (lo n : nat) (l : list nat) : Prop := StronglySorted lt l /\ Forall (fun x => lo <= x < n) l.
Lemma incr_cons : forall lo n x l, incr lo n (x :: l) <-> lo <= x < n /\ incr (S x) n l.
Proof.
  intros lo n x l. unfold incr. split.
  - intros [SS F]. inversion SS as [|? ? S1 F1]; subst. inversion F as [|? ? B F2]; subst. split; [exact B|]. split; [exact S1|]. rewrite Forall_forall in *. intros y I. specialize (F1 y I). specialize (F2 y I). lia.
  - intros [B [SS F]]. split.
    + constructor; [exact SS|]. eapply Forall_impl; [|exact F]. cbn. lia.
    + constructor; [exact B|]. eapply Forall_impl; [|exact F]. cbn. lia.
Qed.
Lemma incr_nil : forall lo n, incr lo n []. Proof. intros. split; constructor. Qed.
Lemma incr_room : forall lo n l, incr lo n l -> l <> [] -> lo + List.length l <= n.
Proof.
  intros lo n l. revert lo. induction l as [|x l IH]; intros lo H NE; [destruct (NE eq_refl)|]. apply incr_cons in H. destruct H as [B H]. cbn [List.length].
  destruct l as [|y l]; [cbn; lia|]. specialize (IH (S x) H ltac:(discriminate)). cbn [List.length] in *. lia.
Qed.
Lemma incr_room' : forall lo n l, incr lo n l -> lo <= n -> lo + List.length l <= n.
Proof. intros lo n l H L. destruct l as [|x l]; [cbn; lia|]. apply incr_room; [exact H|discriminate]. Qed.
Lemma incr_seq : forall m lo n a, lo <= a -> a + m <= n -> incr lo n (seq a m).
Proof.
  induction m as [|m IH]; intros lo n a L H; [apply incr_nil|]. cbn [seq]. apply incr_cons. split; [lia|]. apply IH; lia.
Qed.
Lemma combo_incr : forall n r t, combo n r t <-> List.length t = r /\ incr 0 n t.
Proof.
  intros n r t. unfold combo, incr. split; intros (L & SS & F); (split; [exact L|split; [exact SS|]]); (eapply Forall_impl; [|exact F]); cbn; lia.
Qed.
(** consecutive numbers come first *)
Lemma seq_first : forall t lo n, incr lo n t -> seq lo (List.length t) = t \/ lex (seq lo (List.length t)) t.
Proof.
  induction t as [|x t IH]; intros lo n H; [left; reflexivity|]. apply incr_cons in H. destruct H as [B H]. cbn [List.length seq]. destruct (Nat.eq_dec lo x) as [->|NE].
  - destruct (IH _ _ H) as [E|E]; [left; rewrite E; reflexivity|right; apply lex_later; exact E].
  - right. apply lex_here. lia.
Qed.
(** full lists come last *)
Lemma full_last : forall t m lo n, full n t -> incr lo n m -> List.length m = List.length t -> ~ lex t m.
Proof.
  induction t as [|x t IH]; intros m lo n F H L X; [inversion X|]. destruct m as [|y m]; [discriminate L|]. injection L as L. destruct F as [E F]. apply incr_cons in H. destruct H as [B H].
  inversion X; subst.
  - destruct m as [|z m]; [cbn in *; destruct t; [cbn in *; lia|discriminate L]|]. pose proof (incr_room _ _ _ H ltac:(discriminate)). rewrite L in *. lia.
  - eapply IH; eassumption.
Qed.
Lemma succ_some : forall t lo n t', incr lo n t -> succ_ n t = Some t' ->
  incr lo n t' /\ List.length t' = List.length t /\ lex t t' /\ forall m, incr lo n m -> List.length m = List.length t -> lex t m -> t' = m \/ lex t' m.
Proof.
  induction t as [|x t IH]; intros lo n t' H S; [discriminate S|]. pose proof H as H0. apply incr_cons in H. destruct H as [B H]. cbn [succ_] in S. destruct (succ_ n t) as [u|] eqn:U.
  - injection S as <-. destruct (IH _ _ _ H U) as (A1 & A2 & A3 & A4). split; [apply incr_cons; split; assumption|]. split; [cbn; lia|]. split; [apply lex_later; exact A3|].
    intros m M L X. destruct m as [|y m]; [discriminate L|]. injection L as L. apply incr_cons in M. destruct M as [MB M]. inversion X; subst; [right; apply lex_here; assumption|].
    destruct (A4 m M L ltac:(assumption)) as [->|Y]; [left; reflexivity|right; apply lex_later; exact Y].
  - destruct (x + List.length t + 1 =? n) eqn:E; [discriminate S|]. injection S as <-. apply Nat.eqb_neq in E. apply succ_none in U.
    pose proof (incr_room _ _ _ H0 ltac:(discriminate)) as R0. cbn [List.length] in R0.
    assert (RM : x + 1 + List.length t < n). { pose proof (incr_room' _ _ _ H ltac:(lia)). lia. }
    split; [apply (incr_seq (S (List.length t))); lia|]. split; [cbn; rewrite seq_length; reflexivity|]. split; [cbn [seq]; apply lex_here; lia|].
    intros m M L X. destruct m as [|y m]; [discriminate L|]. injection L as L. apply incr_cons in M. destruct M as [MB M]. inversion X; subst.
    + cbn [seq]. destruct (Nat.eq_dec y (x + 1)) as [->|NE]; [|right; apply lex_here; lia]. rewrite <- L. destruct (seq_first m (S (x + 1)) n M) as [Q|Q]; [left; rewrite Q; reflexivity|right; apply lex_later; exact Q].
    + exfalso. eapply (full_last t m); eassumption.
Qed.

(** ** Termination *)
Fixpoint rank (n : nat) (l : list nat) : nat := match l with [] => 0 | x :: t => x * n ^ List.length t + rank n t end.
Lemma rank_bound : forall n l, Forall (fun x => x < n) l -> rank n l < n ^ List.length l.
Proof.
  intros n l F. induction F as [|x l X _ IH]; cbn [rank List.length Nat.pow]; [lia|]. nia.
Qed.
Lemma rank_lex : forall n l m, lex l m -> List.length l = List.length m -> Forall (fun x => x < n) l -> Forall (fun x => x < n) m -> rank n l < rank n m.
Proof.
  intros n l m H. induction H as [x y l m L|x l m H IH]; intros LN F G; inversion F as [|? ? F1 F2]; subst; inversion G as [|? ? G1 G2]; subst; injection LN as LN; cbn [rank]; rewrite <- LN.
  - pose proof (rank_bound n l F2). nia.
  - specialize (IH LN F2 G2). lia.
Qed.
Lemma incr_bound : forall lo n l, incr lo n l -> Forall (fun x => x < n) l.
Proof. intros lo n l [_ F]. eapply Forall_impl; [|exact F]. cbn. lia. Qed.

Lemma loop_spec : forall n r fuel idx, r <= n -> List.length idx = r -> incr 0 n idx -> n ^ r - rank n idx <= fuel ->
  exists l, loop n r fuel idx = Some l /\ (forall t, In t l <-> combo n r t /\ lex idx t) /\ StronglySorted lex l.
Proof.
  intros n r fuel. induction fuel as [|k IH]; intros idx RN L I FU.
  - exfalso. pose proof (rank_bound n idx (incr_bound _ _ _ I)). rewrite L in *. lia.
  - cbn [loop]. rewrite (next_succ n r RN idx L). destruct (succ_ n idx) as [t'|] eqn:SU.
    + destruct (succ_some idx 0 n t' I SU) as (A1 & A2 & A3 & A4).
      pose proof (rank_lex n idx t' A3 ltac:(lia) (incr_bound _ _ _ I) (incr_bound _ _ _ A1)) as RK.
      destruct (IH t' RN ltac:(lia) A1 ltac:(lia)) as (l & E & M & SS). rewrite E. cbn [option_map]. exists (t' :: l). split; [reflexivity|]. split.
      * intros t. cbn [In]. rewrite M. split.
        -- intros [<-|[C X]]; [split; [apply combo_incr; split; [lia|exact A1]|exact A3]|]. split; [exact C|]. exact (lex_trans _ _ _ A3 X).
        -- intros [C X]. pose proof C as C'. apply combo_incr in C'. destruct C' as [CL CI]. destruct (A4 t CI ltac:(lia) X) as [E'|Y]; [left; exact E'|right; split; assumption].
      * constructor; [exact SS|]. apply Forall_forall. intros t IT. apply M in IT. tauto.
    + exists []. split; [reflexivity|]. split; [|constructor]. intros t. split; [intros []|]. intros [C X]. exfalso. apply combo_incr in C. destruct C as [CL CI].
      apply succ_none in SU. apply (full_last idx t 0 n SU CI); [lia|exact X].
Qed.
Theorem combinations_spec : forall n r fuel, n ^ r <= fuel -> exists l, compute_combinations n r fuel = Some l /\ all_combos n r l.
Proof.
  intros n r fuel FU. unfold compute_combinations, all_combos. destruct (n <? r) eqn:NR.
  - apply Nat.ltb_lt in NR. exists []. split; [reflexivity|]. split; [|constructor]. intros t. split; [intros []|]. intros C. apply combo_incr in C. destruct C as [L I].
    pose proof (incr_room' 0 n t I ltac:(lia)). lia.
  - apply Nat.ltb_ge in NR. assert (I0 : incr 0 n (seq 0 r)) by (apply incr_seq; lia).
    destruct (loop_spec n r fuel (seq 0 r) NR ltac:(apply seq_length) I0 ltac:(lia)) as (l & E & M & SS). rewrite E. exists (seq 0 r :: l). split; [reflexivity|]. split.
    + intros t. cbn [In]. rewrite M. split.
      * intros [<-|[C _]]; [apply combo_incr; split; [apply seq_length|exact I0]|exact C].
      * intros C. pose proof C as C'. apply combo_incr in C'. destruct C' as [L I]. pose proof (seq_first t 0 n I) as Q. rewrite L in Q. destruct Q as [Q|Q]; [left; exact Q|right; split; assumption].
    + constructor; [exact SS|]. apply Forall_forall. intros t IT. apply M in IT. tauto.
Qed.
(** fuel only delays: a finished run is the same with any fuel *)
Lemma loop_mono : forall n r k idx l, loop n r k idx = Some l -> forall k', k <= k' -> loop n r k' idx = Some l.
Proof.
  intros n r k. induction k as [|k IH]; intros idx l H k' L; [discriminate H|]. destruct k' as [|k']; [lia|]. cbn [loop] in *. destruct (next n r idx) as [t|]; [|exact H].
  destruct (loop n r k t) as [m|] eqn:M; [|discriminate H]. rewrite (IH t m M k' ltac:(lia)). exact H.
Qed.
Theorem combinations_any : forall n r fuel l, compute_combinations n r fuel = Some l -> all_combos n r l.
Proof.
  intros n r fuel l H. destruct (combinations_spec n r (fuel + n ^ r) ltac:(lia)) as (l' & E & A). assert (l' = l); [|subst; exact A].
  unfold compute_combinations in *. destruct (n <? r); [congruence|]. destruct (loop n r fuel (seq 0 r)) as [m|] eqn:M; [|discriminate H]. cbn [option_map] in H.
  rewrite (loop_mono _ _ _ _ _ M (fuel + n ^ r) ltac:(lia)) in E. cbn [option_map] in E. congruence.
Qed.
Lemma lex_sorted_unique : forall l m : list (list nat), StronglySorted lex l -> StronglySorted lex m -> (forall t, In t l <-> In t m) -> l = m.
Proof.
  induction l as [|x l IH]; intros [|y m] SL SM E.
  - reflexivity.
  - destruct (proj2 (E y) (or_introl eq_refl)).
  - destruct (proj1 (E x) (or_introl eq_refl)).
  - inversion SL as [|? ? SL' FL]; subst. inversion SM as [|? ? SM' FM]; subst. rewrite Forall_forall in FL, FM.
    assert (x = y).
    { destruct (proj1 (E x) (or_introl eq_refl)) as [->|IX]; [reflexivity|]. destruct (proj2 (E y) (or_introl eq_refl)) as [->|IY]; [reflexivity|].
      destruct (lex_irrefl x). exact (lex_trans _ _ _ (FL y IY) (FM x IX)). }
    subst y. f_equal. apply IH; [assumption|assumption|]. intros t. split; intros I.
    + destruct (proj1 (E t) (or_intror I)) as [<-|J]; [destruct (lex_irrefl x (FL x I))|exact J].
    + destruct (proj2 (E t) (or_intror I)) as [<-|J]; [destruct (lex_irrefl x (FM x I))|exact J].
Qed.
Theorem all_combos_unique : forall n r l m, all_combos n r l -> all_combos n r m -> l = m.
Proof. intros n r l m [A S1] [B S2]. apply lex_sorted_unique; try assumption. intros t. rewrite A, B. reflexivity. Qed.
Theorem combinations_iff : forall n r fuel l, n ^ r <= fuel -> (compute_combinations n r fuel = Some l <-> all_combos n r l).
Proof.
  intros n r fuel l FU. split; [apply combinations_any|]. intros A. destruct (combinations_spec n r fuel FU) as (l' & E & A'). rewrite E, (all_combos_unique _ _ _ _ A' A). reflexivity.
Qed.
