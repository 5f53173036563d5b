(** The number of combinations, limits of the star matching, and an instance. *)
From Coq Require Import List Arith Bool Reals ZArith String Sorted Permutation Lia Lra.
From Verif Require Import Base DqModel AngleModel AngleSpec AngleProofs SortRunProofs SortGroupProofs ComboModel ComboSpec ComboGenProofs ComboProofs.
Import ListNotations.
Local Open Scope list_scope.

(** ** Counting *)
Fixpoint listed (n r : nat) : list (list nat) :=
  match n, r with _, O => [[]] | O, S _ => [] | S n', S r' => map (fun t => t ++ [n']) (listed n' r') ++ listed n' (S r') end.
Lemma listed_len : forall n r, List.length (listed n r) = binom n r.
Proof. induction n as [|n IH]; intros [|r]; try reflexivity. cbn [listed binom]. rewrite app_length, map_length, !IH. reflexivity. Qed.
Lemma combo_snoc : forall n r t m, combo n (S r) (t ++ [m]) <-> combo m r t /\ m < n.
Proof.
  intros n r t m. unfold combo. rewrite app_length. cbn [List.length]. rewrite Forall_app. split.
  - intros (L & SS & F & M). inversion M as [|? ? M1 _]; subst. split; [|exact M1]. split; [lia|].
    assert (G : forall t, StronglySorted lt (t ++ [m]) -> StronglySorted lt t /\ Forall (fun x => x < m) t).
    { clear. induction t as [|x t IH]; intros H; [split; constructor|]. cbn in H. inversion H as [|? ? H1 H2]; subst. destruct (IH H1) as [A B]. apply Forall_app in H2. destruct H2 as [H2 H3]. inversion H3; subst. split; constructor; assumption. }
    exact (G t SS).
  - intros ((L & SS & F) & M). split; [lia|]. split.
    + clear L. induction t as [|x t IH]; [constructor; constructor|]. cbn. inversion SS as [|? ? H1 H2]; subst. inversion F as [|? ? F1 F2]; subst. constructor; [exact (IH H1 F2)|]. apply Forall_app. split; [exact H2|constructor; [exact F1|constructor]].
    + split; [eapply Forall_impl; [|exact F]; cbv beta; lia|constructor; [exact M|constructor]].
Qed.
Lemma listed_in : forall n r t, In t (listed n r) <-> combo n r t.
Proof.
  induction n as [|n IH]; intros [|r] t.
  - cbn [listed]. split; [intros [<-|[]]; repeat split; constructor|]. intros (L & _). destruct t; [left; reflexivity|discriminate L].
  - cbn [listed]. split; [intros []|]. intros (L & _ & F). destruct t as [|x t]; [discriminate L|]. inversion F; lia.
  - cbn [listed]. split; [intros [<-|[]]; repeat split; constructor|]. intros (L & _). destruct t; [left; reflexivity|discriminate L].
  - cbn [listed]. rewrite in_app_iff, in_map_iff. split.
    + intros [(u & <- & I)|I]; [apply combo_snoc; split; [apply IH; exact I|lia]|]. apply IH in I. destruct I as (L & SS & F). split; [exact L|]. split; [exact SS|]. eapply Forall_impl; [|exact F]. cbv beta. lia.
    + intros H. destruct (@exists_last _ t) as (u & m & E); [destruct H as (L & _); intros ->; discriminate L|]. subst t. pose proof H as H0. apply combo_snoc in H. destruct H as [H M].
      destruct (Nat.eq_dec m n) as [->|NE]; [left; exists u; split; [reflexivity|apply IH; exact H]|right]. apply IH. apply combo_snoc. split; [exact H|lia].
Qed.
Lemma NoDup_app' : forall A (l m : list A), NoDup l -> NoDup m -> (forall x, In x l -> ~ In x m) -> NoDup (l ++ m).
Proof.
  intros A l m L M D. induction L as [|x l N L IH]; [exact M|]. cbn. constructor; [|apply IH; intros y I; apply D; right; exact I].
  rewrite in_app_iff. intros [I|I]; [exact (N I)|exact (D x (or_introl eq_refl) I)].
Qed.
Lemma listed_nodup : forall n r, NoDup (listed n r).
Proof.
  induction n as [|n IH]; intros [|r]; cbn [listed]; try (constructor; [intros []|constructor]); [constructor|].
  apply NoDup_app'; [|apply IH|].
  - assert (G : forall l : list (list nat), NoDup l -> NoDup (map (fun t => t ++ [n]) l)).
    { induction l as [|x l IHl]; intros ND; [constructor|]. inversion ND as [|? ? N1 N2]; subst. cbn. constructor; [|exact (IHl N2)]. rewrite in_map_iff. intros (y & E & I). apply app_inj_tail in E. destruct E as [-> _]. exact (N1 I). }
    apply G. apply IH.
  - intros x I J. apply in_map_iff in I. destruct I as (u & <- & _). apply listed_in in J. apply combo_snoc in J. lia.
Qed.
Lemma lex_nodup : forall l, StronglySorted lex l -> NoDup l.
Proof.
  induction l as [|x l IH]; intros H; [constructor|]. inversion H as [|? ? H1 H2]; subst. constructor; [|exact (IH H1)].
  intros I. rewrite Forall_forall in H2. exact (lex_irrefl _ (H2 x I)).
Qed.
Theorem combos_count : forall n r l, all_combos n r l -> List.length l = binom n r.
Proof.
  intros n r l (A & S1). rewrite <- listed_len. apply Permutation_length. apply NoDup_Permutation; [apply lex_nodup; exact S1|apply listed_nodup|].
  intros t. rewrite A, listed_in. reflexivity.
Qed.

(** ** Limits of the matching *)
Local Open Scope R_scope.
Section Match.
Variable star : Type.
Variables ra dec : star -> R.
Variable sep : star -> star -> R.
Variable pa : star -> R.
Variable predict : R -> R -> star -> R * R.
Variable bright : list star -> list star.

Theorem columns_unchecked : forall fuel cols s1 s2 s3 rest tra tdec tgt field threshold radius guess tol, In "VMAG"%string cols -> (~ In "RA"%string cols \/ ~ In "DEC"%string cols) ->
  match_sources star ra dec sep pa predict bright fuel cols (s1 :: s2 :: s3 :: rest) tra tdec tgt field threshold radius guess tol = Raise KeyError.
Proof.
  intros fuel cols s1 s2 s3 rest tra tdec tgt field threshold radius guess tol V N. unfold match_sources. apply has_iff in V. rewrite V. cbn [negb].
  destruct (existsb (String.eqb "RA") cols) eqn:HR; cbn [negb orb]; [|reflexivity].
  destruct (existsb (String.eqb "DEC") cols) eqn:HD; cbn [negb]; [|reflexivity]. apply has_iff in HR, HD. tauto.
Qed.

Lemma square_le1 : forall a, 0 <= a <= 1 -> (a - 0) ^ 2 <= 1.
Proof. intros a H. nra. Qed.
Theorem no_fit_first : forall guess tol l1 l2 l3 (stars : list star) s, 0 <= l1 -> 0 <= l2 -> 0 <= l3 -> 0 < l1 + l2 + l3 -> (3 <= List.length stars)%nat ->
  (forall t' s', combo (List.length stars) 3 t' -> side_of star sep stars t' s' -> ~ fits guess tol (l1, l2, l3) s') ->
  side_of star sep stars [0; 1; 2]%nat s -> best_triangle star sep guess tol (l1, l2, l3) stars [0; 1; 2]%nat s.
Proof.
  intros guess tol l1 l2 l3 stars s P1 P2 P3 PP N NF SO.
  assert (C0 : combo (List.length stars) 3 [0; 1; 2]%nat) by (split; [reflexivity|]; split; repeat (constructor; try lia)).
  split; [exact C0|]. split; [exact SO|]. exists (square_distance (shape (l1, l2, l3)) (0, 0, 0)). split; [|split].
  - split; [intros F; exfalso; exact (NF _ _ C0 SO F)|reflexivity].
  - unfold shape, square_distance.
    assert (G : forall l, 0 <= l <= l1 + l2 + l3 -> 0 <= l / (l1 + l2 + l3) <= 1).
    { intros l [A B]. split; [apply Rmult_le_pos; [exact A|left; apply Rinv_0_lt_compat; exact PP]|]. apply Rmult_le_reg_r with (l1 + l2 + l3); [exact PP|]. unfold Rdiv. rewrite Rmult_assoc, Rinv_l by lra. lra. }
    pose proof (square_le1 _ (G l1 ltac:(lra))). pose proof (square_le1 _ (G l2 ltac:(lra))). pose proof (square_le1 _ (G l3 ltac:(lra))). lra.
  - intros t' s' v' C' S' (_ & V'). rewrite (V' (NF _ _ C' S')). split; [lra|]. intros L. exfalso.
    destruct (combo3 _ _ C') as (j & k & l & -> & O & _).
    inversion L as [? ? ? ? L1|? ? ? L1]; subst; [lia|]. inversion L1 as [? ? ? ? L2|? ? ? L2]; subst; [lia|]. inversion L2 as [? ? ? ? L3|? ? ? L3]; subst; [lia|inversion L3].
Qed.
Theorem one_star_for_all : forall place (sub : list star) m, (forall m', In m' sub -> visible (place m') -> m' = m) -> forall src m', nearest_star star place sub src m' -> m' = m.
Proof. intros place sub m H src m' (i & I & V & _). exact (H m' (nth_error_In _ _ I) V). Qed.
Theorem far_raises : forall place (sub : list star) src, (forall m, In m sub -> visible (place m) -> 1000000 <= off2 src (place m)) ->
  nearest star (filter (in_image star) (map (fun s => (place s, s)) sub)) src = Raise IndexError.
Proof.
  intros place sub src H. destruct (nearest star _ src) as [m|e] eqn:E.
  - exfalso. apply (proj1 (nearest_iff star ra dec sep pa predict place sub src m)) in E. destruct E as (i & I & V & O & _). pose proof (H m (nth_error_In _ _ I) V). lra.
  - revert E. unfold nearest. destruct (scan _ _); [destruct (nth_error _ _)|]; congruence.
Qed.
End Match.

(** ** An instance *)
Definition ex_sep (a b : nat) : R := match (a + b)%nat with 1%nat => 30 | 2%nat => 40 | _ => 50 end.
Definition ex_place (s : nat) : R * R := match s with 0%nat => (10, 10) | 1%nat => (13, 10) | _ => (10, 14) end.
Lemma instance : match_sources nat INR INR ex_sep INR (fun _ _ => ex_place) (fun l => l) 27 ["RA"; "DEC"; "VMAG"]%string [(10, 10); (13, 10); (10, 14)] 1 1 (0, 0) [0; 1; 2; 7]%nat 3 1 10 (1 / 10)
  = Ok [((10, 10), (INR 0, INR 0)); ((13, 10), (INR 1, INR 1)); ((10, 14), (INR 2, INR 2))].
Proof.
  apply match_iff; [cbn; lia|].
  assert (G : forall q, (0, 0) <> q -> exists a, is_pa (0, 0) q a).
  { intros q NE. destruct (angle_numpy (0, 0) q) as ([a|] & E & X); [exists a; apply angle_iff; exact E|]. destruct NE. apply X. reflexivity. }
  destruct (G (10, 10) ltac:(intros E; injection E; lra)) as (a1 & A1). destruct (G (13, 10) ltac:(intros E; injection E; lra)) as (a2 & A2). destruct (G (10, 14) ltac:(intros E; injection E; lra)) as (a3 & A3).
  split; [cbn; tauto|]. split; [cbn; tauto|]. split; [cbn; tauto|].
  assert (D1 : dist (10, 10) (13, 10) = 3) by (unfold dist; cbn [fst snd]; replace ((13 - 10) ^ 2 + (10 - 10) ^ 2) with (3 * 3) by ring; apply sqrt_square; lra).
  assert (D2 : dist (13, 10) (10, 14) = 5) by (unfold dist; cbn [fst snd]; replace ((10 - 13) ^ 2 + (14 - 10) ^ 2) with (5 * 5) by ring; apply sqrt_square; lra).
  assert (D3 : dist (10, 14) (10, 10) = 4) by (unfold dist; cbn [fst snd]; replace ((10 - 10) ^ 2 + (10 - 14) ^ 2) with (4 * 4) by ring; apply sqrt_square; lra).
  exists (10, 10), (13, 10), (10, 14), [], [0; 1; 2]%nat, (3, 4, 5), [0; 1; 2]%nat, (30, 40, 50), 0%nat, 1%nat, 2%nat, a1, a2, a3.
  split; [reflexivity|]. split.
  { apply sieve_in; [cbn; lra|]. apply sieve_in; [cbn; lra|]. apply sieve_in; [cbn; lra|]. apply sieve_out; [cbn; lra|]. constructor. }
  split. { rewrite D1, D2, D3. split; [lra|]. apply perm_skip. apply perm_swap. }
  cbn [firstn]. assert (T : triangle nat [0; 1; 2]%nat [0; 1; 2]%nat 0%nat 1%nat 2%nat) by (exists 0%nat, 1%nat, 2%nat; auto).
  assert (SO : side_of nat ex_sep [0; 1; 2]%nat [0; 1; 2]%nat (30, 40, 50)).
  { exists 0%nat, 1%nat, 2%nat. split; [exact T|]. unfold ex_sep. cbn [Nat.add]. split; [lra|]. apply perm_skip. apply perm_swap. }
  split.
  { split; [split; [reflexivity|]; split; repeat (constructor; try (cbn; lia))|]. split; [exact SO|]. exists 0.
    assert (SC : forall v, scored 10 (1 / 10) (3, 4, 5) (30, 40, 50) v <-> v = 0).
    { assert (F : fits 10 (1 / 10) (3, 4, 5) (30, 40, 50)) by (intros l s [E|[E|[E|[]]]]; injection E as <- <-; lra).
      intros v. split; [intros (A & _); destruct (A F) as (_ & ->)|intros ->; split; [intros _; split; [lra|]|intros NF; destruct (NF F)]]; unfold square_distance, shape; field. }
    split; [apply SC; reflexivity|]. split; [lra|]. intros t' s' v' C' S' V'. destruct (combo3 _ _ C') as (j & k & l & -> & O & LT). cbn in LT. assert (j = 0 /\ k = 1 /\ l = 2)%nat as (-> & -> & ->) by lia.
    rewrite (side_fun nat ex_sep _ _ _ _ S' SO) in V'. apply SC in V'. subst v'. split; [lra|]. intros L. destruct (lex_irrefl _ L). }
  split; [exact T|]. split; [exact A1|]. split; [exact A2|]. split; [exact A3|]. cbv zeta beta.
  assert (NS : forall i m, nth_error [0; 1; 2]%nat i = Some m -> nearest_star nat ex_place [0; 1; 2]%nat (ex_place m) m).
  { intros i m I. exists i. split; [exact I|]. split; [destruct m as [|[|m]]; unfold visible; cbn; lra|]. split; [unfold off2; ring_simplify; lra|]. intros j m' J V.
    assert (Z0 : off2 (ex_place m) (ex_place m) = 0) by (unfold off2; ring). rewrite Z0. split; [unfold off2; apply Rplus_le_le_0_compat; apply pow2_ge_0|]. intros L.
    assert (m = i /\ m' = j /\ (i < 3)%nat) as (-> & -> & LI).
    { destruct i as [|[|[|i]]]; cbn in I; try (injection I as <-); try (destruct i; discriminate I); destruct j as [|[|[|j]]]; cbn in J; try (injection J as <-); try lia; auto. }
    destruct i as [|[|[|i]]]; try lia; destruct j as [|[|[|j]]]; try lia; unfold off2; cbn; lra. }
  constructor; [split; [reflexivity|]; exists 0%nat; split; [exact (NS 0%nat 0%nat eq_refl)|reflexivity]|].
  constructor; [split; [reflexivity|]; exists 1%nat; split; [exact (NS 1%nat 1%nat eq_refl)|reflexivity]|].
  constructor; [split; [reflexivity|]; exists 2%nat; split; [exact (NS 2%nat 2%nat eq_refl)|reflexivity]|constructor].
Qed.
