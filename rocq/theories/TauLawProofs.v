From Coq Require Import List Arith Bool Reals ZArith Lra Lia.
From Verif Require Import Base TauModel TauSpec TauProofs.
Import ListNotations.
Local Open Scope R_scope.
Local Opaque kE kB planck electron.

Lemma tau_some : forall T E c t, tau_temp T E c = Some t <-> warm T /\ c <> 0 /\ t = tau_f T E c.
Proof.
  intros T E c t. destruct (warm_dec T c) as [(W & C)|N].
  - rewrite (tau_eq _ _ _ W C). split; [intros X; injection X as <-; auto|intros (_ & _ & ->); reflexivity].
  - rewrite (tau_none _ _ _ N). split; [discriminate|tauto].
Qed.
Lemma em_pos : forall T, warm T -> 0 < emission (m_dc T) T.
Proof. intros T (HT & G). apply emission_pos; [apply m_mass; assumption|assumption]. Qed.
Lemma ten_inv : 0 < / 10 ^ 19. Proof. apply Rinv_0_lt_compat, ten. Qed.
Lemma kT_pos : forall T, warm T -> 0 < kE * T. Proof. intros T (H & _). pose proof kE_pos. apply Rmult_lt_0_compat; assumption. Qed.

Theorem scale : forall T E c t a, a <> 0 -> tau_temp T E c = Some t -> tau_temp T E (a * c) = Some (t / a).
Proof.
  intros T E c t a A H. apply tau_some in H. destruct H as (W & C & ->). apply tau_some. split; [assumption|]. split; [apply Rmult_integral_contrapositive_currified; assumption|].
  unfold tau_f. pose proof (em_pos T W). pose proof (ten 19). field. repeat split; try assumption; lra.
Qed.
Theorem shift : forall T E c t d, tau_temp T E c = Some t -> tau_temp T (E + d) c = Some (t * exp (d / (kE * T))).
Proof.
  intros T E c t d H. apply tau_some in H. destruct H as (W & C & ->). apply tau_some. split; [assumption|]. split; [assumption|].
  unfold tau_f. replace ((E + d) / (kE * T)) with (E / (kE * T) + d / (kE * T)) by (unfold Rdiv; ring). rewrite exp_plus. unfold Rdiv. ring.
Qed.
Lemma den_pos : forall T c, warm T -> 0 < c -> 0 < c * / 10 ^ 19 * emission (m_dc T) T.
Proof. intros T c W C. pose proof (em_pos T W). pose proof ten_inv. apply Rmult_lt_0_compat; [apply Rmult_lt_0_compat|]; assumption. Qed.
Theorem positive : forall T E c t, 0 < c -> tau_temp T E c = Some t -> 0 < t.
Proof.
  intros T E c t C H. apply tau_some in H. destruct H as (W & _ & ->). unfold tau_f. apply Rdiv_lt_0_compat; [apply exp_pos|apply den_pos; assumption].
Qed.
Theorem more_energy : forall T E E' c t t', 0 < c -> tau_temp T E c = Some t -> tau_temp T E' c = Some t' -> (E < E' <-> t < t').
Proof.
  intros T E E' c t t' C H H'. pose proof H as Hs. apply tau_some in H. destruct H as (W & _ & ->). apply tau_some in H'. destruct H' as (_ & _ & ->).
  pose proof (kT_pos T W) as K. pose proof (den_pos T c W C) as D.
  assert (M : forall a b, a < b -> tau_f T a c < tau_f T b c).
  { intros a b L. unfold tau_f. apply Rmult_lt_compat_r; [apply Rinv_0_lt_compat; assumption|]. apply exp_increasing. apply Rmult_lt_compat_r; [apply Rinv_0_lt_compat; assumption|assumption]. }
  split; [apply M|]. intros L. destruct (Rtotal_order E E') as [X|[X|X]]; [assumption|subst; lra|]. apply M in X. lra.
Qed.
(** The gap shrinks with temperature. *)
Lemma gap_down : forall S T, 0 < S -> S < T -> gap T < gap S.
Proof.
  intros S T HS L. unfold gap. assert (X : S * S / (S + 655) < T * T / (T + 655)); [|lra].
  apply (Rmult_lt_reg_r ((S + 655) * (T + 655))); [apply Rmult_lt_0_compat; lra|].
  replace (S * S / (S + 655) * ((S + 655) * (T + 655))) with (S * S * (T + 655)) by (field; lra). replace (T * T / (T + 655) * ((S + 655) * (T + 655))) with (T * T * (S + 655)) by (field; lra).
  assert (0 < (T - S) * (S * T + 655 * (S + T))). { apply Rmult_lt_0_compat; [lra|]. pose proof (Rmult_lt_0_compat S T HS ltac:(lra)). lra. }
  replace ((T - S) * (S * T + 655 * (S + T))) with (T * T * (S + 655) - S * S * (T + 655)) in H by ring. lra.
Qed.
Lemma cube_lt : forall a b, 0 < a -> 0 < b -> a ^ 3 < b ^ 3 -> a < b.
Proof.
  intros a b Ha Hb L. destruct (Rlt_le_dec a b) as [|X]; [assumption|]. exfalso.
  assert (0 <= (a - b) * (a ^ 2 + a * b + b ^ 2)). { apply Rmult_le_pos; [lra|]. pose proof (pow_lt a 2 Ha). pose proof (pow_lt b 2 Hb). pose proof (Rmult_lt_0_compat a b Ha Hb). lra. }
  replace ((a - b) * (a ^ 2 + a * b + b ^ 2)) with (a ^ 3 - b ^ 3) in H by ring. lra.
Qed.
Lemma mass_up : forall S T, 0 < S -> S < T -> 0 < gap T -> m_dc S < m_dc T.
Proof.
  intros S T HS L G. pose proof (gap_down S T HS L) as GD. destruct (m_mass S ltac:(lra)) as (A & EA). destruct (m_mass T ltac:(lra)) as (B & EB). apply cube_lt; try assumption. rewrite EA, EB.
  pose proof electron_pos as P. apply Rmult_lt_compat_l; [lra|]. apply Rmult_lt_compat_r; [lra|].
  assert (X : 0 < 0.1905 * (1.1692 / gap S) * electron < 0.1905 * (1.1692 / gap T) * electron).
  { assert (Y : 0 < / gap S < / gap T) by (split; [apply Rinv_0_lt_compat; lra|apply Rinv_lt_contravar; [apply Rmult_lt_0_compat; lra|assumption]]).
    assert (Z : 0 < 1.1692 / gap S < 1.1692 / gap T) by (unfold Rdiv; destruct Y; split; [apply Rmult_lt_0_compat; lra|apply Rmult_lt_compat_l; lra]).
    split; [apply Rmult_lt_0_compat; [apply Rmult_lt_0_compat; lra|lra]|]. apply Rmult_lt_compat_r; [lra|]. apply Rmult_lt_compat_l; lra. }
  destruct X as (X0 & X1). remember (0.1905 * (1.1692 / gap S) * electron) as x eqn:Ex. remember (0.1905 * (1.1692 / gap T) * electron) as y eqn:Ey. clear Ex Ey. nra.
Qed.
Lemma em_scale : forall m n S T, 0 < m < n -> 0 < S < T -> emission m S < emission n T.
Proof.
  intros m n S T (M0 & M1) (S0 & S1). unfold emission. pose proof kB_pos. pose proof planck_pos. pose proof PI_RGT_0.
  apply Rmult_lt_compat_r; [apply Rinv_0_lt_compat, pow_lt; assumption|].
  assert (Q : 0 < 2 * sqrt (3 * (2 * PI) ^ 3) * kB ^ 2).
  { assert (0 < sqrt (3 * (2 * PI) ^ 3)) by (apply sqrt_lt_R0, Rmult_lt_0_compat; [lra|apply pow_lt; lra]). pose proof (pow_lt kB 2 H). apply Rmult_lt_0_compat; lra. }
  rewrite !Rmult_assoc in *. rewrite <- !(Rmult_assoc _ _ (_ * _)). assert (X : m * S ^ 2 < n * T ^ 2).
  { assert (S ^ 2 < T ^ 2) by nra. pose proof (pow_lt S 2 S0). apply Rmult_gt_0_lt_compat; lra. }
  rewrite !Rmult_assoc in *. replace (2 * (sqrt (3 * (2 * PI) ^ 3) * (kB ^ 2 * (m * S ^ 2)))) with (2 * (sqrt (3 * (2 * PI) ^ 3) * kB ^ 2) * (m * S ^ 2)) by ring.
  replace (2 * (sqrt (3 * (2 * PI) ^ 3) * (kB ^ 2 * (n * T ^ 2)))) with (2 * (sqrt (3 * (2 * PI) ^ 3) * kB ^ 2) * (n * T ^ 2)) by ring. apply Rmult_lt_compat_l; assumption.
Qed.
(** Colder traps release later. *)
Theorem colder : forall S T E c s t, 0 < S -> S < T -> 0 < gap T -> 0 <= E -> 0 < c -> tau_temp S E c = Some s -> tau_temp T E c = Some t -> t < s.
Proof.
  intros S T E c s t HS L G HE C H K. apply tau_some in H. destruct H as (WS & _ & ->). apply tau_some in K. destruct K as (WT & _ & ->). unfold tau_f.
  pose proof (kT_pos S WS). pose proof (kT_pos T WT). pose proof kE_pos. pose proof ten_inv.
  assert (X : E / (kE * T) <= E / (kE * S)). { apply Rmult_le_compat_l; [assumption|]. apply Rlt_le, Rinv_lt_contravar; [apply Rmult_lt_0_compat; assumption|]. apply Rmult_lt_compat_l; assumption. }
  assert (Y : exp (E / (kE * T)) <= exp (E / (kE * S))) by (destruct X as [X|X]; [left; apply exp_increasing; assumption|rewrite X; right; reflexivity]).
  pose proof (den_pos S c WS C) as DS. pose proof (den_pos T c WT C) as DT.
  assert (Z : c * / 10 ^ 19 * emission (m_dc S) S < c * / 10 ^ 19 * emission (m_dc T) T).
  { apply Rmult_lt_compat_l; [apply Rmult_lt_0_compat; assumption|]. apply em_scale; [|lra]. split; [apply m_mass; apply WS|apply mass_up; assumption]. }
  apply Rle_lt_trans with (exp (E / (kE * S)) / (c * / 10 ^ 19 * emission (m_dc T) T)).
  - apply Rmult_le_compat_r; [apply Rlt_le, Rinv_0_lt_compat; assumption|assumption].
  - apply Rmult_lt_compat_l; [apply exp_pos|]. apply Rinv_lt_contravar; [apply Rmult_lt_0_compat; assumption|assumption].
Qed.
(** Two temperatures determine the trap. *)
Theorem determined : forall S T E c E' c' s t, S <> T -> tau_temp S E c = Some s -> tau_temp S E' c' = Some s -> tau_temp T E c = Some t -> tau_temp T E' c' = Some t -> E = E' /\ c = c'.
Proof.
  intros S T E c E' c' s t N H1 H2 H3 H4. apply tau_some in H1. destruct H1 as (WS & C & E1). apply tau_some in H2. destruct H2 as (_ & C' & E2). apply tau_some in H3. destruct H3 as (WT & _ & E3). apply tau_some in H4. destruct H4 as (_ & _ & E4).
  assert (X : forall U, warm U -> tau_f U E c = tau_f U E' c' -> exp ((E - E') / (kE * U)) = c / c').
  { intros U W Q. unfold tau_f in Q. pose proof (em_pos U W). pose proof (ten 19). replace ((E - E') / (kE * U)) with (E / (kE * U) + - (E' / (kE * U))) by (unfold Rdiv; ring). rewrite exp_plus, exp_Ropp.
    pose proof (exp_pos (E' / (kE * U))). apply (Rmult_eq_reg_r (exp (E' / (kE * U)) / (c * / 10 ^ 19 * emission (m_dc U) U))).
    - transitivity (exp (E / (kE * U)) / (c * / 10 ^ 19 * emission (m_dc U) U)); [field; repeat split; try assumption; lra|]. rewrite Q. field. repeat split; try assumption; lra.
    - apply Rmult_integral_contrapositive_currified; [lra|]. apply Rinv_neq_0_compat. apply Rmult_integral_contrapositive_currified; [apply Rmult_integral_contrapositive_currified; [assumption|pose proof ten_inv; lra]|lra]. }
  pose proof (X S WS ltac:(congruence)) as XS. pose proof (X T WT ltac:(congruence)) as XT. clear X.
  assert (Y : (E - E') / (kE * S) = (E - E') / (kE * T)) by (apply exp_inv; congruence).
  assert (Z : E = E').
  { pose proof (kT_pos S WS). pose proof (kT_pos T WT). pose proof kE_pos. destruct WS as (HS & _). destruct WT as (HT & _).
    assert (Q : (E - E') * (T - S) = 0). { apply (f_equal (fun z => z * (kE * S * T))) in Y. replace ((E - E') / (kE * S) * (kE * S * T)) with ((E - E') * T) in Y by (field; lra). replace ((E - E') / (kE * T) * (kE * S * T)) with ((E - E') * S) in Y by (field; lra). lra. }
    apply Rmult_integral in Q. destruct Q as [Q|Q]; [lra|]. exfalso. apply N. lra. }
  split; [assumption|]. subst E'. replace ((E - E) / (kE * S)) with 0 in XS by (unfold Rdiv; ring). rewrite exp_0 in XS. apply (f_equal (fun z => z * c')) in XS. replace (c / c' * c') with c in XS by (field; assumption). lra.
Qed.
