From Coq Require Import Reals Lra Lia ZArith.
From Coquelicot Require Import Coquelicot.
From Verif Require Import Base DarkModel PcModel PcSpec.
Local Open Scope R_scope.

Definition Dn (lam : R) : R := 6 + lam * (6 + lam * (3 + lam)).
Lemma weight_Dn : forall lam, weight lam = Dn lam / 6.
Proof. intros lam. unfold weight, pois, Dn. cbn [pow fact Nat.mul Nat.add INR]. field. Qed.
Lemma weight_nz : forall lam, weight lam <> 0 <-> Dn lam <> 0.
Proof. intros lam. rewrite weight_Dn. split; intros H G; apply H; lra. Qed.
Lemma Dn_pos : forall lam, 0 <= lam -> 0 < Dn lam.
Proof. intros lam H. unfold Dn. nra. Qed.
Definition Nn (x lam : R) : R := 12 * lam + (6 + 6 * x) * lam ^ 2 + (2 + 2 * x + x ^ 2) * lam ^ 3.
Lemma detect_rat : forall x lam, Dn lam <> 0 -> detect x lam = exp (- x) * (Nn x lam / (2 * Dn lam)).
Proof.
  intros x lam H. unfold detect. rewrite weight_Dn. unfold pois, tail, Nn. cbn [pow fact Nat.mul Nat.add INR pred sum_f_R0]. field. exact H.
Qed.
Lemma eps_detect : forall t g lam, g <> 0 -> Dn lam <> 0 -> epsilon_prime t g lam = detect (t / g) lam.
Proof.
  intros t g lam G H. rewrite detect_rat by exact H. unfold epsilon_prime, Nn. fold (Dn lam). rewrite exp_Ropp. assert (E := exp_pos (t / g)). field. repeat split; try assumption; lra.
Qed.
Lemma thresh_detect : forall t g lam, g <> 0 -> Dn lam <> 0 -> e_thresh g lam t = detect (t / g) lam.
Proof.
  intros t g lam G H. rewrite detect_rat by exact H. unfold e_thresh, Nn. fold (Dn lam). replace (- t / g) with (- (t / g)) by (field; exact G). field. repeat split; try assumption; lra.
Qed.
Lemma func_excess : forall k n t g lam, g <> 0 -> Dn lam <> 0 -> calc_func k n t g lam = excess n k (t / g) lam.
Proof. intros k n t g lam G H. unfold calc_func, excess. rewrite eps_detect by assumption. reflexivity. Qed.

Lemma dfunc_derive : forall k n t g lam, g <> 0 -> Dn lam <> 0 -> is_derive (calc_func k n t g) lam (calc_dfunc n t g lam).
Proof.
  intros k n t g lam G H. unfold calc_func, epsilon_prime, calc_dfunc. assert (E := exp_pos (t / g)). unfold Dn in H. assert (P : 2 * exp (t / g) * g ^ 2 * (6 + lam * (6 + lam * (3 + lam))) <> 0).
  { apply Rmult_integral_contrapositive_currified; [|exact H]. apply Rmult_integral_contrapositive_currified; [lra|]. apply pow_nonzero; exact G. }
  auto_derive; [exact P|]. field. repeat split; try assumption; lra.
Qed.
Lemma dn_locally : forall lam, Dn lam <> 0 -> locally lam (fun y => Dn y <> 0).
Proof.
  intros lam H. assert (C : continuous Dn lam). { apply (ex_derive_continuous Dn). unfold Dn. auto_derive. trivial. }
  apply (C (fun y : R => y <> 0)). exists (mkposreal (Rabs (Dn lam)) (Rabs_pos_lt _ H)). intros y B E. cbn in B. unfold ball in B. cbn in B. unfold AbsRing_ball, abs, minus, plus, opp in B. cbn in B. subst y.
  rewrite Rplus_0_l, Rabs_Ropp in B. lra.
Qed.
Lemma excess_derive : forall k n t g lam, g <> 0 -> Dn lam <> 0 -> derivable_pt_lim (excess n k (t / g)) lam (calc_dfunc n t g lam).
Proof.
  intros k n t g lam G H. apply is_derive_Reals. apply (is_derive_ext_loc (calc_func k n t g)); [|apply dfunc_derive; assumption].
  apply (filter_imp (fun y => Dn y <> 0)); [|apply dn_locally; exact H]. intros y Hy. apply func_excess; assumption.
Qed.

(** positivity and monotony *)
Definition Wn (x lam : R) : R := 144 + 24 * (6 + 6 * x) * lam + (-72 + 12 * (6 + 6 * x) + 36 * (2 + 2 * x + x ^ 2)) * lam ^ 2 + (-48 + 24 * (2 + 2 * x + x ^ 2)) * lam ^ 3 + 6 * x ^ 2 * lam ^ 4.
Lemma Wn_pos : forall x lam, 0 <= x -> 0 <= lam -> 0 < Wn x lam.
Proof.
  intros x lam X L. unfold Wn. assert (A := pow_le lam 2 L). assert (B := pow_le lam 3 L). assert (C := pow_le lam 4 L). assert (D := pow_le x 2 X).
  assert (0 <= (6 + 6 * x) * lam) by (apply Rmult_le_pos; lra). assert (0 <= (-72 + 12 * (6 + 6 * x) + 36 * (2 + 2 * x + x ^ 2)) * lam ^ 2) by (apply Rmult_le_pos; lra).
  assert (0 <= (-48 + 24 * (2 + 2 * x + x ^ 2)) * lam ^ 3) by (apply Rmult_le_pos; lra). assert (0 <= 6 * x ^ 2 * lam ^ 4) by (apply Rmult_le_pos; lra). lra.
Qed.
Lemma dfunc_W : forall n t g lam, g <> 0 -> Dn lam <> 0 -> calc_dfunc n t g lam = n * exp (- (t / g)) * (Wn (t / g) lam / (2 * Dn lam) ^ 2).
Proof.
  intros n t g lam G H. unfold calc_dfunc, Wn. fold (Dn lam). rewrite exp_Ropp. assert (E := exp_pos (t / g)). assert (X : forall a b c, a - b + c = a + c - b) by (intros; ring).
  rewrite X. clear X. field_simplify_eq; [|repeat split; try assumption; lra]. unfold Dn. ring.
Qed.
Lemma dfunc_pos : forall n t g lam, 0 < n -> 0 <= t -> 0 < g -> 0 <= lam -> 0 < calc_dfunc n t g lam.
Proof.
  intros n t g lam N T G L. assert (D := Dn_pos lam L). rewrite dfunc_W by lra. assert (X : 0 <= t / g) by (apply Rmult_le_pos; [exact T|left; apply Rinv_0_lt_compat; exact G]).
  apply Rmult_lt_0_compat; [apply Rmult_lt_0_compat; [exact N|apply exp_pos]|]. apply Rmult_lt_0_compat; [apply Wn_pos; assumption|]. apply Rinv_0_lt_compat. apply pow_lt. lra.
Qed.
Lemma detect_zero : forall x, detect x 0 = 0.
Proof. intros x. rewrite detect_rat by (unfold Dn; lra). unfold Nn. cbn [pow]. field. unfold Dn. lra. Qed.
Lemma detect_mono : forall x a b, 0 <= x -> 0 <= a -> a < b -> detect x a < detect x b.
Proof.
  intros x a b X A L. assert (DA := Dn_pos a A). assert (DB := Dn_pos b ltac:(lra)). rewrite !detect_rat by lra. apply Rmult_lt_compat_l; [apply exp_pos|].
  apply (Rmult_lt_reg_r (2 * Dn a * (2 * Dn b))); [apply Rmult_lt_0_compat; lra|].
  replace (Nn x a / (2 * Dn a) * (2 * Dn a * (2 * Dn b))) with (Nn x a * (2 * Dn b)) by (field; lra). replace (Nn x b / (2 * Dn b) * (2 * Dn a * (2 * Dn b))) with (Nn x b * (2 * Dn a)) by (field; lra).
  assert (E : Nn x b * (2 * Dn a) - Nn x a * (2 * Dn b) = (b - a) * (144 + 12 * (6 + 6 * x) * (a + b) + ((-72 + 12 * (6 + 6 * x) + 12 * (2 + 2 * x + x ^ 2))) * (a * b) + 12 * (2 + 2 * x + x ^ 2) * (a ^ 2 + b ^ 2)
       + (12 * (2 + 2 * x + x ^ 2) - 24) * (a * b * (a + b)) + (6 * x ^ 2) * (a * b) ^ 2)) by (unfold Nn, Dn; ring).
  assert (0 < b - a) by lra. assert (P : 0 <= a * b) by (apply Rmult_le_pos; lra). assert (P2 : 0 <= a * b * (a + b)) by (apply Rmult_le_pos; lra). assert (P3 := pow2_ge_0 (a * b)). assert (P4 := pow2_ge_0 a). assert (P5 := pow2_ge_0 b). assert (P6 := pow2_ge_0 x).
  assert (0 <= (6 + 6 * x) * (a + b)) by (apply Rmult_le_pos; lra). assert (0 <= (-72 + 12 * (6 + 6 * x) + 12 * (2 + 2 * x + x ^ 2)) * (a * b)) by (apply Rmult_le_pos; lra). assert (0 <= (2 + 2 * x + x ^ 2) * (a ^ 2 + b ^ 2)) by (apply Rmult_le_pos; lra).
  assert (0 <= (12 * (2 + 2 * x + x ^ 2) - 24) * (a * b * (a + b))) by (apply Rmult_le_pos; lra). assert (0 <= (6 * x ^ 2) * (a * b) ^ 2) by (apply Rmult_le_pos; lra).
  assert (0 < Nn x b * (2 * Dn a) - Nn x a * (2 * Dn b)); [|lra]. rewrite E. apply Rmult_lt_0_compat; lra.
Qed.
Lemma detect_below : forall x lam, 0 <= x -> 0 <= lam -> 0 <= detect x lam < tail 3 x.
Proof.
  intros x lam X L. split.
  - destruct (Req_dec lam 0) as [->|N]; [rewrite detect_zero; lra|]. rewrite <- (detect_zero x) at 1. left. apply detect_mono; lra.
  - assert (D := Dn_pos lam L). rewrite detect_rat by lra. unfold tail. apply Rmult_lt_compat_l; [apply exp_pos|]. cbn [pow fact Nat.mul Nat.add INR pred sum_f_R0].
    apply (Rmult_lt_reg_r (2 * Dn lam)); [lra|]. replace (Nn x lam / (2 * Dn lam) * (2 * Dn lam)) with (Nn x lam) by (field; lra). unfold Nn, Dn.
    assert (A := pow_le lam 2 L). assert (B := pow2_ge_0 x). assert (C : 0 <= x * lam) by (apply Rmult_le_pos; lra). assert (E : 0 <= x ^ 2 * lam) by (apply Rmult_le_pos; lra). assert (F : 0 <= x ^ 2 * lam ^ 2) by (apply Rmult_le_pos; lra). cbn [pow] in *. nra.
Qed.
Lemma tail_le_1 : forall x, 0 <= x -> tail 3 x <= 1.
Proof.
  intros x X. unfold tail. cbn [pow fact Nat.mul Nat.add INR pred sum_f_R0]. rewrite exp_Ropp. assert (E := exp_pos x). apply (Rmult_le_reg_l (exp x)); [exact E|]. rewrite <- Rmult_assoc, Rinv_r, Rmult_1_l, Rmult_1_r by lra.
  assert (G : 0 <= exp x - 1 - x - x ^ 2 / 2); [|cbn [pow] in *; lra].
  assert (K : forall y, 0 <= y -> 0 <= exp y - 1 - y). { intros y Y. destruct (Req_dec y 0) as [->|N]; [rewrite exp_0; lra|]. assert (Z0 := exp_ineq1 y ltac:(lra)). lra. }
  destruct (Req_dec x 0) as [->|N]; [rewrite exp_0; lra|].
  destruct (MVT_gen (fun y => exp y - 1 - y - y ^ 2 / 2) 0 x (fun y => exp y - 1 - y)) as (c & C & M).
  - intros y _. auto_derive; [trivial|]. field.
  - intros y _. apply continuity_pt_filterlim. apply (ex_derive_continuous (fun y => exp y - 1 - y - y ^ 2 / 2)). auto_derive. trivial.
  - rewrite Rmin_left, Rmax_right in C by lra. rewrite exp_0 in M. assert (0 <= (exp c - 1 - c) * (x - 0)) by (apply Rmult_le_pos; [apply K; lra|lra]). lra.
Qed.
Lemma detect_continuous : forall x lam, 0 <= lam -> continuity_pt (detect x) lam.
Proof.
  intros x lam L. apply derivable_continuous_pt. assert (D := excess_derive 0 1 x 1 lam ltac:(lra) ltac:(assert (Q := Dn_pos lam L); lra)).
  exists (calc_dfunc 1 x 1 lam). unfold excess in D. replace (x / 1) with x in D by field. apply is_derive_Reals. apply is_derive_Reals in D.
  apply (is_derive_ext (fun l => 1 * detect x l - 0)); [|exact D]. intros l. cbv beta. change (1 * detect x l - 0 = detect x l). ring.
Qed.
(** p < tail 3 x has exactly one solution *)
Lemma detect_solution : forall x p, 0 <= x -> 0 <= p -> ((exists lam, 0 <= lam /\ detect x lam = p) <-> p < tail 3 x).
Proof.
  intros x p X P. split.
  - intros (lam & L & <-). apply detect_below; assumption.
  - intros H. assert (E := exp_pos (- x)). set (c := 2 + 2 * x + x ^ 2). assert (HT : tail 3 x = exp (- x) * (c / 2)) by (unfold tail, c; cbn [pow fact Nat.mul Nat.add INR pred sum_f_R0]; field).
    set (q := p / exp (- x)). assert (Hp : p = exp (- x) * q) by (unfold q; field; lra). assert (Q0 : 0 <= q) by (unfold q; apply Rmult_le_pos; [exact P|left; apply Rinv_0_lt_compat; exact E]).
    assert (Hq : q < c / 2) by (apply (Rmult_lt_reg_l (exp (- x))); [exact E|rewrite <- Hp, <- HT; exact H]).
    assert (C2 : 2 <= c) by (unfold c; assert (Z0 := pow2_ge_0 x); lra).
    (* a rate so large that the fraction is above p *)
    set (M := 16 * c / (c - 2 * q) + 1).
    assert (M1 : 1 <= M). { unfold M. assert (0 <= 16 * c / (c - 2 * q)) by (apply Rmult_le_pos; [lra|left; apply Rinv_0_lt_compat; lra]). lra. }
    assert (MB : 16 * c < (c - 2 * q) * M). { unfold M. rewrite Rmult_plus_distr_l. replace ((c - 2 * q) * (16 * c / (c - 2 * q))) with (16 * c) by (field; lra). lra. }
    assert (HM : p < detect x M).
    { assert (D := Dn_pos M ltac:(lra)). rewrite detect_rat by lra. rewrite Hp. apply Rmult_lt_compat_l; [exact E|]. apply (Rmult_lt_reg_r (2 * Dn M)); [lra|]. replace (Nn x M / (2 * Dn M) * (2 * Dn M)) with (Nn x M) by (field; lra).
      assert (NB : c * M ^ 3 <= Nn x M) by (unfold Nn; fold c; assert (A := pow_le M 2 ltac:(lra)); assert (0 <= (6 + 6 * x) * M ^ 2) by (apply Rmult_le_pos; lra); lra).
      assert (DB : q * (2 * Dn M) < c * M ^ 3); [|lra]. unfold Dn. 
      assert (M2 : 1 <= M ^ 2) by (cbn [pow]; nra). assert (M23 : M <= M ^ 2) by (cbn [pow]; nra).
      assert (Bnd : 2 * (6 + M * (6 + M * (3 + M))) <= 2 * M ^ 3 + 24 * M ^ 2 + 6 * M ^ 2) by (cbn [pow] in *; nra).
      assert (K : (c - 2 * q) * M * M ^ 2 > 16 * c * M ^ 2) by (apply Rmult_lt_compat_r; lra).
      assert (A1 : q * (2 * (6 + M * (6 + M * (3 + M)))) <= 2 * q * M ^ 3 + q * (30 * M ^ 2)) by (replace (2 * q * M ^ 3 + q * (30 * M ^ 2)) with (q * (2 * M ^ 3 + 24 * M ^ 2 + 6 * M ^ 2)) by ring; apply Rmult_le_compat_l; assumption).
      assert (A2 : q * (30 * M ^ 2) <= c / 2 * (30 * M ^ 2)) by (apply Rmult_le_compat_r; lra).
      assert (A3 : (c - 2 * q) * M * M ^ 2 = c * M ^ 3 - 2 * q * M ^ 3) by ring. assert (A4 : 0 <= c * M ^ 2) by (apply Rmult_le_pos; lra). lra. }
    destruct (Req_dec p 0) as [->|NP]; [exists 0; split; [lra|apply detect_zero]|].
    destruct (IVT_gen (fun l => detect x (Rabs l)) 0 M p) as (l & LB & LE).
    + intros y. apply (continuity_pt_comp Rabs (detect x)); [apply Rcontinuity_abs|apply detect_continuous; apply Rabs_pos].
    + rewrite Rabs_R0, detect_zero, (Rabs_right M) by lra. rewrite Rmin_left, Rmax_right by lra. lra.
    + exists (Rabs l). split; [apply Rabs_pos|exact LE].
Qed.
Lemma detect_unique : forall x a b, 0 <= x -> 0 <= a -> 0 <= b -> detect x a = detect x b -> a = b.
Proof.
  intros x a b X A B E. destruct (Rtotal_order a b) as [L|[L|L]]; [|exact L|].
  - assert (H := detect_mono x a b X A L). lra.
  - assert (H := detect_mono x b a X B L). lra.
Qed.

(** variance *)
Lemma dinv3_derive : forall x p, derivable_pt_lim (inv3 x) p (dinv3 x p).
Proof. intros x p. apply is_derive_Reals. unfold inv3, dinv3. auto_derive; [trivial|]. field. Qed.
Lemma exp_mul_neg : forall x, exp x * exp (- x) = 1.
Proof. intros x. rewrite <- exp_plus, Rplus_opp_r. apply exp_0. Qed.
Definition kc0 (x : R) : R := (-504) * x ^ 0 + (1224) * x ^ 1 + (-1584) * x ^ 2 + (720) * x ^ 3.
Definition kc1 (x : R) : R := (-936) * x ^ 0 + (1656) * x ^ 1 + (-1404) * x ^ 2 + (-216) * x ^ 3 + (648) * x ^ 4.
Definition kc2 (x : R) : R := (-924) * x ^ 0 + (1236) * x ^ 1 + (-690) * x ^ 2 + (-438) * x ^ 3 + (288) * x ^ 4 + (264) * x ^ 5.
Definition kc3 (x : R) : R := (-564) * x ^ 0 + (516) * x ^ 1 + (-138) * x ^ 2 + (-270) * x ^ 3 + (45) * x ^ 4 + (138) * x ^ 5 + (60) * x ^ 6.
Definition kc4 (x : R) : R := (-228) * x ^ 0 + (132) * x ^ 1 + (-6) * x ^ 2 + (-66) * x ^ 3 + (-15) * x ^ 4 + (33) * x ^ 5 + (51 / 2) * x ^ 6 + (15 / 2) * x ^ 7.
Definition kc5 (x : R) : R := (-172 / 3) * x ^ 0 + (44 / 3) * x ^ 1 + (10 / 3) * x ^ 2 + (-22 / 3) * x ^ 3 + (-10 / 3) * x ^ 4 + (7 / 3) * x ^ 5 + (23 / 6) * x ^ 6 + (11 / 6) * x ^ 7 + (5 / 12) * x ^ 8.
Definition kc6 (x : R) : R := (-8) * x ^ 0.
Lemma inv3_rat : forall x lam, Dn lam <> 0 ->
  inv3 x (detect x lam) = Nn x lam / (2 * Dn lam) + (1 - x) / 2 * (Nn x lam / (2 * Dn lam)) ^ 2 + (4 - 8 * x + 5 * x ^ 2) / 12 * (Nn x lam / (2 * Dn lam)) ^ 3.
Proof.
  intros x lam H. rewrite detect_rat by exact H. unfold inv3. set (r := Nn x lam / (2 * Dn lam)).
  replace (2 * x) with (x + x) by ring. replace (3 * x) with (x + x + x) by ring. rewrite !exp_plus. assert (E := exp_mul_neg x).
  transitivity ((exp x * exp (- x)) * r + (exp x * exp (- x)) ^ 2 * ((1 - x) / 2 * r ^ 2) + (exp x * exp (- x)) ^ 3 * ((4 - 8 * x + 5 * x ^ 2) / 12 * r ^ 3)); [field|]. rewrite E. ring.
Qed.
Lemma inv3_rem : forall x lam, Dn lam <> 0 ->
  inv3 x (detect x lam) - lam = lam ^ 4 * (kc0 x + kc1 x * lam + kc2 x * lam ^ 2 + kc3 x * lam ^ 3 + kc4 x * lam ^ 4 + kc5 x * lam ^ 5 + kc6 x * lam ^ 6) / (2 * Dn lam) ^ 3.
Proof.
  intros x lam H. rewrite inv3_rat by exact H. unfold kc0, kc1, kc2, kc3, kc4, kc5, kc6, Nn. field_simplify_eq; [|exact H]. unfold Dn. ring.
Qed.
Lemma abs_le_sum : forall a b, Rabs (a + b) <= Rabs a + Rabs b.
Proof. apply Rabs_triang. Qed.
Lemma abs_mul_le : forall a l n, 0 <= l <= 1 -> Rabs (a * l ^ n) <= Rabs a.
Proof.
  intros a l n H. rewrite Rabs_mult. assert (0 <= l ^ n <= 1). { split; [apply pow_le; lra|]. rewrite <- (pow1 n). apply pow_incr. lra. } rewrite (Rabs_right (l ^ n)) by lra. assert (P := Rabs_pos a). nra.
Qed.
Lemma poly_bound : forall a0 a1 a2 a3 a4 a5 a6 l, 0 <= l <= 1 ->
  Rabs (a0 + a1 * l + a2 * l ^ 2 + a3 * l ^ 3 + a4 * l ^ 4 + a5 * l ^ 5 + a6 * l ^ 6) <= Rabs a0 + Rabs a1 + Rabs a2 + Rabs a3 + Rabs a4 + Rabs a5 + Rabs a6.
Proof.
  intros a0 a1 a2 a3 a4 a5 a6 l H. assert (B1 := abs_mul_le a1 l 1 H). rewrite pow_1 in B1.
  do 6 (eapply Rle_trans; [apply Rabs_triang|]; apply Rplus_le_compat; [|first [exact B1|apply abs_mul_le; exact H]]). apply Rle_refl.
Qed.
Lemma inv3_third_order : forall x, exists b, forall lam, 0 <= lam <= 1 -> Rabs (inv3 x (detect x lam) - lam) <= b * lam ^ 4.
Proof.
  intros x. set (b := Rabs (kc0 x) + Rabs (kc1 x) + Rabs (kc2 x) + Rabs (kc3 x) + Rabs (kc4 x) + Rabs (kc5 x) + Rabs (kc6 x)). exists b. intros lam L. assert (D := Dn_pos lam (proj1 L)).
  rewrite inv3_rem by lra. assert (D1 : 1 <= (2 * Dn lam) ^ 3) by (apply pow_R1_Rle; unfold Dn; assert (0 <= lam * (6 + lam * (3 + lam))) by (apply Rmult_le_pos; [lra|]; assert (0 <= lam * (3 + lam)) by (apply Rmult_le_pos; lra); lra); lra).
  unfold Rdiv. rewrite Rabs_mult, Rabs_mult, (Rabs_right (lam ^ 4)) by (apply Rle_ge, pow_le; lra). rewrite (Rabs_right (/ _)) by (left; apply Rinv_0_lt_compat; lra).
  set (s := kc0 x + kc1 x * lam + kc2 x * lam ^ 2 + kc3 x * lam ^ 3 + kc4 x * lam ^ 4 + kc5 x * lam ^ 5 + kc6 x * lam ^ 6). assert (HS : Rabs s <= b) by (unfold s, b; apply (poly_bound (kc0 x)); exact L).
  assert (I1 : / (2 * Dn lam) ^ 3 <= 1) by (rewrite <- Rinv_1; apply Rinv_le_contravar; lra). assert (I0 : 0 < / (2 * Dn lam) ^ 3) by (apply Rinv_0_lt_compat; lra).
  assert (L4 := pow_le lam 4 (proj1 L)). assert (S0 := Rabs_pos s).
  rewrite (Rmult_comm b). rewrite Rmult_assoc. apply Rmult_le_compat_l; [exact L4|]. apply Rle_trans with (Rabs s * 1); [apply Rmult_le_compat_l; assumption|lra].
Qed.
Lemma var_spec : forall g L T n, g <> 0 -> 0 < n -> Dn L <> 0 ->
  varL23 g L T n = if Rlt_dec (detect (T / g) L * (1 - detect (T / g) L)) 0 then None else Some (pc_var (T / g) n L).
Proof.
  intros g L T n G N H. unfold varL23. destruct (Req_EM_T _ 0) as [Z0|_]; [contradiction|]. rewrite thresh_detect by assumption. set (e := detect (T / g) L). unfold pc_var. fold e.
  destruct (Rlt_dec (n * e * (1 - e)) 0) as [C|C], (Rlt_dec (e * (1 - e)) 0) as [C2|C2].
  - reflexivity.
  - exfalso. apply C2. rewrite Rmult_assoc in C. destruct (Rlt_le_dec (e * (1 - e)) 0) as [K|K]; [exact K|]. assert (0 <= n * (e * (1 - e))) by (apply Rmult_le_pos; lra). lra.
  - exfalso. apply C. rewrite Rmult_assoc. assert (0 < n * (- (e * (1 - e)))) by (apply Rmult_lt_0_compat; lra). lra.
  - f_equal. rewrite pow2_sqrt by lra. unfold dinv3. replace (2 * T / g) with (2 * (T / g)) by (field; exact G). replace (3 * T / g) with (3 * (T / g)) by (field; exact G). field. split; lra.
Qed.
