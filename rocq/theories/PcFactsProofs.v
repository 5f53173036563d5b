From Coq Require Import List Arith Bool QArith ZArith String Reals Qreals Lqa Lra Lia.
From Coquelicot Require Import Coquelicot.
From Verif Require Import Base DqModel DarkModel PcModel PcSpec PcMathProofs PcProofs PcBinProofs PcRunProofs PcTopProofs.
Import ListNotations.
Local Open Scope R_scope.

Lemma tally_none : forall above j l k n, tally above j l k n -> (n = 0%Z <-> forall f, In f l -> exists q, nth_error (pf_dq f) j = Some q /\ q <> 0%Z).
Proof.
  intros above j l k n H. induction H as [|f l k n q E1 E2 H IH|f l k n E1 E2 H IH|f l k n E1 E2 H IH].
  - split; [intros _ f []|reflexivity].
  - rewrite IH. split; [intros A f' [<-|I]; [exists q; auto|auto]|intros A f' I; apply A; right; exact I].
  - assert (B := tally_bounds _ _ _ _ _ H). split; [lia|]. intros A. destruct (A f (or_introl eq_refl)) as (q & X & Y). congruence.
  - assert (B := tally_bounds _ _ _ _ _ H). split; [lia|]. intros A. destruct (A f (or_introl eq_refl)) as (q & X & Y). congruence.
Qed.
Lemma newton_fixed : forall k n x lam d v m, 0 < n -> 0 <= x -> 0 <= lam -> fits (excess n k x) (Datatypes.S m) lam d v ->
  (excess n k x lam = 0 -> d = lam /\ v = lam) /\ (m = 0%nat -> d = lam -> excess n k x lam = 0).
Proof.
  intros k n x lam d v m N X L F. assert (DD := Dn_pos lam L). assert (W : weight lam <> 0) by (apply weight_nz; lra).
  assert (DV : derivable_pt_lim (excess n k x) lam (calc_dfunc n x 1 lam)) by (replace x with (x / 1) at 1 by field; apply excess_derive; lra).
  assert (DP : 0 < calc_dfunc n x 1 lam) by (apply dfunc_pos; lra). split.
  - intros E. assert (K : forall j, fits (excess n k x) j lam lam lam).
    { induction j as [|j IH]; [constructor|]. apply (f_step _ j lam (calc_dfunc n x 1 lam)); [exact W|exact DV|lra|]. rewrite E. replace (lam - 0 / calc_dfunc n x 1 lam) with lam by (field; lra). exact IH. }
    destruct (fits_unique _ _ _ _ _ _ _ F (K _)) as [-> ->]. auto.
  - intros -> E. assert (K : fits (excess n k x) 1 lam (lam - excess n k x lam / calc_dfunc n x 1 lam) (lam - excess n k x lam / calc_dfunc n x 1 lam)).
    { apply (f_step _ 0 lam (calc_dfunc n x 1 lam)); [exact W|exact DV|lra|constructor]. }
    destruct (fits_unique _ _ _ _ _ _ _ F K) as [Hd _]. set (l := calc_dfunc n x 1 lam) in *. set (e := excess n k x lam) in *. assert (Z0 : e / l = 0) by lra.
    replace e with (e / l * l) by (field; lra). rewrite Z0. ring.
Qed.
Lemma uncertainty_defined : forall x n m up low e, 0 <= x -> 0 <= m -> n <> 0%Z -> uncertainty x n m up low e ->
  e = Some (Rmax (up + pc_var x (IZR n) m - m) (m - (low - pc_var x (IZR n) m))).
Proof.
  intros x n m up low e X M N [[A|[A|A]]|A1 A2 A3]; [contradiction| | |reflexivity]; exfalso.
  - assert (D := Dn_pos m M). rewrite weight_Dn in A. lra.
  - destruct (detect_below x m X M) as [B1 B2]. assert (B3 := tail_le_1 x X). assert (0 <= detect x m * (1 - detect x m)) by (apply Rmult_le_pos; lra). lra.
Qed.
Lemma pc_var_nonneg : forall x n m, 0 <= x -> 0 <= m -> 0 < n -> 0 <= pc_var x n m.
Proof.
  intros x n m X M N. unfold pc_var. destruct (detect_below x m X M) as [B1 B2]. assert (B3 := tail_le_1 x X). apply Rmult_le_pos; [|apply pow2_ge_0]. apply Rmult_le_pos; [apply Rmult_le_pos; lra|left; apply Rinv_0_lt_compat; exact N].
Qed.

(** exponential bounds *)
Lemma exp_neg_quad : forall y, 0 <= y -> exp (- y) <= 1 - y + y ^ 2 / 2.
Proof.
  intros y Y. destruct (Req_dec y 0) as [->|N]; [rewrite Ropp_0, exp_0; lra|].
  destruct (MVT_gen (fun z => exp (- z) - (1 - z + z ^ 2 / 2)) 0 y (fun z => - exp (- z) + 1 - z)) as (c & C & M).
  - intros z _. auto_derive; [trivial|]. field.
  - intros z _. apply continuity_pt_filterlim. apply (ex_derive_continuous (fun z => exp (- z) - (1 - z + z ^ 2 / 2))). auto_derive. trivial.
  - rewrite Rmin_left, Rmax_right in C by lra. rewrite Ropp_0, exp_0 in M. assert (E : 1 + - c <= exp (- c)). { destruct (Req_dec c 0) as [->|NC]; [rewrite Ropp_0, exp_0; lra|]. left. apply exp_ineq1. lra. }
    assert (0 <= (exp (- c) - 1 + c) * (y - 0)) by (apply Rmult_le_pos; lra). lra.
Qed.
Lemma exp_neg_cube : forall y, 0 <= y -> 1 - y + y ^ 2 / 2 - y ^ 3 / 6 <= exp (- y).
Proof.
  intros y Y. destruct (Req_dec y 0) as [->|N]; [rewrite Ropp_0, exp_0; lra|].
  destruct (MVT_gen (fun z => exp (- z) - (1 - z + z ^ 2 / 2 - z ^ 3 / 6)) 0 y (fun z => - exp (- z) + 1 - z + z ^ 2 / 2)) as (c & C & M).
  - intros z _. auto_derive; [trivial|]. field.
  - intros z _. apply continuity_pt_filterlim. apply (ex_derive_continuous (fun z => exp (- z) - (1 - z + z ^ 2 / 2 - z ^ 3 / 6))). auto_derive. trivial.
  - rewrite Rmin_left, Rmax_right in C by lra. rewrite Ropp_0, exp_0 in M. assert (E := exp_neg_quad c ltac:(lra)). assert (0 <= (1 - c + c ^ 2 / 2 - exp (- c)) * (y - 0)) by (apply Rmult_le_pos; lra). lra.
Qed.
Lemma exp_pow : forall a n, exp (INR n * a) = exp a ^ n.
Proof. intros a n. induction n as [|n IH]; [cbn; rewrite Rmult_0_l; apply exp_0|]. rewrite S_INR, Rmult_plus_distr_r, Rmult_1_l, exp_plus, IH. cbn. ring. Qed.
Lemma exp_q_low : 77864 / 100000 <= exp (- (1 / 4)).
Proof. assert (A := exp_neg_cube (1 / 4) ltac:(lra)). lra. Qed.
Lemma exp_up : forall y, 0 <= y -> exp (- y) <= / (1 + y + y ^ 2 / 2).
Proof.
  intros y Y. assert (B := tail_le_1 y Y). unfold tail in B. cbn [pow fact Nat.mul Nat.add INR pred sum_f_R0] in B. assert (P : 0 < 1 + y + y ^ 2 / 2) by (assert (Q0 := pow2_ge_0 y); lra).
  apply (Rmult_le_reg_r (1 + y + y ^ 2 / 2)); [exact P|]. rewrite Rinv_l by lra. cbn [pow] in *. lra.
Qed.
Lemma exp_m5_low : 67 / 10000 <= exp (- (5)).
Proof.
  replace (- (5)) with (INR 20 * - (1 / 4)) by (cbn; field). rewrite exp_pow. apply Rle_trans with ((77864 / 100000) ^ 20); [cbn [pow]; lra|]. apply pow_incr. assert (A := exp_q_low). lra.
Qed.
Lemma exp_m5_up : exp (- (5)) <= 682 / 100000.
Proof.
  replace (- (5)) with (INR 40 * - (1 / 8)) by (cbn; field). rewrite exp_pow. apply Rle_trans with ((88276 / 100000) ^ 40); [|cbn [pow]; lra]. apply pow_incr. split; [left; apply exp_pos|].
  eapply Rle_trans; [apply exp_up; lra|]. apply (Rmult_le_reg_r (1 + 1 / 8 + (1 / 8) ^ 2 / 2)); [lra|]. rewrite Rinv_l by lra. lra.
Qed.
Lemma exp_m3_low : 49 / 1000 <= exp (- (3)).
Proof.
  replace (- (3)) with (INR 12 * - (1 / 4)) by (cbn; field). rewrite exp_pow. apply Rle_trans with ((77864 / 100000) ^ 12); [cbn [pow]; lra|]. apply pow_incr. assert (A := exp_q_low). lra.
Qed.
(** 13 detections in 2000 frames, threshold at five gains: one Newton step from
    the first guess gives a negative rate *)
Lemma negative_estimate : exists d v, estimate 1 5 13 2000 d v /\ d < 0.
Proof.
  destruct (fit_estimate 1 5 1 13 2000 ltac:(lra) ltac:(lia)) as (d & v & ES & _). replace (5 / 1) with 5 in ES by field. exists d, v. split; [exact ES|].
  destruct ES as [K|l0 d v K FG F]; [lia|]. assert (EL := exp_m5_low). assert (EU := exp_m5_up). assert (E3 := exp_m3_low).
  destruct FG as [[P G]|[P _]]; [|lra]. set (c := exp (- (5))) in *. assert (X : exp (- l0) = 1 - 13 / 2000 / c) by (apply (Rmult_eq_reg_l c); [|lra]; rewrite Rmult_minus_distr_l, Rmult_1_r; replace (c * (13 / 2000 / c)) with (13 / 2000) by (field; lra); lra).
  assert (X2 : exp (- l0) < exp (- (3))). { rewrite X. apply Rlt_le_trans with (49 / 1000); [|exact E3]. apply (Rmult_lt_reg_r c); [lra|]. replace ((1 - 13 / 2000 / c) * c) with (c - 13 / 2000) by (field; lra). lra. }
  assert (L3 : 3 < l0) by (apply exp_lt_inv in X2; lra).
  assert (D0 := Dn_pos l0 ltac:(lra)). assert (DV := excess_derive (IZR 13) (IZR 2000) 5 1 l0 ltac:(lra) ltac:(lra)). replace (5 / 1) with 5 in DV by field. assert (DP := dfunc_pos (IZR 2000) 5 1 l0 ltac:(lra) ltac:(lra) ltac:(lra) ltac:(lra)).
  assert (KF : fits (excess (IZR 2000) (IZR 13) 5) 1 l0 (l0 - excess (IZR 2000) (IZR 13) 5 l0 / calc_dfunc (IZR 2000) 5 1 l0) (l0 - excess (IZR 2000) (IZR 13) 5 l0 / calc_dfunc (IZR 2000) 5 1 l0)).
  { apply (f_step _ 0 l0 (calc_dfunc (IZR 2000) 5 1 l0)); [apply weight_nz; lra|exact DV|lra|constructor]. }
  destruct (fits_unique _ _ _ _ _ _ _ F KF) as [-> _]. set (fp := calc_dfunc (IZR 2000) 5 1 l0) in *.
  cut (l0 * fp < excess (IZR 2000) (IZR 13) 5 l0). { intros H. apply (Rmult_lt_reg_r fp); [exact DP|]. rewrite Rmult_0_l. replace ((l0 - excess (IZR 2000) (IZR 13) 5 l0 / fp) * fp) with (l0 * fp - excess (IZR 2000) (IZR 13) 5 l0) by (field; lra). lra. }
  unfold fp. rewrite dfunc_W by lra. unfold excess. rewrite detect_rat by lra. replace (5 / 1) with 5 by field. fold c. apply Rlt_le_trans with (2000 * (c * (Nn 5 l0 / (2 * Dn l0))) - 2000 * c); [|lra].
  replace (l0 * (2000 * c * (Wn 5 l0 / (2 * Dn l0) ^ 2))) with (2000 * c * (l0 * Wn 5 l0 / (2 * Dn l0) ^ 2)) by (field; lra). replace (2000 * (c * (Nn 5 l0 / (2 * Dn l0))) - 2000 * c) with (2000 * c * ((Nn 5 l0 * (2 * Dn l0) - (2 * Dn l0) ^ 2) / (2 * Dn l0) ^ 2)) by (field; lra).
  apply Rmult_lt_compat_l; [lra|]. apply Rmult_lt_compat_r; [apply Rinv_0_lt_compat, pow_lt; lra|].
  assert (PP : 0 < Nn 5 l0 * (2 * Dn l0) - (2 * Dn l0) ^ 2 - l0 * Wn 5 l0); [|lra].
  set (h := l0 - 3). replace l0 with (3 + h) by (unfold h; ring). assert (H0 : 0 < h) by (unfold h; lra).
  replace (Nn 5 (3 + h) * (2 * Dn (3 + h)) - (2 * Dn (3 + h)) ^ 2 - (3 + h) * Wn 5 (3 + h)) with (-144 - 288 * (3 + h) - 576 * (3 + h) ^ 2 - 936 * (3 + h) ^ 3 - 240 * (3 + h) ^ 4 + 120 * (3 + h) ^ 5 + 70 * (3 + h) ^ 6) by (unfold Nn, Dn, Wn; ring).
  match goal with |- 0 < ?e => replace e with (29286 + 95724 * h ^ 1 + 95490 * h ^ 2 + 44784 * h ^ 3 + 11010 * h ^ 4 + 1380 * h ^ 5 + 70 * h ^ 6) by ring end.
  assert (P1 := pow_lt h 1 H0). assert (P2 := pow_lt h 2 H0). assert (P3 := pow_lt h 3 H0). assert (P4 := pow_lt h 4 H0). assert (P5 := pow_lt h 5 H0). assert (P6 := pow_lt h 6 H0). lra.
Qed.
