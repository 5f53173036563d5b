From Coq Require Import List Arith Bool Reals ZArith Lra Lia.
From Verif Require Import Base PumpModel PumpSpec PumpProofs PumpRunProofs PumpTopProofs.
Import ListNotations.
Local Open Scope R_scope.

(** The release. *)
Lemma edges_cases : forall k, (1 <= k <= 3)%nat -> k = 1%nat \/ k = 2%nat \/ k = 3%nat.
Proof. lia. Qed.
Lemma peak_pos : forall k, 0 < peak k.
Proof.
  intros k. assert (L : forall x, 1 < x -> 0 < ln x) by (intros x Hx; rewrite <- ln_1; apply ln_increasing; lra).
  pose proof (L 2). pose proof (L (3 / 2)). pose proof (L 4). destruct k as [|[|[|k]]]; cbn [peak]; lra.
Qed.
Lemma exp_mult_nat : forall x n, exp (- (INR n * x)) = exp (- x) ^ n.
Proof.
  intros x n. induction n as [|n IH]; [cbn; rewrite Rmult_0_l, Ropp_0, exp_0; reflexivity|].
  rewrite S_INR. replace (- ((INR n + 1) * x)) with (- (INR n * x) + - x) by ring. rewrite exp_plus, IH. cbn [pow]. ring.
Qed.
Lemma e2 : forall x, exp (- (2 * x)) = exp (- x) ^ 2. Proof. intros. rewrite <- exp_mult_nat. replace (INR 2) with 2 by (cbn; lra). reflexivity. Qed.
Lemma e3 : forall x, exp (- (3 * x)) = exp (- x) ^ 3. Proof. intros. rewrite <- exp_mult_nat. replace (INR 3) with 3 by (cbn; lra). reflexivity. Qed.
Lemma e4 : forall x, exp (- (4 * x)) = exp (- x) ^ 4. Proof. intros. rewrite <- exp_mult_nat. replace (INR 4) with 4 by (cbn; lra). reflexivity. Qed.
Lemma release_y : forall k x, release k x = let y := exp (- x) in match k with 1%nat => y - y ^ 2 | 2%nat => y ^ 2 - y ^ 3 | _ => y - y ^ 4 end.
Proof. intros k x. unfold release, edges. destruct k as [|[|[|k]]]; cbn [fst snd]; rewrite ?Rmult_1_l, ?e2, ?e3, ?e4; reflexivity. Qed.
Lemma peak_y : forall k, let z := exp (- peak k) in match k with 1%nat => z = / 2 | 2%nat => z = 2 / 3 | _ => z ^ 3 = / 4 end.
Proof.
  intros k. assert (A : exp (- (ln 4 / 3)) ^ 3 = / 4).
  { rewrite <- e3. replace (- (3 * (ln 4 / 3))) with (- ln 4) by field. rewrite exp_Ropp, exp_ln by lra. reflexivity. }
  destruct k as [|[|[|k]]]; cbn [peak]; cbv zeta; try exact A; rewrite exp_Ropp, exp_ln by lra; [reflexivity|field].
Qed.
(** The drop from the peak is a square. *)
Lemma release_drop : forall k x, let y := exp (- x) in let z := exp (- peak k) in
  release k (peak k) - release k x = Rsqr (y - z) * match k with 1%nat => 1 | 2%nat => y + / 3 | _ => y ^ 2 + 2 * y * z + 3 * z ^ 2 end.
Proof.
  intros k x y z. rewrite !release_y. cbv zeta. fold y. fold z. pose proof (peak_y k) as Z. cbv zeta in Z. fold z in Z. unfold Rsqr.
  assert (Z3 : z ^ 3 = / 4 -> z - z ^ 4 - (y - y ^ 4) = (y - z) * (y - z) * (y ^ 2 + 2 * y * z + 3 * z ^ 2)).
  { intros E. replace ((y - z) * (y - z) * (y ^ 2 + 2 * y * z + 3 * z ^ 2)) with (y ^ 4 - 4 * y * z ^ 3 + 3 * z * z ^ 3) by ring.
    replace (z ^ 4) with (z * z ^ 3) by ring. rewrite E. lra. }
  destruct k as [|[|[|k]]]; auto; rewrite Z; field.
Qed.
Lemma release_max : forall k x, release k x <= release k (peak k) /\ (release k x = release k (peak k) <-> x = peak k).
Proof.
  intros k x. pose proof (release_drop k x) as D. cbv zeta in D. pose proof (exp_pos (- x)) as Y. pose proof (exp_pos (- peak k)) as Z. pose proof (Rle_0_sqr (exp (- x) - exp (- peak k))) as S.
  assert (F : 0 < match k with 1%nat => 1 | 2%nat => exp (- x) + / 3 | _ => exp (- x) ^ 2 + 2 * exp (- x) * exp (- peak k) + 3 * exp (- peak k) ^ 2 end).
  { assert (0 < exp (- x) ^ 2 + 2 * exp (- x) * exp (- peak k) + 3 * exp (- peak k) ^ 2).
    { pose proof (Rmult_lt_0_compat _ _ Y Z). pose proof (pow_lt _ 2 Y). pose proof (pow_lt _ 2 Z). lra. }
    destruct k as [|[|[|k]]]; auto; lra. }
  split.
  - assert (0 <= release k (peak k) - release k x) by (rewrite D; apply Rmult_le_pos; lra). lra.
  - split; [|intros ->; reflexivity]. intros E. assert (Z0 : Rsqr (exp (- x) - exp (- peak k)) = 0).
    { apply (Rmult_eq_reg_r (match k with 1%nat => 1 | 2%nat => exp (- x) + / 3 | _ => exp (- x) ^ 2 + 2 * exp (- x) * exp (- peak k) + 3 * exp (- peak k) ^ 2 end)); [|lra]. rewrite <- D. lra. }
    apply Rsqr_0_uniq in Z0. assert (E' : exp (- x) = exp (- peak k)) by lra. apply exp_inv in E'. lra.
Qed.
Lemma release_pos : forall k x, 0 <= x -> 0 <= release k x /\ (0 < x -> 0 < release k x).
Proof.
  intros k x Hx. unfold release.
  assert (M : forall a b, 0 < a < b -> 0 <= exp (- (a * x)) - exp (- (b * x)) /\ (0 < x -> 0 < exp (- (a * x)) - exp (- (b * x)))).
  { intros a b (Ha & Hb). assert (a * x <= b * x) by (apply Rmult_le_compat_r; lra). split.
    - destruct (Req_dec x 0) as [->|N]; [rewrite !Rmult_0_r; lra|]. assert (a * x < b * x) by (apply Rmult_lt_compat_r; lra). pose proof (exp_increasing (- (b * x)) (- (a * x)) ltac:(lra)). lra.
    - intros P. assert (a * x < b * x) by (apply Rmult_lt_compat_r; lra). pose proof (exp_increasing (- (b * x)) (- (a * x)) ltac:(lra)). lra. }
  destruct k as [|[|[|k]]]; cbn [edges fst snd]; apply M; lra.
Qed.

(** A constant capture probability: the amplitude is greatest at tau times the peak, and nowhere else. *)
Lemma const_peak : forall N k c u x, 0 < N * c -> 0 < u ->
  (forall t, amplitude Const N k c u t <= amplitude Const N k c u x) <-> x / peak k = u.
Proof.
  intros N k c u x Hc Hu. unfold amplitude, capture. pose proof (peak_pos k) as Pp. split.
  - intros H. specialize (H (u * peak k)). replace (u * peak k / u) with (peak k) in H by (field; lra).
    rewrite <- !Rmult_assoc in H. apply Rmult_le_reg_l in H; [|assumption]. destruct (release_max k (x / u)) as (L & E).
    assert (X : x / u = peak k) by (apply E; lra). apply (Rmult_eq_reg_r (peak k)); [|lra]. replace (x / peak k * peak k) with x by (field; lra). rewrite <- X. field. lra.
  - intros <- t. destruct (release_max k (t / (x / peak k))) as (L & _). rewrite <- !Rmult_assoc. apply Rmult_le_compat_l; [lra|].
    assert (0 < x). { replace x with (x / peak k * peak k) by (field; lra). apply Rmult_lt_0_compat; lra. }
    replace (x / (x / peak k)) with (peak k) by (field; lra). assumption.
Qed.

(** With a capture time constant the greatest amplitude is strictly later. *)
Lemma cap_mono : forall c s t, 0 < c -> 0 <= s -> s < t -> 0 <= capture Timed c s < capture Timed c t.
Proof.
  intros c s t Hc Hs Hst. cbn [capture]. assert (s / c < t / c) by (apply Rmult_lt_compat_r; [apply Rinv_0_lt_compat|]; lra).
  assert (0 <= s / c) by (apply Rmult_le_pos; [lra|apply Rlt_le, Rinv_0_lt_compat; lra]).
  pose proof (exp_increasing (- (t / c)) (- (s / c)) ltac:(lra)).
  assert (exp (- (s / c)) <= 1). { rewrite <- exp_0. destruct (Req_dec (s / c) 0) as [E|E]; [rewrite E, Ropp_0; lra|]. apply Rlt_le, exp_increasing. lra. }
  lra.
Qed.
Lemma lim_exp : forall a t, derivable_pt_lim (fun t => exp (a * t)) t (a * exp (a * t)).
Proof.
  intros a t. replace (a * exp (a * t)) with (exp (a * t) * a) by ring.
  apply (derivable_pt_lim_comp (fun t => a * t) exp t a (exp (a * t))); [|apply derivable_pt_lim_exp].
  pose proof (derivable_pt_lim_scal id a t 1 (derivable_pt_lim_id t)) as H. rewrite Rmult_1_r in H. exact H.
Qed.
Lemma lim_ext : forall f g t l, (forall x, f x = g x) -> derivable_pt_lim f t l -> derivable_pt_lim g t l.
Proof. intros f g t l E H eps He. destruct (H eps He) as (d & D). exists d. intros h H1 H2. rewrite <- !E. auto. Qed.
Lemma flat_peak : forall k, snd (edges k) * exp (- (snd (edges k) * peak k)) = fst (edges k) * exp (- (fst (edges k) * peak k)).
Proof.
  intros k. pose proof (peak_y k) as Z. cbv zeta in Z. destruct k as [|[|[|k]]]; cbn [edges fst snd]; rewrite ?Rmult_1_l, ?e2, ?e3, ?e4.
  - replace (exp (- peak 0) ^ 4) with (exp (- peak 0) ^ 3 * exp (- peak 0)) by ring. rewrite Z. lra.
  - rewrite Z. field.
  - rewrite Z. field.
  - match goal with |- _ = ?z => set (z0 := z) in * end. replace (z0 ^ 4) with (z0 ^ 3 * z0) by ring. rewrite Z. lra.
Qed.
Lemma rises : forall f t l, derivable_pt_lim f t l -> 0 < l -> exists x, t < x /\ f t < f x.
Proof.
  intros f t l H Hl. destruct (H l Hl) as ([d Hd] & D). cbn [pos] in D. exists (t + d / 2). split; [lra|].
  specialize (D (d / 2) ltac:(lra)). assert (Rabs (d / 2) < d) as A by (rewrite Rabs_right; lra). specialize (D A).
  apply Rabs_def2 in D. destruct D as (_ & D). assert (0 < (f (t + d / 2) - f t) / (d / 2)) as Q by lra.
  assert (0 < f (t + d / 2) - f t). { replace (f (t + d / 2) - f t) with ((f (t + d / 2) - f t) / (d / 2) * (d / 2)) by (field; lra). apply Rmult_lt_0_compat; lra. }
  lra.
Qed.
Lemma timed_slope : forall k c u, 0 < c -> 0 < u ->
  derivable_pt_lim (fun t => capture Timed c t * release k (t / u)) (u * peak k) (exp (- (u * peak k / c)) / c * release k (peak k)).
Proof.
  intros k c u Hc Hu. set (t0 := u * peak k).
  assert (A : derivable_pt_lim (capture Timed c) t0 (exp (- (t0 / c)) / c)).
  { apply (lim_ext (minus_fct (fct_cte 1) (fun t => exp (- / c * t)))).
    - intros x. unfold minus_fct, fct_cte. cbn [capture]. f_equal. f_equal. unfold Rdiv. ring.
    - replace (exp (- (t0 / c)) / c) with (0 - - / c * exp (- / c * t0)).
      + apply derivable_pt_lim_minus; [apply derivable_pt_lim_const|apply lim_exp].
      + replace (- / c * t0) with (- (t0 / c)) by (unfold Rdiv; ring). unfold Rdiv. ring. }
  set (a := fst (edges k)). set (b := snd (edges k)).
  assert (B : derivable_pt_lim (fun t => release k (t / u)) t0 0).
  { apply (lim_ext (minus_fct (fun t => exp (- (a / u) * t)) (fun t => exp (- (b / u) * t)))).
    - intros x. unfold minus_fct, release. fold a b. f_equal; f_equal; unfold Rdiv; ring.
    - replace 0 with (- (a / u) * exp (- (a / u) * t0) - - (b / u) * exp (- (b / u) * t0)).
      + apply derivable_pt_lim_minus; apply lim_exp.
      + replace (- (a / u) * t0) with (- (a * peak k)) by (unfold t0; field; lra). replace (- (b / u) * t0) with (- (b * peak k)) by (unfold t0; field; lra).
        pose proof (flat_peak k) as FP. fold a b in FP. replace (- (a / u) * exp (- (a * peak k)) - - (b / u) * exp (- (b * peak k))) with ((b * exp (- (b * peak k)) - a * exp (- (a * peak k))) / u) by (field; lra).
        rewrite FP. unfold Rdiv. ring. }
  pose proof (derivable_pt_lim_mult _ _ _ _ _ A B) as M. cbv beta in M. replace (t0 / u) with (peak k) in M by (unfold t0; field; lra).
  replace (exp (- (t0 / c)) / c * release k (peak k)) with (exp (- (t0 / c)) / c * release k (peak k) + capture Timed c t0 * 0) by ring. exact M.
Qed.
Lemma timed_later : forall N k c u, 0 < N -> 0 < c -> 0 < u ->
  (forall t, 0 <= t -> t < u * peak k -> amplitude Timed N k c u t < amplitude Timed N k c u (u * peak k)) /\
  (exists t, u * peak k < t /\ amplitude Timed N k c u (u * peak k) < amplitude Timed N k c u t) /\
  (forall x, 0 <= x -> (forall t, amplitude Timed N k c u t <= amplitude Timed N k c u x) -> u < x / peak k).
Proof.
  intros N k c u HN Hc Hu. pose proof (peak_pos k) as Pp. assert (Pt : 0 < u * peak k) by (apply Rmult_lt_0_compat; lra).
  assert (Pu : u * peak k / u = peak k) by (field; lra).
  assert (X1 : forall t, 0 <= t -> t < u * peak k -> amplitude Timed N k c u t < amplitude Timed N k c u (u * peak k)).
  { intros t T0 T1. unfold amplitude. apply Rmult_lt_compat_l; [assumption|]. destruct (cap_mono c t (u * peak k) Hc T0 T1) as (C0 & C1).
    destruct (release_max k (t / u)) as (L & _). rewrite Pu. destruct (release_pos k (peak k)) as (_ & RP); [lra|]. specialize (RP Pp).
    eapply Rle_lt_trans; [apply Rmult_le_compat_l; [exact C0|exact L]|]. apply Rmult_lt_compat_r; assumption. }
  assert (X2 : exists t, u * peak k < t /\ amplitude Timed N k c u (u * peak k) < amplitude Timed N k c u t).
  { destruct (rises _ _ _ (timed_slope k c u Hc Hu)) as (t & T & L).
    - apply Rmult_lt_0_compat; [apply Rdiv_lt_0_compat; [apply exp_pos|assumption]|]. apply release_pos; lra.
    - exists t. split; [assumption|]. unfold amplitude. apply Rmult_lt_compat_l; assumption. }
  split; [assumption|]. split; [assumption|]. intros x Hx M. destruct X2 as (t & T & L).
  destruct (Rlt_le_dec (u * peak k) x) as [G|G].
  - apply (Rmult_lt_reg_r (peak k)); [assumption|]. replace (x / peak k * peak k) with x by (field; lra). assumption.
  - exfalso. specialize (M t). destruct (Req_dec x (u * peak k)) as [->|Ne]; [lra|]. specialize (X1 x Hx ltac:(lra)). lra.
Qed.

(** Bounds of the amplitude. *)
Lemma amplitude_bounds : forall m N k c u t, 0 <= N -> 0 <= t -> 0 < u -> 0 < c -> (m = Const -> c <= 1) ->
  0 <= amplitude m N k c u t <= N * release k (peak k).
Proof.
  intros m N k c u t HN Ht Hu Hc Hm. unfold amplitude.
  assert (C : 0 <= capture m c t <= 1).
  { destruct m; [|cbn [capture]; split; [lra|auto]]. cbn [capture]. pose proof (exp_pos (- (t / c))).
    assert (exp (- (t / c)) <= 1). { rewrite <- exp_0. assert (0 <= t / c) by (apply Rmult_le_pos; [lra|apply Rlt_le, Rinv_0_lt_compat; lra]). destruct (Req_dec (t / c) 0) as [E|E]; [rewrite E, Ropp_0; lra|]. apply Rlt_le, exp_increasing. lra. }
    lra. }
  assert (Hx : 0 <= t / u) by (apply Rmult_le_pos; [lra|apply Rlt_le, Rinv_0_lt_compat; lra]).
  destruct (release_pos k (t / u) Hx) as (R0 & _). destruct (release_max k (t / u)) as (R1 & _). split.
  - apply Rmult_le_pos; [assumption|]. apply Rmult_le_pos; lra.
  - apply Rmult_le_compat_l; [assumption|]. rewrite <- (Rmult_1_l (release k (peak k))). apply Rmult_le_compat; lra.
Qed.
Lemma release_top : release 1 (peak 1) = / 4 /\ release 2 (peak 2) = 4 / 27 /\ release 3 (peak 3) = 3 / 4 * exp (- (ln 4 / 3)).
Proof.
  rewrite !release_y. cbv zeta. pose proof (peak_y 1) as A. pose proof (peak_y 2) as B. pose proof (peak_y 3) as C. cbv zeta in *. rewrite A, B. repeat split; try field.
  replace (exp (- peak 3) ^ 4) with (exp (- peak 3) ^ 3 * exp (- peak 3)) by ring. rewrite C. change (peak 3) with (ln 4 / 3). lra.
Qed.
Lemma curve2_swap : forall m N k1 k2 t o c u c2 u2, curve2 m N k1 k2 t (o, c, u, c2, u2) = curve2 m N k2 k1 t (o, c2, u2, c, u).
Proof. intros. unfold curve2. ring. Qed.

(** Goodness. *)
Lemma goodness_le : forall p f t a, (p < List.length t)%nat -> (1 < List.length t)%nat -> 0 < spread a ->
  goodness p f t a <= 1 /\ (goodness p f t a = 1 <-> Forall (fun q => f (fst q) = snd q) (combine t a)).
Proof.
  intros p f t a Hp H1 Hs. unfold goodness. cbv zeta. apply lt_INR in Hp. apply lt_INR in H1. change (INR 1) with 1 in H1.
  pose proof (sum_sq_nonneg (fun q : R * R => snd q - f (fst q)) (combine t a)) as S0. change (0 <= scatter f t a) in S0.
  pose proof (sum_sq_zero (fun q : R * R => snd q - f (fst q)) (combine t a)) as SZ. change (scatter f t a = 0 <-> Forall (fun q : R * R => snd q - f (fst q) = 0) (combine t a)) in SZ.
  assert (D : 0 < spread a / (INR (List.length t) - 1)) by (apply Rdiv_lt_0_compat; lra).
  assert (K : 0 < / (INR (List.length t) - INR p) * / (spread a / (INR (List.length t) - 1))) by (apply Rmult_lt_0_compat; apply Rinv_0_lt_compat; lra).
  replace (scatter f t a / (INR (List.length t) - INR p) / (spread a / (INR (List.length t) - 1))) with (scatter f t a * (/ (INR (List.length t) - INR p) * / (spread a / (INR (List.length t) - 1)))) by (unfold Rdiv at 3; field; lra).
  remember (/ (INR (List.length t) - INR p) * / (spread a / (INR (List.length t) - 1))) as kk eqn:EK. clear EK. split.
  - assert (0 <= scatter f t a * kk) by (apply Rmult_le_pos; lra). lra.
  - split.
    + intros E. assert (scatter f t a = 0). { apply (Rmult_eq_reg_r kk); [lra|apply Rgt_not_eq; lra]. }
      apply SZ in H. eapply Forall_impl; [|exact H]. cbn beta. intros q Hq. lra.
    + intros F. assert (scatter f t a = 0) as ->. { apply SZ. eapply Forall_impl; [|exact F]. cbn beta. intros q Hq. lra. } lra.
Qed.
Lemma varied_spread : forall a, varied a -> 0 < spread a.
Proof.
  intros a V. pose proof (spread_nonneg a). destruct (Req_dec (spread a) 0) as [E|E]; [|lra]. exfalso.
  apply (spread_zero a) in E; [contradiction|]. destruct V as (x & _ & I & _). intros ->. exact I.
Qed.
