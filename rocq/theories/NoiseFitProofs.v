(** Least squares of the noise maps. *)
From Coq Require Import List Arith Bool Reals ZArith Lia Lra.
From Verif Require Import Base CombineModel NoiseModel NoiseSpec.
Import ListNotations.
Local Open Scope R_scope.

Definition quad (m : normal) (q : R * R * R) : R := let '(F, C, D) := q in
  n11 m * F * F + 2 * n12 m * F * C + 2 * n13 m * F * D + n22 m * C * C + 2 * n23 m * C * D + n33 m * D * D.
Definition dot (a b : list R) : R := fold_right Rplus 0 (map (fun o => fst o * snd o) (combine a b)).
Definition b1 (gts : list (R * R)) ys := sumy (fun _ => 1) (combine gts ys).
Definition b2 (gts : list (R * R)) ys := sumy fst (combine gts ys).
Definition b3 (gts : list (R * R)) ys := sumy (fun p => fst p * snd p) (combine gts ys).

Lemma quad_sum : forall gts q, quad (normal_of gts) q = fold_right Rplus 0 (map (fun p => predicted p q ^ 2) gts).
Proof.
  intros gts [[F C0] D]. unfold quad, normal_of, n11, n12, n13, n22, n23, n33, sum, rsum, predicted. cbn [fst snd].
  induction gts as [|[g t] l IH]; cbn [map fold_right fst snd]; [ring|]. rewrite <- IH. ring.
Qed.
Lemma quad_nonneg : forall gts q, 0 <= quad (normal_of gts) q.
Proof.
  intros gts q. rewrite quad_sum. induction gts as [|p l IH]; cbn [map fold_right]; [lra|]. pose proof (pow2_ge_0 (predicted p q)). lra.
Qed.
Lemma quad_zero : forall gts q, quad (normal_of gts) q = 0 <-> forall p, In p gts -> predicted p q = 0.
Proof.
  intros gts q. rewrite quad_sum. split.
  - induction gts as [|p l IH]; cbn [map fold_right]; intros H x [].
    + subst x. assert (N : 0 <= fold_right Rplus 0 (map (fun p => predicted p q ^ 2) l)) by (rewrite <- quad_sum; apply quad_nonneg). pose proof (pow2_ge_0 (predicted p q)).
      assert (Z : predicted p q ^ 2 = 0) by lra. cbn [pow] in Z. rewrite Rmult_1_r in Z. destruct (Rmult_integral _ _ Z); assumption.
    + apply IH; [|assumption]. assert (N : 0 <= fold_right Rplus 0 (map (fun p => predicted p q ^ 2) l)) by (rewrite <- quad_sum; apply quad_nonneg). pose proof (pow2_ge_0 (predicted p q)). lra.
  - induction gts as [|p l IH]; cbn [map fold_right]; intros H; [reflexivity|]. rewrite (H p) by (left; reflexivity). rewrite IH by (intros x X; apply H; right; exact X). ring.
Qed.

Lemma misfit_expand : forall gts ys F C0 D, List.length ys = List.length gts ->
  misfit gts ys (F, C0, D) = fold_right Rplus 0 (map (fun y => y ^ 2) ys) + quad (normal_of gts) (F, C0, D) - 2 * (F * b1 gts ys + C0 * b2 gts ys + D * b3 gts ys).
Proof.
  intros gts ys F C0 D L. rewrite quad_sum. unfold misfit, b1, b2, b3, sumy, rsum. revert ys L.
  induction gts as [|[g t] l IH]; intros [|y ys] L; try discriminate L; cbn [combine map fold_right fst snd]; [ring|].
  injection L as L. rewrite (IH ys L). unfold predicted. cbn [fst snd]. ring.
Qed.

(** The normal equations. *)
Lemma fit_normal : forall gts ys F C0 D, det (normal_of gts) <> 0 -> fit gts ys = (F, C0, D) ->
  let m := normal_of gts in
  n11 m * F + n12 m * C0 + n13 m * D = b1 gts ys /\ n12 m * F + n22 m * C0 + n23 m * D = b2 gts ys /\ n13 m * F + n23 m * C0 + n33 m * D = b3 gts ys.
Proof.
  intros gts ys F C0 D N H m. unfold fit in H. cbv zeta in H. fold m in H. change (sumy (fun _ => 1) (combine gts ys)) with (b1 gts ys) in H. change (sumy fst (combine gts ys)) with (b2 gts ys) in H.
  change (sumy (fun p => fst p * snd p) (combine gts ys)) with (b3 gts ys) in H. fold m in N.
  set (x := b1 gts ys) in *. set (y := b2 gts ys) in *. set (z := b3 gts ys) in *. clearbody x y z. injection H as <- <- <-.
  unfold det, k11, k12, k13, k22, k23, k33 in *. destruct m as [a11 a12 a13 a22 a23 a33]. cbn [n11 n12 n13 n22 n23 n33] in *. repeat split; field; exact N.
Qed.

Lemma misfit_from_fit : forall gts ys q, det (normal_of gts) <> 0 -> List.length ys = List.length gts ->
  misfit gts ys q = misfit gts ys (fit gts ys) + quad (normal_of gts) (fst (fst q) - fst (fst (fit gts ys)), snd (fst q) - snd (fst (fit gts ys)), snd q - snd (fit gts ys)).
Proof.
  intros gts ys [[F C0] D] N L. destruct (fit gts ys) as [[F' C'] D'] eqn:E. destruct (fit_normal _ _ _ _ _ N E) as (A & B & C). cbn [fst snd].
  rewrite !misfit_expand by exact L. rewrite <- A, <- B, <- C. unfold quad. ring.
Qed.
Lemma fit_best : forall gts ys, det (normal_of gts) <> 0 -> List.length ys = List.length gts -> best gts ys (fit gts ys).
Proof. intros gts ys N L q. rewrite (misfit_from_fit gts ys q N L). pose proof (quad_nonneg gts (fst (fst q) - fst (fst (fit gts ys)), snd (fst q) - snd (fst (fit gts ys)), snd q - snd (fit gts ys))). lra. Qed.

(** A regular normal matrix means independent columns. *)
Lemma regular_determined : forall gts, det (normal_of gts) <> 0 -> determined gts.
Proof.
  intros gts N [[F C0] D] H. set (m := normal_of gts) in *.
  assert (A : n11 m * F + n12 m * C0 + n13 m * D = 0 /\ n12 m * F + n22 m * C0 + n23 m * D = 0 /\ n13 m * F + n23 m * C0 + n33 m * D = 0).
  { subst m. unfold normal_of, n11, n12, n13, n22, n23, n33, sum, rsum. clear N. induction gts as [|[g t] l IH]; cbn [map fold_right fst snd]; [repeat split; ring|].
    destruct IH as (A & B & C); [intros p P; apply H; right; exact P|]. specialize (H (g, t) (or_introl eq_refl)). unfold predicted in H. cbn [fst snd] in H.
    repeat split.
    - match type of A with ?a = 0 => transitivity ((F + g * C0 + g * t * D) + a); [ring|rewrite H, A; ring] end.
    - match type of B with ?a = 0 => transitivity (g * (F + g * C0 + g * t * D) + a); [ring|rewrite H, B; ring] end.
    - match type of C with ?a = 0 => transitivity (g * t * (F + g * C0 + g * t * D) + a); [ring|rewrite H, C; ring] end. }
  destruct A as (A & B & C). clearbody m. unfold det, k11, k12, k13 in N. destruct m as [a11 a12 a13 a22 a23 a33]. cbn [n11 n12 n13 n22 n23 n33] in *.
  assert (P : forall x, (a11 * (a22 * a33 - a23 * a23) + a12 * (a13 * a23 - a12 * a33) + a13 * (a12 * a23 - a13 * a22)) * x = 0 -> x = 0) by (intros x X; apply Rmult_integral in X; tauto).
  f_equal; [f_equal|]; apply P.
  - transitivity ((a22 * a33 - a23 * a23) * (a11 * F + a12 * C0 + a13 * D) + (a13 * a23 - a12 * a33) * (a12 * F + a22 * C0 + a23 * D) + (a12 * a23 - a13 * a22) * (a13 * F + a23 * C0 + a33 * D)); [ring|rewrite A, B, C; ring].
  - transitivity ((a13 * a23 - a12 * a33) * (a11 * F + a12 * C0 + a13 * D) + (a11 * a33 - a13 * a13) * (a12 * F + a22 * C0 + a23 * D) + (a12 * a13 - a11 * a23) * (a13 * F + a23 * C0 + a33 * D)); [ring|rewrite A, B, C; ring].
  - transitivity ((a12 * a23 - a13 * a22) * (a11 * F + a12 * C0 + a13 * D) + (a12 * a13 - a11 * a23) * (a12 * F + a22 * C0 + a23 * D) + (a11 * a22 - a12 * a12) * (a13 * F + a23 * C0 + a33 * D)); [ring|rewrite A, B, C; ring].
Qed.
Lemma determined_regular : forall gts, gts <> [] -> determined gts -> det (normal_of gts) <> 0.
Proof.
  intros gts NE H Z. set (m := normal_of gts) in *.
  assert (Q : forall q, quad m q = 0 -> q = (0, 0, 0)) by (intros q E; apply H; apply quad_zero; exact E).
  assert (P : 0 < n11 m). { subst m. unfold normal_of, n11, sum, rsum. clear H Z Q. destruct gts as [|p l]; [congruence|]. cbn [map fold_right]. assert (0 <= fold_right Rplus 0 (map (fun _ : R * R => 1) l)) by (clear NE; induction l; cbn [map fold_right]; lra). lra. }
  clearbody m. unfold det in Z.
  assert (V1 : quad m (k11 m, k12 m, k13 m) = k11 m * (n11 m * k11 m + n12 m * k12 m + n13 m * k13 m)).
  { unfold quad, k11, k12, k13. ring. }
  rewrite Z, Rmult_0_r in V1. apply Q in V1.
  assert (V2 : quad m (k12 m, k22 m, k23 m) = k22 m * (n11 m * k11 m + n12 m * k12 m + n13 m * k13 m)) by (unfold quad, k11, k12, k13, k22, k23; ring).
  rewrite Z, Rmult_0_r in V2. apply Q in V2.
  assert (V3 : quad m (k13 m, k23 m, k33 m) = k33 m * (n11 m * k11 m + n12 m * k12 m + n13 m * k13 m)) by (unfold quad, k11, k12, k13, k23, k33; ring).
  rewrite Z, Rmult_0_r in V3. apply Q in V3.
  pose proof (f_equal snd V3) as Z33. cbn [snd] in Z33.
  assert (V : quad m (- n12 m, n11 m, 0) = n11 m * k33 m) by (unfold quad, k33; ring). rewrite Z33, Rmult_0_r in V. apply Q in V. apply (f_equal (fun q => snd (fst q))) in V. cbn [fst snd] in V. lra.
Qed.
Lemma regular_iff : forall gts, gts <> [] -> (det (normal_of gts) <> 0 <-> determined gts).
Proof. intros gts NE. split; [apply regular_determined|apply determined_regular; exact NE]. Qed.

Lemma best_iff : forall gts ys q, det (normal_of gts) <> 0 -> List.length ys = List.length gts -> (best gts ys q <-> q = fit gts ys).
Proof.
  intros gts ys q N L. split; [|intros ->; apply fit_best; assumption]. intros B. specialize (B (fit gts ys)). rewrite (misfit_from_fit gts ys q N L) in B.
  assert (Z : quad (normal_of gts) (fst (fst q) - fst (fst (fit gts ys)), snd (fst q) - snd (fst (fit gts ys)), snd q - snd (fit gts ys)) = 0).
  { pose proof (quad_nonneg gts (fst (fst q) - fst (fst (fit gts ys)), snd (fst q) - snd (fst (fit gts ys)), snd q - snd (fit gts ys))). lra. }
  pose proof (proj1 (quad_zero _ _) Z) as E. apply (regular_determined gts N) in E. pose proof (f_equal (fun q => fst (fst q)) E) as X. pose proof (f_equal (fun q => snd (fst q)) E) as Y. pose proof (f_equal snd E) as W. clear E Z B. cbn [fst snd] in X, Y, W.
  destruct q as [[F C0] D], (fit gts ys) as [[F' C'] D']. cbn [fst snd] in *. f_equal; [f_equal|]; lra.
Qed.

(** ** Standard deviations *)
Lemma dot_comm : forall a b, dot a b = dot b a.
Proof. unfold dot. induction a as [|x a IH]; intros [|y b]; try reflexivity. cbn [combine map fold_right fst snd]. rewrite IH. ring. Qed.
Lemma dot_self : forall a, dot a a = fold_right Rplus 0 (map (fun w => w ^ 2) a).
Proof. unfold dot. induction a as [|x a IH]; [reflexivity|]. cbn [combine map fold_right fst snd]. rewrite IH. ring. Qed.
Lemma dot_predicted : forall gts ys q, dot (map (fun p => predicted p q) gts) ys = fst (fst q) * b1 gts ys + snd (fst q) * b2 gts ys + snd q * b3 gts ys.
Proof.
  intros gts ys [[F C0] D]. unfold dot, b1, b2, b3, sumy, rsum. cbn [fst snd]. revert ys. induction gts as [|[g t] l IH]; intros [|y ys]; cbn [combine map fold_right fst snd]; try ring.
  rewrite IH. unfold predicted. cbn [fst snd]. ring.
Qed.
Lemma response_one : forall gts k v v', det (normal_of gts) <> 0 -> response gts k v -> response gts k v' -> v = v'.
Proof.
  intros gts k v v' N (ws & L & W & ->) (ws' & L' & W' & ->). rewrite <- !dot_self.
  pose proof (W ws _ L (fit_best gts ws N L)) as A. pose proof (W' ws _ L (fit_best gts ws N L)) as B.
  pose proof (W ws' _ L' (fit_best gts ws' N L')) as C. pose proof (W' ws' _ L' (fit_best gts ws' N L')) as D.
  fold (dot ws ws) in A. fold (dot ws' ws) in B. fold (dot ws ws') in C. fold (dot ws' ws') in D. pose proof (dot_comm ws ws'). congruence.
Qed.
Definition picks (m : normal) (k : R * R * R -> R) (row : R * R * R) : Prop :=
  (k = (fun q => fst (fst q)) /\ row = (k11 m / det m, k12 m / det m, k13 m / det m)) \/ (k = (fun q => snd (fst q)) /\ row = (k12 m / det m, k22 m / det m, k23 m / det m))
  \/ (k = (fun q => snd q) /\ row = (k13 m / det m, k23 m / det m, k33 m / det m)).
Lemma response_row : forall gts k row, det (normal_of gts) <> 0 -> picks (normal_of gts) k row -> response gts k (k row).
Proof.
  intros gts k row N K. exists (map (fun p => predicted p row) gts). split; [apply map_length|]. split.
  - intros ys q L B. apply (best_iff gts ys q N L) in B. subst q. change (k (fit gts ys) = dot (map (fun p => predicted p row) gts) ys). rewrite dot_predicted.
    change (fit gts ys) with (let m := normal_of gts in ((k11 m * b1 gts ys + k12 m * b2 gts ys + k13 m * b3 gts ys) / det m, (k12 m * b1 gts ys + k22 m * b2 gts ys + k23 m * b3 gts ys) / det m, (k13 m * b1 gts ys + k23 m * b2 gts ys + k33 m * b3 gts ys) / det m)).
    cbv zeta. destruct K as [[-> ->] | [[-> ->] | [-> ->]]]; cbn [fst snd]; field; exact N.
  - rewrite map_map. rewrite <- (quad_sum gts row). set (m := normal_of gts) in *. clearbody m.
    assert (D : det m = n11 m * k11 m + n12 m * k12 m + n13 m * k13 m) by reflexivity.
    unfold k11, k12, k13, k22, k23, k33, det in *. destruct m as [a11 a12 a13 a22 a23 a33]. unfold k11, k12, k13, k22, k23, k33 in *. cbn [n11 n12 n13 n22 n23 n33] in *.
    destruct K as [[-> ->] | [[-> ->] | [-> ->]]]; unfold k11, k12, k13, k22, k23, k33, det, quad; cbn [fst snd n11 n12 n13 n22 n23 n33]; unfold k11, k12, k13, k22, k23, k33; cbn [n11 n12 n13 n22 n23 n33]; field; exact N.
Qed.
Lemma sigma2_misfit : forall gts ys, sigma2 gts ys = misfit gts ys (fit gts ys) / (INR (List.length gts) - 3).
Proof.
  intros gts ys. unfold sigma2, residuals, misfit. destruct (fit gts ys) as [[F C0] D]. rewrite map_map. unfold rsum. f_equal.
Qed.
Lemma response_nonneg : forall gts k v, response gts k v -> 0 <= v.
Proof. intros gts k v (ws & _ & _ & ->). induction ws as [|w l IH]; cbn [map fold_right]; [lra|]. pose proof (pow2_ge_0 w). lra. Qed.
Lemma misfit_nonneg : forall gts ys q, 0 <= misfit gts ys q.
Proof. intros gts ys q. unfold misfit. induction (combine gts ys) as [|o l IH]; cbn [map fold_right]; [lra|]. pose proof (pow2_ge_0 (snd o - predicted (fst o) q)). lra. Qed.
Lemma spread_iff : forall gts ys k row e, det (normal_of gts) <> 0 -> List.length ys = List.length gts -> (3 < List.length gts)%nat -> picks (normal_of gts) k row ->
  (spread gts ys k e <-> e = sqrt (sigma2 gts ys * k row)).
Proof.
  intros gts ys k row e N L M K. pose proof (response_row gts k row N K) as R0. assert (P : 0 < INR (List.length gts) - 3) by (apply lt_INR in M; change (INR 3) with (1 + 1 + 1) in M; lra).
  assert (G : 0 <= sigma2 gts ys * k row).
  { apply Rmult_le_pos; [|exact (response_nonneg _ _ _ R0)]. rewrite sigma2_misfit. apply Rmult_le_pos; [apply misfit_nonneg|]. left. apply Rinv_0_lt_compat. exact P. }
  split.
  - intros (E & q & v & B & V & Q). apply (best_iff gts ys q N L) in B. subst q. rewrite (response_one gts k v (k row) N V R0) in Q. rewrite <- sigma2_misfit in Q. rewrite <- Q. symmetry. apply sqrt_pow2. exact E.
  - intros ->. split; [apply sqrt_pos|]. exists (fit gts ys), (k row). split; [apply fit_best; assumption|]. split; [exact R0|]. rewrite <- sigma2_misfit. apply pow2_sqrt. exact G.
Qed.
