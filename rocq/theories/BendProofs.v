(** The distortion map and its correction. *)
From Coq Require Import List Arith Bool Reals ZArith Lra Lia Psatz String.
From Verif Require Import Base DqModel AngleModel SpotModel SpotSpec SpotProofs SpotSearchProofs BendModel BendSpec.
Import ListNotations.
Local Open Scope R_scope.

Lemma leg_legendre : legendre leg.
Proof.
  split; [reflexivity|]. split; [reflexivity|]. intros n x. unfold leg. cbn [legs]. destruct (legs n x) as (a, b) eqn:E. cbn [fst snd]. field. pose proof (pos_INR n). lra.
Qed.
Lemma legendre_unique : forall P Q, legendre P -> legendre Q -> forall n x, P n x = Q n x.
Proof.
  intros P Q (P0 & P1 & PS) (Q0 & Q1 & QS) n x. assert (H : P n x = Q n x /\ P (S n) x = Q (S n) x); [|tauto]. induction n as [|n (I1 & I2)]; [split; [rewrite P0, Q0|rewrite P1, Q1]; reflexivity|].
  split; [assumption|]. apply Rmult_eq_reg_l with (INR n + 2); [|pose proof (pos_INR n); lra]. rewrite PS, QS, I1, I2. reflexivity.
Qed.
Lemma wrap_int64 : forall z, wrap64 z = int64 z.
Proof. intros z. unfold wrap64, int64. rewrite Z.mod_eq by lia. lia. Qed.
Lemma unit_scale : forall k, unit_of k = IZR (scale k).
Proof. intros k. unfold unit_of, scale. rewrite wrap_int64. reflexivity. Qed.
(** Up to order three the units are powers of 500; *)
Theorem unit_small : forall k, (k <= 7)%nat -> unit_of k = 500 ^ k.
Proof.
  intros k H. rewrite unit_scale. assert (C : (k = 0 \/ k = 1 \/ k = 2 \/ k = 3 \/ k = 4 \/ k = 5 \/ k = 6 \/ k = 7)%nat) by lia.
  rewrite (pow_IZR 500 k). destruct C as [->|[->|[->|[->|[->|[->|[->| ->]]]]]]]; reflexivity.
Qed.
(** up to order fifteen they are not zero, *)
Lemma unit_nonzero : forall k, (k <= 31)%nat -> unit_of k <> 0.
Proof.
  intros k H. rewrite unit_scale. apply not_0_IZR. revert H. 
  assert (A : forallb (fun k => negb (Z.eqb (scale k) 0)) (seq 0 32) = true) by (vm_compute; reflexivity). rewrite forallb_forall in A. intros H Z0. specialize (A k). rewrite Z0 in A. discriminate A. apply in_seq. lia.
Qed.
(** from order sixteen on some are. *)
Lemma unit_zero : forall k, (32 <= k)%nat -> unit_of k = 0.
Proof.
  intros k H. rewrite unit_scale. unfold scale. assert (E : (500 ^ Z.of_nat k)%Z = (2 ^ 64 * (125 ^ Z.of_nat k * 4 ^ (Z.of_nat k - 32)))%Z).
  { replace 500%Z with (125 * 4)%Z by reflexivity. rewrite Z.pow_mul_l. replace (Z.of_nat k) with (32 + (Z.of_nat k - 32))%Z at 2 by lia. rewrite (Z.pow_add_r 4) by lia. change (4 ^ 32)%Z with (2 ^ 64)%Z. ring. }
  rewrite E. unfold wrap64. set (q := (125 ^ Z.of_nat k * 4 ^ (Z.of_nat k - 32))%Z). rewrite Z.add_comm, (Z.mul_comm _ q), Z_mod_plus_full. reflexivity.
Qed.

Lemma coeffs_ok : forall k l, List.length l = (k * k)%nat -> exists c, coeffs k l = Ok c /\ forall i j, c i j = ndiv (nth (i * k + j) l None) (Some (unit_of (i + j))).
Proof. intros k l L. unfold coeffs. rewrite L, Nat.eqb_refl. eexists. split; [reflexivity|]. intros i j. cbn beta. rewrite unit_scale. reflexivity. Qed.
Lemma coeffs_refused : forall k l e, coeffs k l = Raise e <-> List.length l <> (k * k)%nat /\ e = ValueError.
Proof. intros k l e. unfold coeffs. destruct (Nat.eqb_spec (List.length l) (k * k)) as [E|E]; split; intros H; try discriminate; [tauto| |]; [injection H as <-; auto|destruct H as (_ & ->); reflexivity]. Qed.
Lemma legval_ok : forall P o c v x y, legendre P -> (o <= 15)%nat -> (forall i j, (i <= o)%nat -> (j <= o)%nat -> c i j = ndiv (Some (v i j)) (Some (unit_of (i + j)))) -> legval2d (S o) c x y = Some (warp P o v x y).
Proof.
  intros P o c v x y LP O H. unfold legval2d, warp. rewrite (total_prod (fun i j => v i j / unit_of (i + j) * (P i x * P j y))). rewrite <- sum_to_total. apply nsum_some. intros i I. rewrite <- sum_to_total. apply nsum_some. intros j J. rewrite H by lia.
  unfold ndiv. destruct (Req_EM_T (unit_of (i + j)) 0) as [Z0|_]; [exfalso; revert Z0; apply unit_nonzero; lia|]. unfold nmul, lift2. do 2 f_equal. rewrite !(legendre_unique P leg LP leg_legendre). reflexivity.
Qed.
Lemma legval_none : forall o c x y i j, (i <= o)%nat -> (j <= o)%nat -> c i j = None -> legval2d (S o) c x y = None.
Proof. intros o c x y i j I J H. unfold legval2d. apply nsum_none with i; [lia|]. apply nsum_none with j; [lia|]. rewrite H. reflexivity. Qed.

Lemma entry_x : forall o (l : list R) i j, List.length l = count_of o -> (i <= o)%nat -> (j <= o)%nat -> nth (i * S o + j) (firstn (S o * S o) (map Some l)) None = Some (nth (i * S o + j) l 0).
Proof.
  intros o l i j L I J. assert (B : (i * S o + j < S o * S o)%nat) by nia. rewrite <- (map_nth Some) . rewrite <- (firstn_skipn (S o * S o) (map Some l)) at 2. rewrite app_nth1 by (rewrite firstn_length, map_length, L; unfold count_of; lia).
  apply nth_indep. rewrite firstn_length, map_length, L. unfold count_of. lia.
Qed.
Lemma entry_y : forall o (l : list R) i j, List.length l = count_of o -> (i <= o)%nat -> (j <= o)%nat -> nth (i * S o + j) (skipn (S o * S o) (map Some l)) None = Some (nth (S o * S o + (i * S o + j)) l 0).
Proof.
  intros o l i j L I J. assert (B : (i * S o + j < S o * S o)%nat) by nia. rewrite <- (map_nth Some). rewrite <- (firstn_skipn (S o * S o) (map Some l)) at 2. rewrite app_nth2 by (rewrite firstn_length, map_length, L; unfold count_of; lia).
  rewrite firstn_length, map_length, L. replace (S o * S o + (i * S o + j) - Nat.min (S o * S o) (count_of o))%nat with (i * S o + j)%nat by (unfold count_of; lia). apply nth_indep. rewrite skipn_length, map_length, L. unfold count_of. lia.
Qed.
Lemma halves : forall o (l : list R), List.length l = count_of o -> List.length (firstn (S o * S o) (map Some l)) = (S o * S o)%nat /\ List.length (skipn (S o * S o) (map Some l)) = (S o * S o)%nat.
Proof. intros o l L. rewrite firstn_length, skipn_length, map_length, L. unfold count_of. lia. Qed.

Section Bend.
  Variable mapc : image -> num -> num -> num.

  (** Every pixel is read where its displacement tells. *)
  Theorem bend_ok : forall P im o l, legendre P -> (o <= 15)%nat -> List.length l = count_of o -> ny im = nx im ->
    exists im', bend mapc im (map Some l) (Z.of_nat o) = Ok im' /\ ny im' = ny im /\ nx im' = nx im /\
      forall i j, px im' i j = mapc im (Some (INR i - disp_y P o l (ny im) (INR j) (INR i))) (Some (INR j - disp_x P o l (ny im) (INR j) (INR i))).
  Proof using.
    intros P im o l LP O L SQ. unfold bend. destruct (Z.ltb_spec (Z.of_nat o) (-1)) as [H|_]; [lia|]. destruct (Z.eqb_spec (Z.of_nat o) (-1)) as [H|_]; [lia|].
    replace (Z.to_nat (Z.of_nat o + 1)) with (S o) by lia. destruct (halves o l L) as (H1 & H2).
    destruct (coeffs_ok (S o) _ H1) as (cx & -> & CX). cbn [bind]. destruct (coeffs_ok (S o) _ H2) as (cy & -> & CY). cbn [bind]. rewrite SQ, Nat.eqb_refl. cbn [negb]. eexists. split; [reflexivity|]. cbn [ny nx px]. split; [reflexivity|]. split; [reflexivity|].
    intros i j. rewrite Nat.max_id. fold (mid (nx im)).
    rewrite (legval_ok P o cx (fun i j => nth (i * S o + j) l 0)) by (try assumption; intros a b A B; rewrite CX, entry_x by assumption; reflexivity).
    rewrite (legval_ok P o cy (fun i j => nth (S o * S o + (i * S o + j)) l 0)) by (try assumption; intros a b A B; rewrite CY, entry_y by assumption; reflexivity).
    reflexivity.
  Qed.
  Theorem bend_refused : forall im cs o e, bend mapc im cs o = Raise e <->
    ((o < -1)%Z /\ e = ValueError) \/ (o = (-1)%Z /\ e = IndexError) \/ ((0 <= o)%Z /\ (List.length cs <> count_of (Z.to_nat o) \/ ny im <> nx im) /\ e = ValueError).
  Proof using.
    intros im cs o e. unfold bend. destruct (Z.ltb_spec o (-1)) as [H|H]. { split; [intros E; injection E as <-; left; auto|]. intros [(_ & ->)|[(K & _)|(K & _)]]; [reflexivity|lia|lia]. }
    destruct (Z.eqb_spec o (-1)) as [K|K]. { split; [intros E; injection E as <-; right; left; auto|]. intros [(Q & _)|[(_ & ->)|(Q & _)]]; [lia|reflexivity|lia]. }
    replace (Z.to_nat (o + 1)) with (S (Z.to_nat o)) by lia. set (k := S (Z.to_nat o)). assert (CO : count_of (Z.to_nat o) = (2 * (k * k))%nat) by reflexivity. rewrite CO. assert (KP : (0 < k * k)%nat) by (unfold k; lia).
    destruct (coeffs k (firstn (k * k) cs)) as [cx|e1] eqn:E1; cbn [bind].
    2:{ apply coeffs_refused in E1. destruct E1 as (E1 & ->). rewrite firstn_length in E1. split; [intros E; injection E as <-; right; right; split; [lia|]; split; [left; lia|reflexivity]|]. intros [(Q & _)|[(Q & _)|(_ & _ & ->)]]; [lia|lia|reflexivity]. }
    assert (L1 : List.length (firstn (k * k) cs) = (k * k)%nat). { destruct (Nat.eq_dec (List.length (firstn (k * k) cs)) (k * k)) as [|N]; [assumption|]. assert (R := conj N (eq_refl ValueError)). apply coeffs_refused in R. congruence. }
    rewrite firstn_length in L1.
    destruct (coeffs k (skipn (k * k) cs)) as [cy|e2] eqn:E2; cbn [bind].
    2:{ apply coeffs_refused in E2. destruct E2 as (E2 & ->). rewrite skipn_length in E2. split; [intros E; injection E as <-; right; right; split; [lia|]; split; [left; lia|reflexivity]|]. intros [(Q & _)|[(Q & _)|(_ & _ & ->)]]; [lia|lia|reflexivity]. }
    assert (L2 : List.length (skipn (k * k) cs) = (k * k)%nat). { destruct (Nat.eq_dec (List.length (skipn (k * k) cs)) (k * k)) as [|N]; [assumption|]. assert (R := conj N (eq_refl ValueError)). apply coeffs_refused in R. congruence. }
    rewrite skipn_length in L2. destruct (Nat.eqb_spec (ny im) (nx im)) as [S|S]; cbn [negb].
    - split; [discriminate|]. intros [(Q & _)|[(Q & _)|(_ & [Q|Q] & _)]]; [lia|lia|lia|contradiction].
    - split; [intros E; injection E as <-; right; right; split; [lia|]; split; [right; assumption|reflexivity]|]. intros [(Q & _)|[(Q & _)|(_ & _ & ->)]]; [lia|lia|reflexivity].
  Qed.
  (** From order sixteen on every pixel is read nowhere. *)
  Theorem high_order : forall im cs o, (16 <= o)%nat -> List.length cs = count_of o -> ny im = nx im ->
    exists im', bend mapc im cs (Z.of_nat o) = Ok im' /\ forall i j, px im' i j = mapc im None None.
  Proof using.
    intros im cs o O L SQ. unfold bend. destruct (Z.ltb_spec (Z.of_nat o) (-1)) as [H|_]; [lia|]. destruct (Z.eqb_spec (Z.of_nat o) (-1)) as [H|_]; [lia|].
    replace (Z.to_nat (Z.of_nat o + 1)) with (S o) by lia. assert (H1 : List.length (firstn (S o * S o) cs) = (S o * S o)%nat) by (rewrite firstn_length, L; unfold count_of; lia). assert (H2 : List.length (skipn (S o * S o) cs) = (S o * S o)%nat) by (rewrite skipn_length, L; unfold count_of; lia).
    destruct (coeffs_ok (S o) _ H1) as (cx & -> & CX). cbn [bind]. destruct (coeffs_ok (S o) _ H2) as (cy & -> & CY). cbn [bind]. rewrite SQ, Nat.eqb_refl. cbn [negb]. eexists. split; [reflexivity|]. cbn [px]. intros i j.
    assert (N : forall v : num, ndiv v (Some (unit_of (o + o))) = None) by (intros v; rewrite unit_zero by lia; destruct v; [|reflexivity]; unfold ndiv; destruct (Req_EM_T 0 0); [reflexivity|congruence]).
    rewrite !(legval_none o _ _ _ o o) by (try lia; first [rewrite CX|rewrite CY]; apply N). reflexivity.
  Qed.
End Bend.

(** Sums with one or two terms. *)
Lemma sum_two : forall m f, (forall i, (2 <= i < S (S m))%nat -> f i = 0) -> sum_to (S (S m)) f = f 0%nat + f 1%nat.
Proof. induction m as [|m IH]; intros f H; [cbn; lra|]. change (sum_to (S (S (S m))) f) with (sum_to (S (S m)) f + f (S (S m))). rewrite (IH f), (H (S (S m))) by (try lia; intros i I; apply H; lia). lra. Qed.
Lemma sum_one : forall m f, (forall i, (1 <= i < S m)%nat -> f i = 0) -> sum_to (S m) f = f 0%nat.
Proof. induction m as [|m IH]; intros f H; [cbn; lra|]. change (sum_to (S (S m)) f) with (sum_to (S m) f + f (S m)). rewrite (IH f), (H (S m)) by (try lia; intros i I; apply H; lia). lra. Qed.
Lemma sum_zero : forall m f, (forall i, (i < m)%nat -> f i = 0) -> sum_to m f = 0.
Proof. induction m as [|m IH]; intros f H; [reflexivity|]. cbn. rewrite IH, H by (try lia; intros i I; apply H; lia). lra. Qed.
Lemma nth_repeat0 : forall n k, nth k (repeat 0 n) 0 = 0.
Proof. induction n as [|n IH]; intros [|k]; cbn; auto. Qed.
Lemma shift_length : forall o a b, (1 <= o)%nat -> List.length (shift_coeffs o a b) = count_of o.
Proof. intros o a b O. unfold shift_coeffs. repeat (rewrite app_length; cbn [List.length]). rewrite !repeat_length. unfold count_of. nia. Qed.
Lemma shift_nth : forall o a b k, (1 <= o)%nat -> nth k (shift_coeffs o a b) 0 =
  if Nat.eqb k 0 then a else if Nat.eqb k (S o) then 500 else if Nat.eqb k (S o * S o) then b else if Nat.eqb k (S o * S o + 1) then 500 else 0.
Proof.
  intros o a b k O. unfold shift_coeffs. destruct k as [|k]; [reflexivity|]. change (Nat.eqb (S k) 0) with false. change (Nat.eqb (S k) (S o)) with (Nat.eqb k o). rewrite <- app_comm_cons. cbn [nth].
  assert (Q : (o + 2 <= S o * S o)%nat) by nia. set (q := (S o * S o)%nat) in *.
  destruct (lt_dec k o) as [K|K]. { rewrite app_nth1 by (rewrite repeat_length; assumption). rewrite nth_repeat0. destruct (Nat.eqb_spec k o); [lia|]. destruct (Nat.eqb_spec (S k) q); [lia|]. destruct (Nat.eqb_spec (S k) (q + 1)); [lia|]. reflexivity. }
  rewrite app_nth2 by (rewrite repeat_length; lia). rewrite repeat_length. destruct (Nat.eqb_spec k o) as [->|N]. { rewrite Nat.sub_diag. reflexivity. }
  rewrite app_nth2 by (cbn [List.length]; lia). cbn [List.length]. destruct (lt_dec (k - o - 1) (q - o - 2)) as [K2|K2]. { rewrite app_nth1 by (rewrite repeat_length; lia). rewrite nth_repeat0. destruct (Nat.eqb_spec (S k) q); [lia|]. destruct (Nat.eqb_spec (S k) (q + 1)); [lia|]. reflexivity. }
  rewrite app_nth2 by (rewrite repeat_length; lia). rewrite repeat_length. destruct (Nat.eqb_spec (S k) q) as [E|E]. { replace (k - o - 1 - (q - o - 2))%nat with 0%nat by lia. reflexivity. }
  destruct (Nat.eqb_spec (S k) (q + 1)) as [E2|E2]. { replace (k - o - 1 - (q - o - 2))%nat with 1%nat by lia. reflexivity. }
  rewrite app_nth2 by (cbn [List.length]; lia). apply nth_repeat0.
Qed.
Lemma shift_entry_x : forall o a b i j, (1 <= o)%nat -> (i <= o)%nat -> (j <= o)%nat ->
  nth (i * S o + j) (shift_coeffs o a b) 0 = if (Nat.eqb i 0 && Nat.eqb j 0)%bool then a else if (Nat.eqb i 1 && Nat.eqb j 0)%bool then 500 else 0.
Proof.
  intros o a b i j O I J. rewrite shift_nth by assumption. destruct (Nat.eqb_spec (i * S o + j) (S o * S o)); [nia|]. destruct (Nat.eqb_spec (i * S o + j) (S o * S o + 1)); [nia|].
  destruct i as [|[|i]]; cbn [Nat.eqb andb Nat.mul Nat.add].
  - destruct (Nat.eqb_spec j 0); [reflexivity|]. destruct (Nat.eqb_spec j (S o)); [lia|reflexivity].
  - rewrite Nat.add_0_r. destruct (Nat.eqb_spec j 0) as [->|N]; [rewrite Nat.add_0_r, Nat.eqb_refl; reflexivity|]. destruct (Nat.eqb_spec (o + j) o); [lia|reflexivity].
  - destruct (Nat.eqb_spec (o + S (o + i * S o) + j) o); [lia|reflexivity].
Qed.
Lemma shift_entry_y : forall o a b i j, (1 <= o)%nat -> (i <= o)%nat -> (j <= o)%nat ->
  nth (S o * S o + (i * S o + j)) (shift_coeffs o a b) 0 = if (Nat.eqb i 0 && Nat.eqb j 0)%bool then b else if (Nat.eqb i 0 && Nat.eqb j 1)%bool then 500 else 0.
Proof.
  intros o a b i j O I J. rewrite shift_nth by assumption. destruct (Nat.eqb_spec (S o * S o + (i * S o + j)) 0); [nia|]. destruct (Nat.eqb_spec (S o * S o + (i * S o + j)) (S o)); [nia|].
  destruct i as [|i]; cbn [Nat.eqb andb].
  - cbn [Nat.mul]. rewrite Nat.add_0_l. destruct (Nat.eqb_spec j 0) as [->|N]. { rewrite Nat.add_0_r. match goal with |- context [Nat.eqb ?u ?u] => rewrite (Nat.eqb_refl u) end. reflexivity. }
    match goal with |- context [Nat.eqb (?u + j) ?u] => destruct (Nat.eqb_spec (u + j) u); [lia|] end. match goal with |- context [Nat.eqb (?u + j) (?u + 1)] => destruct (Nat.eqb_spec (u + j) (u + 1)) end; destruct (Nat.eqb_spec j 1); try lia; reflexivity.
  - destruct (Nat.eqb_spec (S o * S o + (S i * S o + j)) (S o * S o)); [nia|]. destruct (Nat.eqb_spec (S o * S o + (S i * S o + j)) (S o * S o + 1)); [nia|reflexivity].
Qed.
Lemma warp_sum : forall P o c x y, warp P o c x y = sum_to (S o) (fun i => sum_to (S o) (fun j => c i j / unit_of (i + j) * (P i x * P j y))).
Proof. intros P o c x y. unfold warp. rewrite (total_prod (fun i j => c i j / unit_of (i + j) * (P i x * P j y))). rewrite sum_to_total. apply total_ext. intros i _. rewrite sum_to_total. reflexivity. Qed.
Lemma shift_warp : forall P o a b x y, legendre P -> (1 <= o)%nat -> warp_x P o (shift_coeffs o a b) x y = x + a /\ warp_y P o (shift_coeffs o a b) x y = y + b.
Proof.
  intros P o a b x y LP O. assert (U0 : unit_of 0 = 1) by (rewrite unit_small by lia; reflexivity). assert (U1 : unit_of 1 = 500) by (rewrite unit_small by lia; cbn; ring).
  destruct LP as (P0 & P1 & _). destruct o as [|o]; [lia|]. split.
  - unfold warp_x. rewrite warp_sum, sum_two.
    + rewrite !sum_one.
      * rewrite !shift_entry_x by lia. cbn [Nat.add Nat.eqb andb]. rewrite U0, U1, !P0, P1. field.
      * intros j J. rewrite shift_entry_x by lia. cbn [Nat.eqb andb]. destruct (Nat.eqb_spec j 0); [lia|]. unfold Rdiv. ring.
      * intros j J. rewrite shift_entry_x by lia. cbn [Nat.eqb andb]. destruct (Nat.eqb_spec j 0); [lia|]. unfold Rdiv. ring.
    + intros i I. apply sum_zero. intros j J. rewrite shift_entry_x by lia. destruct (Nat.eqb_spec i 0); [lia|]. destruct (Nat.eqb_spec i 1); [lia|]. cbn [andb]. unfold Rdiv. ring.
  - unfold warp_y. rewrite warp_sum, sum_one.
    + rewrite sum_two.
      * rewrite !shift_entry_y by lia. cbn [Nat.add Nat.eqb andb]. rewrite U0, U1, !P0, P1. field.
      * intros j J. rewrite shift_entry_y by lia. cbn [Nat.eqb andb]. destruct (Nat.eqb_spec j 0); [lia|]. destruct (Nat.eqb_spec j 1); [lia|]. unfold Rdiv. ring.
    + intros i I. apply sum_zero. intros j J. rewrite shift_entry_y by lia. destruct (Nat.eqb_spec i 0); [lia|]. cbn [andb]. unfold Rdiv. ring.
Qed.
Lemma shift_disp : forall P o a b n x y, legendre P -> (1 <= o)%nat -> disp_x P o (shift_coeffs o a b) n x y = a /\ disp_y P o (shift_coeffs o a b) n x y = b.
Proof. intros P o a b n x y LP O. unfold disp_x, disp_y. destruct (shift_warp P o a b (x - mid n) (y - mid n) LP O) as (-> & ->). split; ring. Qed.

Section Moves.
  Variable mapc : image -> num -> num -> num.
  Hypothesis MI : interpolates mapc.

  (** Pixel (i, j) gets the value of pixel (pi, pj) when the displacement at (i, j) is the way between them. *)
  Theorem bend_moves : forall P im v o l i j i' j', legendre P -> (o <= 15)%nat -> List.length l = count_of o -> ny im = nx im -> holds im v -> (i' < ny im)%nat -> (j' < nx im)%nat ->
    disp_y P o l (ny im) (INR j) (INR i) = INR i - INR i' -> disp_x P o l (ny im) (INR j) (INR i) = INR j - INR j' ->
    exists im', bend mapc im (map Some l) (Z.of_nat o) = Ok im' /\ px im' i j = Some (v i' j').
  Proof using MI.
    intros P im v o l i j i' j' LP O L SQ HV I J DY DX. destruct (bend_ok mapc P im o l LP O L SQ) as (im' & B & _ & _ & PX). exists im'. split; [assumption|]. rewrite PX, DY, DX.
    replace (INR i - (INR i - INR i')) with (INR i') by ring. replace (INR j - (INR j - INR j')) with (INR j') by ring. apply MI; assumption.
  Qed.
  Theorem shift_moves : forall im v o a b, (1 <= o <= 15)%nat -> ny im = nx im -> holds im v ->
    exists im', bend mapc im (map Some (shift_coeffs o (INR a) (INR b))) (Z.of_nat o) = Ok im' /\ ny im' = ny im /\ nx im' = nx im /\
      forall i j, (i + b < ny im)%nat -> (j + a < nx im)%nat -> px im' (i + b)%nat (j + a)%nat = Some (v i j).
  Proof using MI.
    intros im v o a b O SQ HV. destruct (bend_ok mapc leg im o (shift_coeffs o (INR a) (INR b)) leg_legendre (proj2 O) (shift_length o _ _ (proj1 O)) SQ) as (im' & B & N1 & N2 & PX). exists im'. split; [assumption|]. split; [assumption|]. split; [assumption|].
    intros i j I J. rewrite PX. destruct (shift_disp leg o (INR a) (INR b) (ny im) (INR (j + a)) (INR (i + b)) leg_legendre (proj1 O)) as (-> & ->). rewrite !plus_INR. replace (INR i + INR b - INR b) with (INR i) by ring. replace (INR j + INR a - INR a) with (INR j) by ring. apply MI; [assumption|lia|lia].
  Qed.
  Lemma default_shift : forall o, (1 <= o)%nat -> default_coeffs o = shift_coeffs o 0 0.
  Proof using. intros o O. unfold default_coeffs, shift_coeffs. rewrite !Nat.add_1_r. reflexivity. Qed.
  Theorem identity : forall im v o, (1 <= o <= 15)%nat -> ny im = nx im -> holds im v ->
    exists im', bend mapc im (map Some (default_coeffs o)) (Z.of_nat o) = Ok im' /\ ny im' = ny im /\ nx im' = nx im /\
      forall i j, (i < ny im)%nat -> (j < nx im)%nat -> px im' i j = Some (v i j).
  Proof using MI.
    intros im v o O SQ HV. rewrite default_shift by apply O. destruct (shift_moves im v o 0 0 O SQ HV) as (im' & B & N1 & N2 & PX). exists im'. change (INR 0) with 0 in *. repeat (split; [assumption|]). intros i j I J. specialize (PX i j). rewrite !Nat.add_0_r in PX. auto.
  Qed.
End Moves.
