(** The offset of two stars, and circular masks. *)
From Coq Require Import List Arith Bool Reals ZArith Lra Lia Psatz.
From Verif Require BpmProofs.
From Verif Require Import Base DqModel SpotModel SpotSpec SpotProofs BendModel BendSpec BendProofs BendFitProofs ShiftModel ShiftSpec.
Import ListNotations.
Local Open Scope R_scope.

Lemma trunc_pixel : forall g p, INR p <= g < INR p + 1 -> trunc g = Z.of_nat p.
Proof. intros g p H. apply trunc_iff. left. rewrite <- INR_IZR_INZ. split; [|assumption]. assert (K := pos_INR p). lra. Qed.
Lemma pixel_of : forall n g, 0 <= g < INR n -> exists p, (p < n)%nat /\ INR p <= g < INR p + 1.
Proof.
  induction n as [|n IH]; intros g (A & B); [cbn in B; lra|]. destruct (Rlt_dec g (INR n)) as [L|L]; [destruct (IH g (conj A L)) as (p & P & Q); exists p; split; [lia|assumption]|]. exists n. split; [lia|]. rewrite S_INR in B. lra.
Qed.
Lemma pixel_unique : forall g p q, INR p <= g < INR p + 1 -> INR q <= g < INR q + 1 -> p = q.
Proof. intros g p q P Q. apply trunc_pixel in P. apply trunc_pixel in Q. lia. Qed.
(** The window about a guess. *)
Theorem window_ok : forall n guess rad, (2 * rad + 1 <= n)%nat -> 0 <= guess < INR n -> exists lo, nearest_window n guess rad lo /\ window n guess rad = (Z.of_nat lo, Z.of_nat (lo + 2 * rad + 1)).
Proof.
  intros n guess rad N G. destruct (pixel_of n guess G) as (p & PN & P). unfold window. rewrite (trunc_pixel guess p P). unfold nearest_window.
  assert (K : forall lo : nat, ((rad <= p)%nat -> (p + rad < n)%nat -> (lo + rad = p)%nat) /\ ((p < rad)%nat -> lo = 0%nat) /\ ((rad <= p)%nat -> (n <= p + rad)%nat -> (lo + 2 * rad + 1 = n)%nat) -> (lo + 2 * rad + 1 <= n)%nat -> nearest_window n guess rad lo).
  { intros lo H L. split; [assumption|]. intros q Q. rewrite <- (pixel_unique guess p q P Q). assumption. }
  destruct (Z.ltb_spec (Z.of_nat p - Z.of_nat rad) 0).
  - destruct (Z.ltb_spec (Z.of_nat n) (2 * Z.of_nat rad + 1)); [lia|]. exists 0%nat. split; [apply K; lia|]. f_equal; lia.
  - destruct (Z.ltb_spec (Z.of_nat n) (Z.of_nat p + Z.of_nat rad + 1)).
    + exists (n - 2 * rad - 1)%nat. split; [apply K; lia|]. f_equal; lia.
    + exists (p - rad)%nat. split; [apply K; lia|]. f_equal; lia.
Qed.
Theorem window_unique : forall n guess rad a b, (2 * rad + 1 <= n)%nat -> 0 <= guess < INR n -> nearest_window n guess rad a -> nearest_window n guess rad b -> a = b.
Proof.
  intros n guess rad a b N G (A & HA) (B & HB). destruct (pixel_of n guess G) as (p & PN & P). specialize (HA p P). specialize (HB p P). destruct HA as (A1 & A2 & A3), HB as (B1 & B2 & B3). destruct (le_lt_dec rad p); [destruct (le_lt_dec n (p + rad)); [specialize (A3 l l0); specialize (B3 l l0); lia|specialize (A1 l l0); specialize (B1 l l0); lia]|]. rewrite A2, B2 by assumption. reflexivity.
Qed.
Theorem window_holds : forall n guess rad lo p, (2 * rad + 1 <= n)%nat -> nearest_window n guess rad lo -> (p < n)%nat -> INR p <= guess < INR p + 1 -> (lo <= p <= lo + 2 * rad)%nat.
Proof. intros n guess rad lo p N (A & H) PN P. destruct (H p P) as (H1 & H2 & H3). destruct (le_lt_dec rad p); [destruct (le_lt_dec n (p + rad)); [specialize (H3 l l0)|specialize (H1 l l0)]; lia|specialize (H2 l); lia]. Qed.

Lemma seq_from : forall a n, seq a n = map (fun i => (a + i)%nat) (seq 0 n).
Proof. intros a n. induction a as [|a IH]; [symmetry; apply map_id|]. rewrite <- seq_shift, IH, map_map. reflexivity. Qed.
Lemma total_shift : forall (f : nat -> R) a n, total (map f (seq a n)) = total (map (fun i => f (a + i)%nat) (seq 0 n)).
Proof. intros f a n. rewrite seq_from, map_map. reflexivity. Qed.
Lemma window_total : forall (f : nat -> nat -> R) r0 c0 rad, sum_to (2 * rad + 1) (fun i => sum_to (2 * rad + 1) (fun j => f (r0 + i)%nat (c0 + j)%nat)) = total (map (fun p => f (fst p) (snd p)) (window_pixels r0 c0 rad)).
Proof.
  intros f r0 c0 rad. unfold window_pixels. rewrite total_prod, total_shift, sum_to_total. apply total_ext. intros i _. rewrite sum_to_total. symmetry. apply (total_shift (f (r0 + i)%nat)).
Qed.
Lemma slice_window : forall im r0 c0 rad, (r0 + 2 * rad + 1 <= ny im)%nat -> (c0 + 2 * rad + 1 <= nx im)%nat ->
  slice im (Z.of_nat r0, Z.of_nat (r0 + 2 * rad + 1)) (Z.of_nat c0, Z.of_nat (c0 + 2 * rad + 1)) = mkimage (2 * rad + 1) (2 * rad + 1) (fun i j => px im (r0 + i)%nat (c0 + j)%nat).
Proof.
  intros im r0 c0 rad R C. unfold slice, slice_bound. cbn [fst snd]. repeat match goal with |- context [(?a <? 0)%Z] => destruct (Z.ltb_spec a 0); [lia|] end. rewrite !Z.min_l by lia. rewrite !Nat2Z.id. f_equal; lia.
Qed.
Lemma pixels_in : forall r0 c0 rad p, In p (window_pixels r0 c0 rad) <-> (r0 <= fst p <= r0 + 2 * rad)%nat /\ (c0 <= snd p <= c0 + 2 * rad)%nat.
Proof. intros r0 c0 rad (a & b). unfold window_pixels. rewrite in_prod_iff, !in_seq. cbn [fst snd]. lia. Qed.
(** The place found for the first star: the centre of light of the window. *)
Theorem place_ok : forall im v x y rad, (2 * rad + 1 <= ny im)%nat -> (2 * rad + 1 <= nx im)%nat -> 0 <= x < INR (nx im) -> 0 <= y < INR (ny im) -> shows im v ->
  exists r0 c0, nearest_window (ny im) y rad r0 /\ nearest_window (nx im) x rad c0 /\
    (light v (window_pixels r0 c0 rad) <> 0 -> star_place im x y rad = (Some (centre_x v (window_pixels r0 c0 rad)), Some (centre_y v (window_pixels r0 c0 rad)))) /\
    (light v (window_pixels r0 c0 rad) = 0 -> star_place im x y rad = (None, None)).
Proof.
  intros im v x y rad NY NX X Y S. destruct (window_ok (ny im) y rad NY Y) as (r0 & W & E). destruct (window_ok (nx im) x rad NX X) as (c0 & W' & E'). exists r0, c0. split; [assumption|]. split; [assumption|].
  assert (B := proj1 W). assert (B' := proj1 W'). set (ps := window_pixels r0 c0 rad).
  assert (SU : forall g : nat -> nat -> R, nsum_to (2 * rad + 1) (fun i => nsum_to (2 * rad + 1) (fun j => nmul (Some (g i j)) (px im (r0 + i)%nat (c0 + j)%nat))) = Some (sum_to (2 * rad + 1) (fun i => sum_to (2 * rad + 1) (fun j => g i j * v (r0 + i)%nat (c0 + j)%nat)))).
  { intros g. apply nsum_some. intros i I. apply nsum_some. intros j J. rewrite S by lia. reflexivity. }
  assert (AL : nsum_to (2 * rad + 1) (fun i => nsum_to (2 * rad + 1) (fun j => px im (r0 + i)%nat (c0 + j)%nat)) = Some (light v ps)).
  { unfold light, ps. rewrite <- (window_total v). apply nsum_some. intros i I. apply nsum_some. intros j J. apply S; lia. }
  unfold star_place. rewrite E, E', slice_window by assumption. unfold centroid. cbn [ny nx px fst snd]. rewrite AL, (SU (fun i j => INR j)), (SU (fun i j => INR i)).
  assert (CX : light v ps <> 0 -> sum_to (2 * rad + 1) (fun i => sum_to (2 * rad + 1) (fun j => INR j * v (r0 + i)%nat (c0 + j)%nat)) / light v ps + INR c0 = centre_x v ps).
  { intros L. unfold centre_x. replace (total (map (fun p => INR (snd p) * v (fst p) (snd p)) ps)) with (sum_to (2 * rad + 1) (fun i => sum_to (2 * rad + 1) (fun j => INR j * v (r0 + i)%nat (c0 + j)%nat)) + INR c0 * light v ps); [field; assumption|].
    unfold light, ps. rewrite <- (window_total v), <- (window_total (fun i j => INR j * v i j)). rewrite !sum_to_total, <- total_scale, <- total_plus. apply total_ext. intros i _. rewrite !sum_to_total, <- total_scale, <- total_plus. apply total_ext. intros j _. rewrite plus_INR. ring. }
  assert (CY : light v ps <> 0 -> sum_to (2 * rad + 1) (fun i => sum_to (2 * rad + 1) (fun j => INR i * v (r0 + i)%nat (c0 + j)%nat)) / light v ps + INR r0 = centre_y v ps).
  { intros L. unfold centre_y. replace (total (map (fun p => INR (fst p) * v (fst p) (snd p)) ps)) with (sum_to (2 * rad + 1) (fun i => sum_to (2 * rad + 1) (fun j => INR i * v (r0 + i)%nat (c0 + j)%nat)) + INR r0 * light v ps); [field; assumption|].
    unfold light, ps. rewrite <- (window_total v), <- (window_total (fun i j => INR i * v i j)). rewrite !sum_to_total, <- total_scale, <- total_plus. apply total_ext. intros i _. rewrite !sum_to_total, <- total_scale, <- total_plus. apply total_ext. intros j _. rewrite plus_INR. ring. }
  unfold ndiv. split; intros L; (destruct (Req_EM_T (light v ps) 0); [|]); try contradiction; try reflexivity.
  unfold nadd, lift2. rewrite <- !INR_IZR_INZ. rewrite CX, CY by assumption. reflexivity.
Qed.
Lemma total_le : forall {A} (f g : A -> R) l, (forall a, In a l -> f a <= g a) -> total (map f l) <= total (map g l).
Proof. intros A f g l. induction l as [|a l IH]; intros H; [apply Rle_refl|]. cbn [map]. change (total (f a :: map f l)) with (f a + total (map f l)). change (total (g a :: map g l)) with (g a + total (map g l)). assert (H1 := H a (or_introl eq_refl)). assert (H2 := IH (fun b I => H b (or_intror I))). lra. Qed.
(** Of light that is nowhere negative the centre is inside the window. *)
Theorem place_inside : forall v r0 c0 rad, (forall p, In p (window_pixels r0 c0 rad) -> 0 <= v (fst p) (snd p)) -> 0 < light v (window_pixels r0 c0 rad) ->
  INR c0 <= centre_x v (window_pixels r0 c0 rad) <= INR (c0 + 2 * rad) /\ INR r0 <= centre_y v (window_pixels r0 c0 rad) <= INR (r0 + 2 * rad).
Proof.
  intros v r0 c0 rad P L. set (ps := window_pixels r0 c0 rad) in *.
  assert (G : forall (w : nat * nat -> nat) a b, (forall p, In p ps -> (a <= w p <= b)%nat) -> INR a <= total (map (fun p => INR (w p) * v (fst p) (snd p)) ps) / light v ps <= INR b).
  { intros w a b H. assert (LO : INR a * light v ps <= total (map (fun p => INR (w p) * v (fst p) (snd p)) ps)). { unfold light. rewrite <- total_scale. apply total_le. intros p I. apply Rmult_le_compat_r; [auto|]. apply le_INR. apply H. assumption. }
    assert (HI : total (map (fun p => INR (w p) * v (fst p) (snd p)) ps) <= INR b * light v ps). { unfold light. rewrite <- total_scale. apply total_le. intros p I. apply Rmult_le_compat_r; [auto|]. apply le_INR. apply H. assumption. }
    split; (apply Rmult_le_reg_r with (light v ps); [assumption|]); unfold Rdiv; rewrite Rmult_assoc, Rinv_l, Rmult_1_r by lra; assumption. }
  split; unfold centre_x, centre_y; [apply (G snd)|apply (G fst)]; intros p I; apply pixels_in in I; lia.
Qed.
Lemma total_index : forall a n, total (map INR (seq a (2 * n + 1))) = INR (2 * n + 1) * INR (a + n).
Proof.
  intros a n. revert a. induction n as [|n IH]; intros a; [cbn; rewrite Nat.add_0_r; ring|]. replace (2 * S n + 1)%nat with (S (2 * n + 1 + 1)) by lia. cbn [seq map]. rewrite seq_app, map_app. change (total (INR a :: ?l)) with (INR a + total l). rewrite total_app, IH. cbn [seq map]. change (total [INR (S a + (2 * n + 1))]) with (INR (S a + (2 * n + 1)) + 0). repeat rewrite ?plus_INR, ?mult_INR, ?S_INR. cbn [INR]. ring.
Qed.
Lemma total_const : forall {A} (l : list A) c, total (map (fun _ => c) l) = INR (List.length l) * c.
Proof. intros A l c. induction l as [|a l IH]; [cbn; ring|]. cbn [map List.length]. change (total (c :: map (fun _ => c) l)) with (c + total (map (fun _ => c) l)). rewrite IH, S_INR. ring. Qed.
Lemma total_indicator : forall (f : nat * nat -> R) ps q, NoDup ps -> In q ps -> total (map (fun p => if (Nat.eqb (fst p) (fst q) && Nat.eqb (snd p) (snd q))%bool then f p else 0) ps) = f q.
Proof.
  intros f ps q N I. induction N as [|a l NI N IH]; [contradiction|]. cbn [map]. change (total (?x :: ?l)) with (x + total l). destruct I as [->|I].
  - rewrite !Nat.eqb_refl. cbn [andb]. replace (total (map _ l)) with 0; [ring|]. transitivity (total (map (fun _ : nat * nat => 0) l)); [symmetry; apply total_const0|]. apply total_ext. intros p P. destruct (Nat.eqb_spec (fst p) (fst q)); [|reflexivity]. destruct (Nat.eqb_spec (snd p) (snd q)); [|reflexivity]. exfalso. apply NI. replace q with p; [assumption|]. destruct p, q. cbn in *. congruence.
  - rewrite IH by assumption. destruct (Nat.eqb_spec (fst a) (fst q)); [|cbn [andb]; ring]. destruct (Nat.eqb_spec (snd a) (snd q)); [|cbn [andb]; ring]. exfalso. apply NI. replace a with q; [assumption|]. destruct a, q. cbn in *. congruence.
Qed.
Lemma pixels_nodup : forall r0 c0 rad, NoDup (window_pixels r0 c0 rad).
Proof. intros r0 c0 rad. apply BpmProofs.nodup_prod; apply seq_NoDup. Qed.
Lemma pixels_length : forall r0 c0 rad, List.length (window_pixels r0 c0 rad) = ((2 * rad + 1) * (2 * rad + 1))%nat.
Proof. intros r0 c0 rad. unfold window_pixels. rewrite prod_length, !seq_length. reflexivity. Qed.
(** A star of one pixel on an even background: the centre lies between the star and the middle of the window. *)
Theorem point_place : forall v A B r c r0 c0 rad, In (r, c) (window_pixels r0 c0 rad) -> (forall i j, In (i, j) (window_pixels r0 c0 rad) -> v i j = if (Nat.eqb i r && Nat.eqb j c)%bool then A + B else B) ->
  let N := INR ((2 * rad + 1) * (2 * rad + 1)) in A + N * B <> 0 ->
  light v (window_pixels r0 c0 rad) = A + N * B /\ centre_x v (window_pixels r0 c0 rad) = (A * INR c + N * B * INR (c0 + rad)) / (A + N * B) /\ centre_y v (window_pixels r0 c0 rad) = (A * INR r + N * B * INR (r0 + rad)) / (A + N * B).
Proof.
  intros v A B r c r0 c0 rad I H N NZ. set (ps := window_pixels r0 c0 rad) in *. assert (ND : NoDup ps) by apply pixels_nodup.
  assert (G : forall w : nat * nat -> R, total (map (fun p => w p * v (fst p) (snd p)) ps) = A * w (r, c) + B * total (map w ps)).
  { intros w. rewrite <- total_scale, <- (total_indicator (fun p => A * w p) ps (r, c) ND I), <- total_plus. apply total_ext. intros (i & j) P. cbn [fst snd]. rewrite (H i j P). destruct (Nat.eqb i r && Nat.eqb j c)%bool; ring. }
  assert (L : light v ps = A + N * B). { unfold light. rewrite (total_ext _ (fun p => 1 * v (fst p) (snd p))) by (intros; ring). rewrite (G (fun _ => 1)), total_const. unfold ps. rewrite pixels_length. fold N. ring. }
  assert (SX : total (map (fun p => INR (snd p)) ps) = N * INR (c0 + rad)). { unfold ps, window_pixels. rewrite (total_prod (fun _ j => INR j)). rewrite total_index, (total_const _ (INR (2 * rad + 1) * INR (c0 + rad))), seq_length. unfold N. rewrite mult_INR. ring. }
  assert (SY : total (map (fun p => INR (fst p)) ps) = N * INR (r0 + rad)). { unfold ps, window_pixels. rewrite (total_prod (fun i _ => INR i)). rewrite (total_ext _ (fun i => INR (2 * rad + 1) * INR i)) by (intros a _; rewrite (total_const _ (INR a)), seq_length; ring). rewrite total_scale, total_index. unfold N. rewrite mult_INR. ring. }
  split; [assumption|]. unfold centre_x, centre_y. rewrite L. split; f_equal.
  - rewrite (G (fun p => INR (snd p))), SX. cbn [snd]. ring.
  - rewrite (G (fun p => INR (fst p))), SY. cbn [fst]. ring.
Qed.
Lemma total_rev : forall l, total (rev l) = total l.
Proof. induction l as [|a l IH]; [reflexivity|]. cbn [rev]. rewrite total_app, IH. change (total (a :: l)) with (a + total l). change (total [a]) with (a + 0). ring. Qed.
Lemma seq_mirror : forall a n, map (fun i => (2 * a + n - i)%nat) (seq a (n + 1)) = rev (seq a (n + 1)).
Proof.
  intros a n. induction n as [|n IH] in a |- *; [cbn; f_equal; lia|]. replace (S n + 1)%nat with (S (n + 1)) by lia. rewrite (seq_S (n + 1) a) at 2. rewrite rev_app_distr. cbn [rev app]. change (seq a (S (n + 1))) with (a :: seq (S a) (n + 1)). cbn [map]. f_equal; [lia|].
  rewrite <- IH. rewrite <- seq_shift, map_map. apply map_ext. intros i. lia.
Qed.
Lemma mirror_total : forall (f : nat -> nat -> R) r0 c0 rad, total (map (fun p => f (2 * (r0 + rad) - fst p)%nat (2 * (c0 + rad) - snd p)%nat) (window_pixels r0 c0 rad)) = total (map (fun p => f (fst p) (snd p)) (window_pixels r0 c0 rad)).
Proof.
  intros f r0 c0 rad. unfold window_pixels. rewrite (total_prod (fun i j => f (2 * (r0 + rad) - i)%nat (2 * (c0 + rad) - j)%nat)), (total_prod f).
  assert (M : forall (g : nat -> R) a, total (map (fun i => g (2 * (a + rad) - i)%nat) (seq a (2 * rad + 1))) = total (map g (seq a (2 * rad + 1)))).
  { intros g a. rewrite <- (total_rev (map g _)), <- map_rev, <- seq_mirror, map_map. apply total_ext. intros i _. f_equal. lia. }
  rewrite <- (M (fun i => total (map (f i) (seq c0 (2 * rad + 1)))) r0). apply total_ext. intros i _. apply (M (f (2 * (r0 + rad) - i)%nat)).
Qed.
(** A star that is symmetric about the middle pixel of its window is found there, whatever its shape and background. *)
Theorem symmetric_place : forall v r0 c0 rad, light v (window_pixels r0 c0 rad) <> 0 -> (forall i j, In (i, j) (window_pixels r0 c0 rad) -> v (2 * (r0 + rad) - i)%nat (2 * (c0 + rad) - j)%nat = v i j) ->
  centre_x v (window_pixels r0 c0 rad) = INR (c0 + rad) /\ centre_y v (window_pixels r0 c0 rad) = INR (r0 + rad).
Proof.
  intros v r0 c0 rad L H. set (ps := window_pixels r0 c0 rad) in *.
  assert (G : forall (w : nat -> nat -> nat) m, (forall i j, In (i, j) ps -> (w (2 * (r0 + rad) - i) (2 * (c0 + rad) - j) + w i j = 2 * m)%nat) -> total (map (fun p => INR (w (fst p) (snd p)) * v (fst p) (snd p)) ps) / light v ps = INR m).
  { intros w m W. assert (E := mirror_total (fun i j => INR (w i j) * v i j) r0 c0 rad). fold ps in E. set (T := total (map (fun p => INR (w (fst p) (snd p)) * v (fst p) (snd p)) ps)) in *. assert (D : T + T = 2 * INR m * light v ps).
    { rewrite <- E at 1. unfold T, light. rewrite <- total_plus, <- total_scale. apply total_ext. intros (i & j) P. cbn [fst snd]. rewrite (H i j P), <- Rmult_plus_distr_r, <- plus_INR, (W i j P), mult_INR. reflexivity. }
    apply Rmult_eq_reg_r with (light v ps); [|assumption]. unfold Rdiv. rewrite Rmult_assoc, Rinv_l by assumption. lra. }
  split; [apply (G (fun i j => j))|apply (G (fun i j => i))]; intros i j P; apply pixels_in in P; cbn [fst snd] in P; lia.
Qed.

Lemma list_prod_nth : forall A B (l : list A) (l' : list B) i j a b, nth_error l i = Some a -> nth_error l' j = Some b -> nth_error (list_prod l l') (i * List.length l' + j) = Some (a, b).
Proof.
  intros A B l l'. induction l as [|x l IH]; intros i j a b Hi Hj; [destruct i; discriminate|]. assert (J : (j < List.length l')%nat) by (apply nth_error_Some; congruence). cbn [list_prod]. destruct i as [|i]; cbn [nth_error] in Hi.
  - injection Hi as ->. cbn [Nat.mul Nat.add]. rewrite nth_error_app1 by (rewrite map_length; assumption). rewrite nth_error_map, Hj. reflexivity.
  - rewrite nth_error_app2 by (rewrite map_length; lia). rewrite map_length. replace (S i * List.length l' + j - List.length l')%nat with (i * List.length l' + j)%nat by lia. apply IH; assumption.
Qed.
Lemma grid_square : forall n g, square_of n g (grid n g).
Proof.
  intros n g. unfold square_of, grid. split; [rewrite map_length, prod_length, !seq_length; reflexivity|]. intros i j I J. assert (Q : forall k, (k < n)%nat -> nth_error (seq 0 n) k = Some k) by (intros k K; rewrite (nth_error_nth' _ 0%nat) by (rewrite seq_length; assumption); rewrite seq_nth by assumption; reflexivity).
  rewrite nth_error_map. assert (E := list_prod_nth _ _ (seq 0 n) (seq 0 n) i j i j (Q i I) (Q j J)). rewrite seq_length in E. rewrite E. reflexivity.
Qed.
Lemma same_entries : forall A (l l' : list A), (forall k, nth_error l k = nth_error l' k) -> l = l'.
Proof. intros A l. induction l as [|a l IH]; intros [|b l'] H; [reflexivity|discriminate (H 0%nat)|discriminate (H 0%nat)|]. assert (E := H 0%nat). injection E as ->. f_equal. apply IH. intros k. exact (H (S k)). Qed.
Lemma square_unique : forall n g l l', square_of n g l -> square_of n g l' -> l = l'.
Proof.
  intros n g l l' (L & H) (L' & H'). apply same_entries. intros k. destruct (le_lt_dec (n * n) k) as [K|K]; [rewrite (proj2 (nth_error_None l k)), (proj2 (nth_error_None l' k)) by lia; reflexivity|].
  assert (N : n <> 0%nat) by (intros ->; lia). rewrite (Nat.div_mod k n N). assert (k mod n < n)%nat by (apply Nat.mod_upper_bound; assumption). assert (k / n < n)%nat by (apply Nat.div_lt_upper_bound; assumption). rewrite (Nat.mul_comm n). rewrite H, H' by assumption. reflexivity.
Qed.

Section Shift.
  Variable mapc : image -> num -> num -> num.
  Variable fit : (R -> R -> R -> list num) -> list num -> R * R * R -> result ((R * R * R) * (num * num * num)).

  (** What is fitted to what, and what is returned of it. *)
  Theorem offset_ok : forall im x y ox oy gf rad s off errs, measure_offset mapc fit im x y ox oy gf rad s = Ok (off, errs) ->
    exists st (template : R -> R -> R -> list num) data tx ty tf vx vy vf, let p := star_place im x y rad in
      stamp_of mapc im s (fst p) (snd p) st /\
      (forall dx dy a, exists lit, scaled a st lit /\ square_of 10 (fun i j => mapc lit (Some (INR i + dy)) (Some (INR j + dx))) (template dx dy a)) /\
      square_of s (fun i j => mapc im (nadd (Some (INR i - INR (s / 2))) (nadd (snd p) (Some oy))) (nadd (Some (INR j - INR (s / 2))) (nadd (fst p) (Some ox)))) data /\
      fit template data (0, 0, gf) = Ok ((tx, ty, tf), (vx, vy, vf)) /\ off = (ox - tx, oy - ty) /\ errs = (nsqrt vx, nsqrt vy, nsqrt vf).
  Proof using.
    intros im x y ox oy gf rad s off errs. unfold measure_offset. destruct (fit _ _ _) as [(((tx & ty) & tf) & ((vx & vy) & vf))|e] eqn:E; cbn [bind]; [|discriminate]. intros Q. apply f_equal with (f := fun r => match r with Ok a => a | Raise _ => (off, errs) end) in Q. cbv iota in Q. apply pair_equal_spec in Q. destruct Q as (<- & <-).
    set (st := mkimage s s (around mapc im (fst (star_place im x y rad)) (snd (star_place im x y rad)) s)) in *. exists st. eexists _, _, tx, ty, tf, vx, vy, vf. cbv zeta. split; [|split; [|split; [|split; [exact E|split; reflexivity]]]].
    - split; [reflexivity|]. split; [reflexivity|]. intros i j I J. reflexivity.
    - intros dx dy a. exists (mkimage (ny st) (nx st) (fun i j => nmul (px st i j) (Some a))). split; [split; [reflexivity|]; split; [reflexivity|]; intros i j; reflexivity|]. unfold shift_psf. assert (G := grid_square 10). change (10 / 2)%nat with 5%nat.
      match goal with |- square_of 10 ?g (grid 10 ?h) => assert (X : forall i j, h i j = g i j) end. { intros i j. f_equal; f_equal; ring. }
      match goal with |- square_of 10 ?g (grid 10 ?h) => destruct (G h) as (L & H); split; [assumption|intros i j I J; rewrite (H i j I J), X; reflexivity] end.
    - apply grid_square.
  Qed.
  Theorem offset_refused : forall im x y ox oy gf rad s e, measure_offset mapc fit im x y ox oy gf rad s = Raise e ->
    exists template data, fit template data (0, 0, gf) = Raise e /\ square_of s (fun i j => mapc im (nadd (Some (INR i - INR (s / 2))) (nadd (snd (star_place im x y rad)) (Some oy))) (nadd (Some (INR j - INR (s / 2))) (nadd (fst (star_place im x y rad)) (Some ox)))) data.
  Proof using.
    intros im x y ox oy gf rad s e. unfold measure_offset. destruct (fit _ _ _) as [(((tx & ty) & tf) & ((vx & vy) & vf))|e'] eqn:E; cbn [bind]; [discriminate|]. intros Q. injection Q as ->. eexists _, _. split; [exact E|apply grid_square].
  Qed.
  (** A second star that is the first one, shifted and scaled: the shift is measured, whatever was guessed and wherever the first star is taken to be, by a fit that finds a template that is right. *)
  Theorem offset_exact : forall im x y ox oy gf rad xs ys F Dx Dy a d,
    star_place im x y rad = (Some xs, Some ys) -> (forall u v, mapc im (Some u) (Some v) = Some (F u v)) ->
    (forall i j, (i < 10)%nat -> (j < 10)%nat -> F (ys + oy + (INR i - 5)) (xs + ox + (INR j - 5)) = a * F (ys + (oy - Dy) + (INR i - 5)) (xs + (ox - Dx) + (INR j - 5))) ->
    (forall st lit, stamp_of mapc im 10 (Some xs) (Some ys) st -> scaled a st lit -> forall i j, (i < 10)%nat -> (j < 10)%nat -> mapc lit (Some (INR i + (oy - Dy))) (Some (INR j + (ox - Dx))) = Some (a * F (ys + (oy - Dy) + (INR i - 5)) (xs + (ox - Dx) + (INR j - 5)))) ->
    (forall template data, template (ox - Dx) (oy - Dy) a = data -> fit template data (0, 0, gf) = Ok ((ox - Dx, oy - Dy, a), d)) ->
    exists errs, measure_offset mapc fit im x y ox oy gf rad 10 = Ok ((Dx, Dy), errs).
  Proof using.
    intros im x y ox oy gf rad xs ys F Dx Dy a ((vx & vy) & vf) P M C T FI. unfold measure_offset. rewrite P. cbn [fst snd].
    set (st := mkimage 10 10 (around mapc im (Some xs) (Some ys) 10)). assert (ST : stamp_of mapc im 10 (Some xs) (Some ys) st) by (split; [reflexivity|]; split; [reflexivity|]; intros i j _ _; reflexivity).
    set (data := grid 10 (around mapc im (nadd (Some xs) (Some ox)) (nadd (Some ys) (Some oy)) 10)).
    assert (Q : shift_psf mapc st (ox - Dx) (oy - Dy) a 10 10 = data).
    { apply (square_unique 10 (fun i j => Some (F (ys + oy + (INR i - 5)) (xs + ox + (INR j - 5))))).
      - destruct (grid_square 10 (fun i j => mapc (mkimage (ny st) (nx st) (fun i j => nmul (px st i j) (Some a))) (Some (INR i - INR (10 / 2) + (INR (10 / 2) + (oy - Dy)))) (Some (INR j - INR (10 / 2) + (INR (10 / 2) + (ox - Dx)))))) as (L & H). split; [exact L|]. intros i j I J. unfold shift_psf. rewrite (H i j I J). f_equal. rewrite C by assumption. assert (SC : scaled a st (mkimage (ny st) (nx st) (fun i j => nmul (px st i j) (Some a)))) by (split; [reflexivity|]; split; [reflexivity|]; intros; reflexivity). rewrite <- (T st _ ST SC i j) by assumption. f_equal; f_equal; ring.
      - destruct (grid_square 10 (around mapc im (nadd (Some xs) (Some ox)) (nadd (Some ys) (Some oy)) 10)) as (L & H). split; [exact L|]. intros i j I J. unfold data. rewrite (H i j I J). f_equal. unfold around, nadd, lift2. rewrite M. change (10 / 2)%nat with 5%nat. f_equal. replace (INR 5) with 5 by (cbn; ring). f_equal; ring. }
    rewrite (FI (fun dx dy flux => shift_psf mapc st dx dy flux 10 10) data Q). cbn [bind]. eexists. f_equal. f_equal. f_equal; ring.
  Qed.
End Shift.

Lemma mask_iff : forall cx cy r i j, rle (sqrt ((INR j - cx) ^ 2 + (INR i - cy) ^ 2)) r = true <-> inside cx cy r i j.
Proof. intros cx cy r i j. unfold rle, inside. assert (K := disc_iff r (INR j - cx) (INR i - cy)). unfold in_disc in K. destruct (Rle_dec _ r); split; intros H; try reflexivity; try discriminate; [apply K; assumption|exfalso; apply n; apply K; assumption]. Qed.
(** A mask about a given centre of a given radius. *)
Theorem mask_given : forall ny nx cx cy r i j, create_circular_mask ny nx (Some (cx, cy)) (Some r) i j = true <-> inside cx cy r i j.
Proof. intros. apply mask_iff. Qed.
(** The default mask of a square array: the widest disc in it. *)
Theorem mask_square : forall n i j, (0 < n)%nat -> (create_circular_mask n n None None i j = true <-> inside ((INR n - 1) / 2) ((INR n - 1) / 2) ((INR n - 1) / 2) i j).
Proof.
  intros n i j N. unfold create_circular_mask, mask_radius, mask_center. cbn [fst snd]. rewrite (Rmin_left ((INR n - 1) / 2) ((INR n - 1) / 2)) by lra. assert (1 <= INR n) by (apply (le_INR 1); lia). rewrite (Rmin_left ((INR n - 1) / 2)) by lra. rewrite Rmin_left by lra. apply mask_iff.
Qed.
Theorem mask_turns : forall n i j, (i < n)%nat -> (j < n)%nat -> create_circular_mask n n None None i j = create_circular_mask n n None None j i /\ create_circular_mask n n None None i j = create_circular_mask n n None None (n - 1 - i) j.
Proof.
  intros n i j I J. assert (B : forall a b, (a = true <-> b = true) -> a = b) by (intros [] []; intros (U & V); try reflexivity; [symmetry; apply U|apply V]; reflexivity).
  split; apply B; rewrite !mask_square by lia; unfold inside; [split; intros (U & V); split; lra|]. replace (INR (n - 1 - i)) with (INR n - 1 - INR i) by (rewrite !minus_INR by lia; reflexivity).
  replace ((INR n - 1 - INR i - (INR n - 1) / 2) * (INR n - 1 - INR i - (INR n - 1) / 2)) with ((INR i - (INR n - 1) / 2) * (INR i - (INR n - 1) / 2)) by field. reflexivity.
Qed.
(** The middle of an array that is not square is taken with its coordinates exchanged. *)
Theorem mask_default : forall ny nx i j r, create_circular_mask ny nx None (Some r) i j = true <-> inside ((INR ny - 1) / 2) ((INR nx - 1) / 2) r i j.
Proof. intros. apply mask_iff. Qed.
(** A centre without a radius: the column is measured against the number of rows. *)
Theorem mask_walls : forall ny nx cx cy i j, create_circular_mask ny nx (Some (cx, cy)) None i j = true <-> exists r, least [cx; cy; INR ny - cx; INR nx - cy] r /\ inside cx cy r i j.
Proof.
  intros ny nx cx cy i j. assert (M : forall a b, (Rmin a b = a \/ Rmin a b = b) /\ Rmin a b <= a /\ Rmin a b <= b) by (intros a b; split; [unfold Rmin; destruct (Rle_dec a b); auto|split; [apply Rmin_l|apply Rmin_r]]).
  unfold create_circular_mask, mask_radius, mask_center. cbn [fst snd]. set (r := Rmin (Rmin (Rmin cx cy) (INR ny - cx)) (INR nx - cy)).
  assert (L : least [cx; cy; INR ny - cx; INR nx - cy] r).
  { destruct (M (Rmin (Rmin cx cy) (INR ny - cx)) (INR nx - cy)) as (A & B & C), (M (Rmin cx cy) (INR ny - cx)) as (D & E & F), (M cx cy) as (G & H & K). fold r in A, B, C. split.
    - destruct A as [->| ->]; [|right; right; right; left; reflexivity]. destruct D as [->| ->]; [|right; right; left; reflexivity]. destruct G as [->| ->]; [left; reflexivity|right; left; reflexivity].
    - intros x [<-|[<-|[<-|[<-|[]]]]]; lra. }
  clearbody r. split; [intros E; exists r; split; [assumption|]; apply mask_iff in E; exact E|]. intros (r' & (I & L') & E). assert (r' = r) by (destruct L as (I0 & L0); specialize (L0 r' I); specialize (L' r I0); lra). subst. apply mask_iff. exact E.
Qed.
Theorem oblong_refuted : exists ny nx, (0 < ny)%nat /\ (0 < nx)%nat /\ forall i j, (i < ny)%nat -> (j < nx)%nat -> create_circular_mask ny nx None None i j = false.
Proof.
  exists 3%nat, 9%nat. split; [lia|]. split; [lia|]. intros i j I J. destruct (create_circular_mask 3 9 None None i j) eqn:E; [|reflexivity]. exfalso. unfold create_circular_mask in E. apply mask_iff in E. unfold mask_radius, mask_center in E. cbn [fst snd] in E. replace (INR 3) with 3 in E by (cbn; ring). replace (INR 9) with 9 in E by (cbn; ring).
  rewrite (Rmin_left ((3 - 1) / 2) ((9 - 1) / 2)) in E by lra. rewrite (Rmin_left ((3 - 1) / 2) (3 - (3 - 1) / 2)) in E by lra. rewrite Rmin_left in E by lra. destruct E as (_ & E). assert (K : INR i <= 2) by (replace 2 with (INR 2) by (cbn; ring); apply le_INR; lia). assert (K0 := pos_INR i). assert (H1 := Rle_0_sqr (INR j - (3 - 1) / 2)). unfold Rsqr in H1. assert (H2 : 4 <= (INR i - (9 - 1) / 2) * (INR i - (9 - 1) / 2)) by (replace ((9 - 1) / 2) with 4 by field; nra). replace ((3 - 1) / 2 * ((3 - 1) / 2)) with 1 in E by field. lra.
Qed.
(** A frame shorter than the window: the slice begins from the end, and the star is put where it is not. *)
Definition one_pixel : image := mkimage 8 8 (fun i j => if (Nat.eqb i 6 && Nat.eqb j 6)%bool then Some 1 else Some 0).
Theorem small_refuted : star_place one_pixel 6 6 5 = (Some (-2), Some (-2)).
Proof.
  assert (T : trunc 6 = 6%Z) by (apply (trunc_pixel 6 6); cbn; lra). assert (W : window 8 6 5 = (-3, 8)%Z) by (unfold window; rewrite T; reflexivity).
  unfold star_place. cbn [ny nx one_pixel]. rewrite W. assert (S : slice one_pixel (-3, 8)%Z (-3, 8)%Z = mkimage 3 3 (fun i j => px one_pixel (5 + i)%nat (5 + j)%nat)) by reflexivity. rewrite S. cbn [fst snd].
  unfold centroid. cbn [ny nx nsum_to px]. cbn [one_pixel px Nat.add Nat.eqb andb]. unfold nadd, nmul, lift2, ndiv. cbn [fst snd]. destruct (Req_EM_T _ 0); [exfalso; lra|]. cbn [INR]. f_equal; f_equal; field.
Qed.
(** On a background the star is not found where it is, unless the guess was in its very pixel. *)
Definition on_background : image := mkimage 20 20 (fun i j => if (Nat.eqb i 10 && Nat.eqb j 10)%bool then Some 101 else Some 1).
Theorem background_refuted : exists xs, star_place on_background 8 10 5 = (Some xs, Some 10) /\ xs < 9.
Proof.
  destruct (place_ok on_background (fun i j => if (Nat.eqb i 10 && Nat.eqb j 10)%bool then 101 else 1) 8 10 5) as (r0 & c0 & WR & WC & PL & _).
  { cbn [ny on_background]. lia. } { cbn [nx on_background]. lia. } { cbn [nx on_background]. rewrite INR_IZR_INZ. cbn. lra. } { cbn [ny on_background]. rewrite INR_IZR_INZ. cbn. lra. } { intros i j _ _. cbn [px on_background]. destruct (_ && _)%bool; reflexivity. }
  assert (r0 = 5%nat). { destruct WR as (_ & H). destruct (H 10%nat) as (H1 & _); [cbn; lra|]. cbn [ny on_background] in H1. specialize (H1 ltac:(lia) ltac:(lia)). lia. }
  assert (c0 = 3%nat). { destruct WC as (_ & H'). destruct (H' 8%nat) as (H1 & _); [cbn; lra|]. cbn [nx on_background] in H1. specialize (H1 ltac:(lia) ltac:(lia)). lia. } subst.
  destruct (point_place (fun i j => if (Nat.eqb i 10 && Nat.eqb j 10)%bool then 101 else 1) 100 1 10 10 5 3 5) as (L & CX & CY).
  { apply pixels_in. cbn. lia. } { intros i j _. destruct (_ && _)%bool; lra. } { cbn [Nat.mul Nat.add]. assert (0 < INR 121) by (apply lt_0_INR; lia). lra. }
  assert (E121 : INR ((2 * 5 + 1) * (2 * 5 + 1)) = 121) by (rewrite INR_IZR_INZ; reflexivity). rewrite E121 in L, CX, CY. rewrite PL by (rewrite L; lra). rewrite CX, CY. replace (INR 10) with 10 by (rewrite INR_IZR_INZ; reflexivity). replace (INR (3 + 5)) with 8 by (rewrite INR_IZR_INZ; reflexivity). replace (INR (5 + 5)) with 10 by (rewrite INR_IZR_INZ; reflexivity).
  eexists. split; [f_equal; f_equal; field|]. lra.
Qed.
(** Two stars of one pixel, read by the nearest lower pixel. *)
Definition twins : image := mkimage 30 30 (fun i j => if (Nat.eqb i 10 && Nat.eqb j 10)%bool then Some 1 else if (Nat.eqb i 10 && Nat.eqb j 20)%bool then Some 3 else Some 0).
Definition twin (i j : nat) : R := if (Nat.eqb i 10 && Nat.eqb j 10)%bool then 1 else if (Nat.eqb i 10 && Nat.eqb j 20)%bool then 3 else 0.
Definition lower (im : image) (y x : num) : num := match y, x with Some y, Some x => px im (Z.to_nat (trunc y)) (Z.to_nat (trunc x)) | _, _ => None end.
Definition knows (a b c : R) (f : R -> R -> R -> list num) (data : list num) (p : R * R * R) : result ((R * R * R) * (num * num * num)) := Ok ((a, b, c), (Some 0, Some 0, Some 0)).
Lemma trunc_nat : forall r p, r = INR p -> Z.to_nat (trunc r) = p.
Proof. intros r p ->. rewrite (trunc_pixel (INR p) p) by lra. apply Nat2Z.id. Qed.
Theorem twins_ok : exists errs, measure_offset lower (knows (10 - 10) (0 - 0) 3) twins 10 10 10 0 1 5 10 = Ok ((10, 0), errs).
Proof.
  assert (I10 : INR 10 = 10) by (rewrite INR_IZR_INZ; reflexivity). assert (I5 : INR 5 = 5) by (rewrite INR_IZR_INZ; reflexivity). assert (I20 : INR 30 = 30) by (rewrite INR_IZR_INZ; reflexivity). assert (SH : forall i j, px twins i j = Some (twin i j)) by (intros i j; unfold twin; cbn [px twins]; repeat destruct (_ && _)%bool; reflexivity).
  apply (offset_exact lower _ twins 10 10 10 0 1 5 10 10 (fun u v => twin (Z.to_nat (trunc u)) (Z.to_nat (trunc v))) 10 0 3 (Some 0, Some 0, Some 0)).
  - destruct (place_ok twins twin 10 10 5) as (r0 & c0 & WR & WC & PL & _). { cbn [ny twins]. lia. } { cbn [nx twins]. lia. } { cbn [nx twins]. lra. } { cbn [ny twins]. lra. } { intros i j _ _. apply SH. }
    assert (N : forall lo, nearest_window 30 10 5 lo -> lo = 5%nat) by (intros lo (_ & H); destruct (H 10%nat) as (H1 & _); [lra|]; specialize (H1 ltac:(lia) ltac:(lia)); lia). apply N in WR. apply N in WC. subst.
    destruct (point_place twin 1 0 10 10 5 5 5) as (L & CX & CY). { apply pixels_in. cbn. lia. } { intros i j P. apply pixels_in in P. cbn [fst snd] in P. unfold twin. destruct (Nat.eqb i 10 && Nat.eqb j 10)%bool; [ring|]. destruct (Nat.eqb_spec j 20); [lia|]. rewrite andb_false_r. reflexivity. } { rewrite Rmult_0_r. lra. }
    rewrite Rmult_0_r in *. rewrite PL by (rewrite L; lra). rewrite CX, CY, I10. f_equal; f_equal; field.
  - intros u v. unfold lower. apply SH.
  - intros i j I J. cbn beta. rewrite (trunc_nat (10 + 0 + (INR i - 5)) (5 + i)), (trunc_nat (10 + 10 + (INR j - 5)) (15 + j)), (trunc_nat (10 + (0 - 0) + (INR i - 5)) (5 + i)), (trunc_nat (10 + (10 - 10) + (INR j - 5)) (5 + j)) by (rewrite plus_INR, ?I5; try (replace (INR 15) with 15 by (rewrite INR_IZR_INZ; reflexivity)); ring).
    unfold twin. destruct (Nat.eqb_spec (5 + i) 10); cbn [andb]; [|ring]. destruct (Nat.eqb_spec (15 + j) 10); [lia|]. destruct (Nat.eqb_spec (15 + j) 20), (Nat.eqb_spec (5 + j) 10); try lia; [ring|]. destruct (Nat.eqb_spec (5 + j) 20); [lia|ring].
  - intros st lit (_ & _ & ST) (_ & _ & SC) i j I J. unfold lower. rewrite (trunc_nat (INR i + (0 - 0)) i), (trunc_nat (INR j + (10 - 10)) j) by ring. rewrite SC, ST by assumption. unfold nadd, lift2, lower. rewrite SH. unfold nmul, lift2. change (10 / 2)%nat with 5%nat. rewrite I5. f_equal. rewrite Rmult_comm. f_equal. f_equal; f_equal; f_equal; ring.
  - intros template data _. reflexivity.
Qed.
