(** The mask of a disc is the part of each pixel it covers; the light through the masks of the spots. *)
From Coq Require Import List Arith Bool Reals ZArith Lra Lia Psatz.
From Verif Require Import Base DqModel SpotModel SpotSpec.
Import ListNotations.
Local Open Scope R_scope.

Lemma total_app : forall a b, total (a ++ b) = total a + total b.
Proof. unfold total. induction a as [|x a IH]; intros b; cbn; [lra|]. rewrite IH. lra. Qed.
Lemma total_const0 : forall {A} (l : list A), total (map (fun _ => 0) l) = 0.
Proof. unfold total. induction l as [|a l IH]; cbn; [reflexivity|]. rewrite IH. lra. Qed.
Lemma total_plus : forall {A} (f g : A -> R) l, total (map (fun a => f a + g a) l) = total (map f l) + total (map g l).
Proof. unfold total. induction l as [|a l IH]; cbn; [lra|]. rewrite IH. lra. Qed.
Lemma total_scale : forall {A} c (f : A -> R) l, total (map (fun a => c * f a) l) = c * total (map f l).
Proof. unfold total. induction l as [|a l IH]; cbn; [lra|]. rewrite IH. lra. Qed.
Lemma total_ext : forall {A} (f g : A -> R) l, (forall a, In a l -> f a = g a) -> total (map f l) = total (map g l).
Proof. intros A f g l H. f_equal. apply map_ext_in. exact H. Qed.
Lemma total_prod : forall {A B} (f : A -> B -> R) l l', total (map (fun p => f (fst p) (snd p)) (list_prod l l')) = total (map (fun a => total (map (f a) l')) l).
Proof.
  intros A B f l l'. induction l as [|a l IH]; [reflexivity|]. cbn [list_prod map]. rewrite map_app, total_app, IH, map_map. cbn [fst snd]. reflexivity.
Qed.
Lemma sum_to_total : forall n f, sum_to n f = total (map f (seq 0 n)).
Proof.
  induction n as [|n IH]; intros f; [reflexivity|]. rewrite seq_S, map_app, total_app. cbn [sum_to map plus]. rewrite IH. unfold total at 3. cbn. lra.
Qed.
Lemma sum_to_ext : forall n f g, (forall k, (k < n)%nat -> f k = g k) -> sum_to n f = sum_to n g.
Proof. induction n as [|n IH]; intros f g H; [reflexivity|]. cbn. rewrite (IH f g) by (intros; apply H; lia). rewrite H by lia. reflexivity. Qed.
Lemma nsum_some : forall n f g, (forall k, (k < n)%nat -> f k = Some (g k)) -> nsum_to n f = Some (sum_to n g).
Proof. induction n as [|n IH]; intros f g H; [reflexivity|]. cbn [nsum_to sum_to]. rewrite (IH f g) by (intros; apply H; lia). rewrite H by lia. reflexivity. Qed.
Lemma nsum_none : forall n f k, (k < n)%nat -> f k = None -> nsum_to n f = None.
Proof.
  induction n as [|n IH]; intros f k L H; [lia|]. cbn [nsum_to]. destruct (Nat.eq_dec k n) as [->|N].
  - rewrite H. unfold nadd, lift2. destruct (nsum_to n f); reflexivity.
  - rewrite (IH f k) by (try lia; assumption). reflexivity.
Qed.
Lemma filter_total : forall {A} (p : A -> bool) l, INR (length (filter p l)) = total (map (fun a => if p a then 1 else 0) l).
Proof.
  intros A p l. induction l as [|a l IH]; [reflexivity|]. cbn [filter map]. unfold total in *. cbn [fold_right]. destruct (p a); [cbn [length]; rewrite S_INR, IH; lra|rewrite IH; lra].
Qed.

Lemma half_INR : forall n, INR n = if Nat.even n then 2 * INR (n / 2) else 2 * INR (n / 2) + 1.
Proof.
  intros n. pose proof (Nat.div_mod n 2 ltac:(lia)) as E. destruct (Nat.even n) eqn:V.
  - apply Nat.even_spec in V. destruct V as (k & ->). replace (2 * k / 2)%nat with k by (symmetry; rewrite Nat.mul_comm; apply Nat.div_mul; lia). rewrite mult_INR. reflexivity.
  - assert (O : Nat.odd n = true) by (rewrite <- Nat.negb_even, V; reflexivity). apply Nat.odd_spec in O. destruct O as (k & ->).
    replace ((2 * k + 1) / 2)%nat with k by (apply (Nat.div_unique _ 2 k 1); lia). rewrite plus_INR, mult_INR. reflexivity.
Qed.
Lemma coord_eq : forall n s i, (i < n)%nat -> coord n s i = INR i - INR (n / 2) - s.
Proof.
  intros n s i L. pose proof (half_INR n) as E. unfold coord, linspace. destruct (Nat.eq_dec n 1) as [->|N].
  - assert (i = 0%nat) by lia. subst i. cbn. lra.
  - assert (1 < INR n) by (change 1 with (INR 1); apply lt_INR; lia).
    destruct (Nat.even n).
    + replace ((INR n / 2 - 1 - - INR n / 2) / (INR n - 1)) with 1 by (field; lra). lra.
    + replace (((INR n - 1) / 2 - - (INR n - 1) / 2) / (INR n - 1)) with 1 by (field; lra). lra.
Qed.
Lemma sub_eq : forall n k, (k < n)%nat -> sub_coord n k = sub_pos n k.
Proof.
  intros n k L. unfold sub_coord, sub_pos, linspace. destruct (Nat.eqb_spec n 1) as [->|N].
  - assert (k = 0%nat) by lia. subst k. cbn. field.
  - assert (1 < INR n) by (change 1 with (INR 1); apply lt_INR; lia).
    replace (((INR n - 1) / 2 - - (INR n - 1) / 2) / (INR n - 1)) with 1 by (field; lra). field. lra.
Qed.
Lemma sub_small : forall n k, (k < n)%nat -> - (1 / 2) <= sub_pos n k <= 1 / 2.
Proof.
  intros n k L. unfold sub_pos. assert (P : 0 < INR n) by (apply lt_0_INR; lia). assert (K : 0 <= INR k) by apply pos_INR.
  assert (U : INR k + 1 <= INR n) by (rewrite <- S_INR; apply le_INR; lia).
  split.
  - apply Rmult_le_reg_r with (2 * INR n); [lra|]. replace ((2 * INR k + 1 - INR n) / (2 * INR n) * (2 * INR n)) with (2 * INR k + 1 - INR n) by (field; lra). lra.
  - apply Rmult_le_reg_r with (2 * INR n); [lra|]. replace ((2 * INR k + 1 - INR n) / (2 * INR n) * (2 * INR n)) with (2 * INR k + 1 - INR n) by (field; lra). lra.
Qed.

Lemma sqrt_le_iff : forall s r, 0 <= s -> (sqrt s <= r <-> 0 <= r /\ s <= r * r).
Proof.
  intros s r S. split.
  - intros H. pose proof (sqrt_pos s). split; [lra|]. rewrite <- (sqrt_sqrt s S). apply Rmult_le_compat; lra.
  - intros (P & H). rewrite <- (sqrt_square r P). apply sqrt_le_1_alt. exact H.
Qed.
Lemma disc_iff : forall r x y, sqrt (x ^ 2 + y ^ 2) <= r <-> in_disc r x y.
Proof.
  intros r x y. unfold in_disc. rewrite <- !Rsqr_pow2. rewrite sqrt_le_iff by (pose proof (Rle_0_sqr x); pose proof (Rle_0_sqr y); lra). reflexivity.
Qed.
Lemma gray_eq : forall n r x y, gray n r x y = coverage n r x y.
Proof.
  intros n r x y. unfold gray, coverage, covered. f_equal. rewrite filter_total.
  rewrite (total_prod (fun l k => if (if in_disc_dec r (x + sub_pos n k) (y + sub_pos n l) then true else false) then 1 else 0)).
  rewrite sum_to_total. apply total_ext. intros l Hl. rewrite sum_to_total. apply total_ext. intros k Hk.
  apply in_seq in Hl. apply in_seq in Hk. rewrite !sub_eq by lia. unfold rle.
  rewrite (Rplus_comm x), (Rplus_comm y). pose proof (disc_iff r (sub_pos n k + x) (sub_pos n l + y)) as D.
  destruct (Rle_dec _ _) as [A|A]; destruct (in_disc_dec _ _ _) as [B|B]; try reflexivity; tauto.
Qed.

Lemma norm2 : forall x y u v, sqrt ((x + u) ^ 2 + (y + v) ^ 2) <= sqrt (x * x + y * y) + sqrt (u * u + v * v).
Proof.
  intros x y u v. pose proof (sqrt_pos (x * x + y * y)) as P1. pose proof (sqrt_pos (u * u + v * v)) as P2.
  pose proof (sqrt_sqrt (x * x + y * y) ltac:(nra)) as E1. pose proof (sqrt_sqrt (u * u + v * v) ltac:(nra)) as E2.
  set (a := sqrt (x * x + y * y)) in *. set (b := sqrt (u * u + v * v)) in *.
  apply sqrt_le_iff; [pose proof (pow2_ge_0 (x + u)); pose proof (pow2_ge_0 (y + v)); lra|]. split; [lra|].
  assert (C : x * u + y * v <= a * b).
  { apply Rsqr_incr_0_var; [|apply Rmult_le_pos; assumption]. unfold Rsqr. replace (a * b * (a * b)) with ((a * a) * (b * b)) by ring. rewrite E1, E2. pose proof (Rle_0_sqr (x * v - y * u)). unfold Rsqr in *. lra. }
  replace ((a + b) * (a + b)) with (a * a + 2 * (a * b) + b * b) by ring. rewrite E1, E2. nra.
Qed.
Lemma corner : forall u v, - (1 / 2) <= u <= 1 / 2 -> - (1 / 2) <= v <= 1 / 2 -> sqrt (u * u + v * v) < sqrt 2.
Proof. intros u v U V. apply sqrt_lt_1_alt. nra. Qed.

Lemma coverage_all : forall n r x y, (1 <= n)%nat -> (forall k l, (k < n)%nat -> (l < n)%nat -> in_disc r (x + sub_pos n k) (y + sub_pos n l)) -> coverage n r x y = 1.
Proof.
  intros n r x y N H. unfold coverage, covered.
  replace (filter _ (list_prod (seq 0 n) (seq 0 n))) with (list_prod (seq 0 n) (seq 0 n)).
  - rewrite prod_length, seq_length, mult_INR. assert (0 < INR n) by (apply lt_0_INR; lia). field. lra.
  - symmetry. assert (G : forall l, (forall a, In a l -> In a (list_prod (seq 0 n) (seq 0 n))) -> filter (fun kl => if in_disc_dec r (x + sub_pos n (snd kl)) (y + sub_pos n (fst kl)) then true else false) l = l).
    { induction l as [|(a, b) l IH]; intros I; [reflexivity|]. cbn [filter fst snd]. assert (J := I _ (or_introl eq_refl)). apply in_prod_iff in J. destruct J as (J1 & J2). apply in_seq in J1. apply in_seq in J2.
      destruct (in_disc_dec _ _ _) as [D|D]; [|exfalso; apply D, H; lia]. rewrite IH; [reflexivity|]. intros c C. apply I. right. exact C. }
    apply G. auto.
Qed.
Lemma coverage_none : forall n r x y, (forall k l, (k < n)%nat -> (l < n)%nat -> ~ in_disc r (x + sub_pos n k) (y + sub_pos n l)) -> coverage n r x y = 0.
Proof.
  intros n r x y H. unfold coverage, covered.
  replace (filter _ (list_prod (seq 0 n) (seq 0 n))) with (@nil (nat * nat)); [cbn; lra|].
  symmetry. assert (G : forall l, (forall a, In a l -> In a (list_prod (seq 0 n) (seq 0 n))) -> filter (fun kl => if in_disc_dec r (x + sub_pos n (snd kl)) (y + sub_pos n (fst kl)) then true else false) l = []).
  { induction l as [|(a, b) l IH]; intros I; [reflexivity|]. cbn [filter fst snd]. assert (J := I _ (or_introl eq_refl)). apply in_prod_iff in J. destruct J as (J1 & J2). apply in_seq in J1. apply in_seq in J2.
    destruct (in_disc_dec _ _ _) as [D|D]; [exfalso; revert D; apply H; lia|]. apply IH. intros c C. apply I. right. exact C. }
  apply G. auto.
Qed.
Lemma inside_all : forall n r x y, (1 <= n)%nat -> sqrt (x * x + y * y) <= r - sqrt 2 -> coverage n r x y = 1.
Proof.
  intros n r x y N H. apply coverage_all; [assumption|]. intros k l K L. apply disc_iff.
  pose proof (norm2 x y (sub_pos n k) (sub_pos n l)). pose proof (corner _ _ (sub_small n k K) (sub_small n l L)). lra.
Qed.
Lemma outside_none : forall n r x y, r + sqrt 2 <= sqrt (x * x + y * y) -> coverage n r x y = 0.
Proof.
  intros n r x y H. apply coverage_none. intros k l K L D. apply disc_iff in D.
  pose proof (norm2 (x + sub_pos n k) (y + sub_pos n l) (- sub_pos n k) (- sub_pos n l)) as T.
  replace ((x + sub_pos n k + - sub_pos n k) ^ 2 + (y + sub_pos n l + - sub_pos n l) ^ 2) with (x * x + y * y) in T by ring.
  replace ((x + sub_pos n k) ^ 2 + (y + sub_pos n l) ^ 2) with ((x + sub_pos n k) * (x + sub_pos n k) + (y + sub_pos n l) * (y + sub_pos n l)) in D by ring.
  pose proof (sub_small n k K) as U. pose proof (sub_small n l L) as V.
  pose proof (corner (- sub_pos n k) (- sub_pos n l) ltac:(lra) ltac:(lra)). lra.
Qed.
Lemma coverage_bounds : forall n r x y, 0 <= coverage n r x y <= 1.
Proof.
  intros n r x y. unfold coverage. destruct (Nat.eq_dec n 0) as [->|N]; [cbn; lra|]. assert (P : 0 < INR n) by (apply lt_0_INR; lia).
  assert (Q : 0 < INR n * INR n) by (apply Rmult_lt_0_compat; assumption).
  assert (C : (covered n r x y <= n * n)%nat).
  { unfold covered. transitivity (length (list_prod (seq 0 n) (seq 0 n))); [|rewrite prod_length, seq_length; lia].
    clear. induction (list_prod _ _) as [|a l IH]; [reflexivity|]. cbn [filter]. destruct (if in_disc_dec _ _ _ then true else false); cbn [length]; lia. }
  apply le_INR in C. rewrite mult_INR in C. pose proof (pos_INR (covered n r x y)).
  split; [apply Rmult_le_pos; [lra|left; apply Rinv_0_lt_compat; lra]|]. apply Rmult_le_reg_r with (INR n * INR n); [lra|]. unfold Rdiv. rewrite Rmult_assoc, Rinv_l by lra. lra.
Qed.

(** A wider disc covers more. *)
Lemma coverage_wider : forall n r r' x y, r <= r' -> coverage n r x y <= coverage n r' x y.
Proof.
  intros n r r' x y L. unfold coverage. destruct (Nat.eq_dec n 0) as [->|N]; [cbn; lra|]. assert (P : 0 < INR n) by (apply lt_0_INR; lia).
  apply Rmult_le_compat_r; [left; apply Rinv_0_lt_compat, Rmult_lt_0_compat; assumption|]. apply le_INR. unfold covered.
  induction (list_prod _ _) as [|a l IH]; [reflexivity|]. cbn [filter]. destruct (in_disc_dec r _ _) as [D|D]; destruct (in_disc_dec r' _ _) as [E|E]; cbn [length]; try lia.
  exfalso. apply E. destruct D as (D1 & D2). split; [lra|]. nra.
Qed.

(** Every pixel of the mask. *)
Theorem circle_ok : forall nx ny r xs ys n, makes nx n -> exists m, circle nx ny r (Some xs) (Some ys) n = Ok m /\
  forall i j, (i < ny)%nat -> (j < nx)%nat -> m i j = coverage n r (INR j - INR (nx / 2) - xs) (INR i - INR (ny / 2) - ys).
Proof.
  intros nx ny r xs ys n (X & N). unfold circle. destruct (Nat.ltb_spec nx 2); [lia|]. destruct (Nat.eqb_spec n 0); [lia|].
  eexists. split; [reflexivity|]. intros i j I J. cbv beta iota. rewrite !coord_eq by lia.
  replace (INR 1 - INR (nx / 2) - xs - (INR 0 - INR (nx / 2) - xs)) with 1 by (cbn; ring). rewrite Rmult_1_r.
  set (x := INR j - INR (nx / 2) - xs). set (y := INR i - INR (ny / 2) - ys). unfold rlt.
  rewrite Rabs_right by (apply Rle_ge, sqrt_pos).
  destruct (Rlt_dec _ _); [symmetry; apply outside_none; lra|]. destruct (Rlt_dec _ _); [symmetry; apply inside_all; [assumption|lra]|]. apply gray_eq.
Qed.
Theorem circle_refused : forall nx ny r xs ys n e, circle nx ny r xs ys n = Raise e <-> ((nx < 2)%nat /\ e = IndexError) \/ ((2 <= nx)%nat /\ n = 0%nat /\ e = PyException).
Proof.
  intros nx ny r xs ys n e. unfold circle. destruct (Nat.ltb_spec nx 2).
  - split; [intros E; injection E as <-; auto|]. intros [(_ & ->)|(? & _)]; [reflexivity|lia].
  - destruct (Nat.eqb_spec n 0).
    + split; [intros E; injection E as <-; auto|]. intros [(? & _)|(_ & _ & ->)]; [lia|reflexivity].
    + split; [discriminate|]. intros [(? & _)|(_ & ? & _)]; lia.
Qed.
Lemma circle_none : forall nx ny r xs ys n, makes nx n -> xs = None \/ ys = None -> exists m, circle nx ny r xs ys n = Ok m /\ forall i j, m i j = 0.
Proof.
  intros nx ny r xs ys n (X & N) H. unfold circle. destruct (Nat.ltb_spec nx 2); [lia|]. destruct (Nat.eqb_spec n 0); [lia|].
  eexists. split; [reflexivity|]. intros i j. destruct H as [->| ->]; [reflexivity|destruct xs; reflexivity].
Qed.

(** The masks of all the spots. *)
Lemma roi_ok : forall ny nx rots sep x y r n, makes nx n -> forall acc, exists m, roi_mask ny nx rots (Some sep) (Some x) (Some y) r n acc = Ok m /\
  forall i j, (i < ny)%nat -> (j < nx)%nat -> m i j = acc i j + total (map (fun p => coverage n r (INR j - INR (nx / 2) - fst p) (INR i - INR (ny / 2) - snd p)) (spots_at rots sep x y)).
Proof.
  intros ny nx rots sep x y r n M. induction rots as [|deg rots IH]; intros acc.
  - exists acc. split; [reflexivity|]. intros i j _ _. cbn. lra.
  - cbn [roi_mask]. unfold nadd, nmul, lift2.
    destruct (circle_ok nx ny r (cos (radians deg) * sep + x) (sin (radians deg) * sep + y) n M) as (p & P1 & P2).
    destruct (circle_ok nx ny r (cos (radians deg + PI) * sep + x) (sin (radians deg + PI) * sep + y) n M) as (q & Q1 & Q2).
    rewrite P1. cbn [bind]. rewrite Q1. cbn [bind].
    destruct (IH (fun i j => acc i j + p i j + q i j)) as (m & M1 & M2). exists m. split; [exact M1|]. intros i j I J.
    rewrite (M2 i j I J). rewrite (P2 i j I J), (Q2 i j I J). unfold spots_at. cbn [flat_map]. rewrite map_app, total_app. unfold total at 2. cbn [map fold_right fst snd app].
    rewrite neg_cos, neg_sin. unfold radians. replace (deg * (PI / 180)) with (deg * PI / 180) by (field).
    replace (cos (deg * PI / 180) * sep + x) with (x + sep * cos (deg * PI / 180)) by ring. replace (sin (deg * PI / 180) * sep + y) with (y + sep * sin (deg * PI / 180)) by ring.
    replace (- cos (deg * PI / 180) * sep + x) with (x - sep * cos (deg * PI / 180)) by ring. replace (- sin (deg * PI / 180) * sep + y) with (y - sep * sin (deg * PI / 180)) by ring.
    lra.
Qed.
Lemma roi_none : forall ny nx rots sep x y r n, makes nx n -> sep = None \/ x = None \/ y = None -> forall acc, exists m, roi_mask ny nx rots sep x y r n acc = Ok m /\ forall i j, m i j = acc i j.
Proof.
  intros ny nx rots sep x y r n M H. induction rots as [|deg rots IH]; intros acc; [exists acc; split; reflexivity|].
  cbn [roi_mask]. set (rot := radians deg).
  assert (H' : forall a b, nadd (nmul (Some a) sep) x = None \/ nadd (nmul (Some b) sep) y = None).
  { intros a b. destruct H as [->|[->| ->]]; [left; reflexivity|left|right]; unfold nadd, lift2; destruct (nmul _ _); reflexivity. }
  destruct (circle_none nx ny r _ _ n M (H' (cos rot) (sin rot))) as (p & P1 & P2). destruct (circle_none nx ny r _ _ n M (H' (cos (rot + PI)) (sin (rot + PI)))) as (q & Q1 & Q2).
  rewrite P1. cbn [bind]. rewrite Q1. cbn [bind]. destruct (IH (fun i j => acc i j + p i j + q i j)) as (m & M1 & M2). exists m. split; [exact M1|]. intros i j. rewrite M2, P2, Q2. lra.
Qed.
Lemma roi_refused : forall ny nx rots sep x y r n acc e, roi_mask ny nx rots sep x y r n acc = Raise e <-> rots <> [] /\ (((nx < 2)%nat /\ e = IndexError) \/ ((2 <= nx)%nat /\ n = 0%nat /\ e = PyException)).
Proof.
  intros ny nx rots sep x y r n acc e. destruct rots as [|deg rots]; cbn [roi_mask]; [split; [discriminate|intros (H & _); congruence]|].
  set (a := nadd _ _). set (b := nadd _ _) at 1. pose proof (circle_refused nx ny r a b n) as C. destruct (circle nx ny r a b n) as [p|e'] eqn:E; cbn [bind].
  - assert (M : makes nx n). { split; [destruct (le_lt_dec 2 nx) as [|L]; [assumption|]|destruct n; [|lia]]; exfalso; [discriminate (proj2 (C IndexError) (or_introl (conj L eq_refl)))|]. destruct (le_lt_dec 2 nx) as [L|L]; [discriminate (proj2 (C PyException) (or_intror (conj L (conj eq_refl eq_refl))))|discriminate (proj2 (C IndexError) (or_introl (conj L eq_refl)))]. }
    split.
    + intros H. exfalso. revert H. destruct (circle nx ny r _ _ n) as [q|e''] eqn:F at 1; cbn [bind].
      * match goal with |- roi_mask ?a1 ?b1 ?c1 ?d1 ?e1 ?f1 ?g1 ?h1 ?i1 = _ -> _ => assert (K : exists m, roi_mask a1 b1 c1 d1 e1 f1 g1 h1 i1 = Ok m) end.
        { destruct sep as [sp|]; [destruct x as [xx|]; [destruct y as [yy|]|]|].
          - destruct (roi_ok ny nx rots sp xx yy r n M (fun i j => acc i j + p i j + q i j)) as (m & K & _). exists m. exact K.
          - destruct (roi_none ny nx rots (Some sp) (Some xx) None r n M ltac:(auto) (fun i j => acc i j + p i j + q i j)) as (m & K & _). exists m. exact K.
          - destruct (roi_none ny nx rots (Some sp) None y r n M ltac:(auto) (fun i j => acc i j + p i j + q i j)) as (m & K & _). exists m. exact K.
          - destruct (roi_none ny nx rots None x y r n M ltac:(auto) (fun i j => acc i j + p i j + q i j)) as (m & K & _). exists m. exact K. }
        destruct K as (m & ->). discriminate.
      * apply circle_refused in F. destruct M. destruct F as [(? & _)|(_ & ? & _)]; lia.
    + intros (_ & [(L & _)|(_ & L & _)]); destruct M; lia.
  - split; [intros H; injection H as <-; split; [discriminate|]; apply C; reflexivity|]. intros (_ & H). apply C in H. injection H as <-. reflexivity.
Qed.

(** The light through a mask. *)
Lemma flux_ok : forall img v m, holds img v -> flux img m = Some (total (map (fun p => m (fst p) (snd p) * v (fst p) (snd p)) (pixels (ny img) (nx img)))).
Proof.
  intros img v m H. unfold flux. rewrite (nsum_some (ny img) _ (fun i => sum_to (nx img) (fun j => m i j * v i j))).
  - f_equal. unfold pixels. rewrite (total_prod (fun i j => m i j * v i j)). rewrite sum_to_total. apply total_ext. intros i _. apply sum_to_total.
  - intros i I. apply nsum_some. intros j J. rewrite (H i j I J). reflexivity.
Qed.
Lemma flux_none : forall img m, holed img -> flux img m = None.
Proof.
  intros img m (i & j & I & J & H). unfold flux. apply nsum_none with i; [assumption|]. apply nsum_none with j; [assumption|]. rewrite H. reflexivity.
Qed.
Theorem light_ok : forall img v t sep x y, holds img v -> makes (nx img) (t_sub t) ->
  masked_flux img (t_rots t) (Some sep) (Some x) (Some y) (t_r t) (t_sub t) = Ok (Some (collected img v t sep x y)).
Proof.
  intros img v t sep x y H M. unfold masked_flux. destruct (roi_ok (ny img) (nx img) (t_rots t) sep x y (t_r t) (t_sub t) M (fun _ _ => 0)) as (m & -> & E). cbn [bind].
  rewrite (flux_ok img v m H). do 2 f_equal. unfold collected, light.
  transitivity (total (map (fun q => total (map (fun p => coverage (t_sub t) (t_r t) (INR (snd q) - INR (nx img / 2) - fst p) (INR (fst q) - INR (ny img / 2) - snd p) * v (fst q) (snd q)) (spots_at (t_rots t) sep x y))) (pixels (ny img) (nx img)))).
  - apply total_ext. intros (i, j) Q. cbn [fst snd]. apply in_prod_iff in Q. destruct Q as (Q1 & Q2). apply in_seq in Q1. apply in_seq in Q2. rewrite (E i j) by lia.
    rewrite Rplus_0_l. rewrite (total_ext (fun p => coverage (t_sub t) (t_r t) (INR j - INR (nx img / 2) - fst p) (INR i - INR (ny img / 2) - snd p) * v i j) (fun p => v i j * coverage (t_sub t) (t_r t) (INR j - INR (nx img / 2) - fst p) (INR i - INR (ny img / 2) - snd p))) by (intros; ring).
    rewrite total_scale. ring.
  - generalize (spots_at (t_rots t) sep x y) as l. intros l. induction l as [|p l IH]; [apply total_const0|]. cbn [map]. change (total (?a :: ?b)) with (a + total b).
    rewrite <- IH. rewrite <- total_plus. reflexivity.
Qed.
Lemma light_dark : forall img v t sep x y, holds img v -> makes (nx img) (t_sub t) -> sep = None \/ x = None \/ y = None ->
  masked_flux img (t_rots t) sep x y (t_r t) (t_sub t) = Ok (Some 0).
Proof.
  intros img v t sep x y H M N. unfold masked_flux. destruct (roi_none (ny img) (nx img) (t_rots t) sep x y (t_r t) (t_sub t) M N (fun _ _ => 0)) as (m & -> & E). cbn [bind].
  rewrite (flux_ok img v m H). do 2 f_equal. rewrite (total_ext _ (fun _ => 0)); [apply total_const0|]. intros q _. rewrite E. ring.
Qed.
Lemma light_none : forall img t sep x y, holed img -> makes (nx img) (t_sub t) -> masked_flux img (t_rots t) sep x y (t_r t) (t_sub t) = Ok None.
Proof.
  intros img t sep x y H M. unfold masked_flux. pose proof (roi_refused (ny img) (nx img) (t_rots t) sep x y (t_r t) (t_sub t) (fun _ _ => 0)) as R.
  destruct (roi_mask _ _ _ _ _ _ _ _ _) as [m|e]; cbn [bind]; [rewrite flux_none by assumption; reflexivity|]. exfalso. destruct (proj1 (R e) eq_refl) as (_ & [(L & _)|(_ & L & _)]); destruct M; lia.
Qed.
