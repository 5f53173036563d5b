(** Laws and limits of the K gain calibration. *)
From Coq Require Import List Arith Bool Reals ZArith String Permutation Lia Lra.
From Verif Require Import Base DqModel DqProofs AngleModel NearModel CombineModel CombineSpec CombineProofs ComboSpec ComboProofs FindModel FlatModel FlatSpec FlatProofs CtDataProofs ThruModel ThruSpec ThruProofs ThruRunProofs FrnModel FrnProofs FluxRunProofs KgainModel KgainSpec KgainProofs KgainCurveProofs KgainRunProofs.
Import ListNotations.
Local Open Scope R_scope.

(** ** Clipping *)
Lemma rsum_app : forall a b, rsum (a ++ b) = rsum a + rsum b.
Proof. induction a as [|x a IH]; intros b; cbn [app]; [cbn; lra|]. unfold rsum in *. cbn [fold_right]. rewrite IH. lra. Qed.
(** (sum y)^2 <= n * sum y^2 *)
Lemma cauchy : forall l, (rsum l) ^ 2 <= INR (List.length l) * rsum (map (fun y => y ^ 2) l).
Proof.
  induction l as [|y l IH]; [cbn; lra|]. cbn [map List.length]. rewrite S_INR. unfold rsum in *. cbn [fold_right]. set (s := fold_right Rplus 0 l) in *. set (q := fold_right Rplus 0 (map (fun y => y ^ 2) l)) in *. set (n := INR (List.length l)) in *. assert (N0 : 0 <= n) by apply pos_INR.
  destruct (Req_dec n 0) as [Z|NZ].
  - assert (L : l = []) by (destruct l; [reflexivity|exfalso; unfold n in Z; cbn [List.length] in Z; rewrite S_INR in Z; pose proof (pos_INR (List.length l)); lra]). subst l. unfold s, q. cbn [map fold_right]. rewrite Z. lra.
  - assert (P : 0 < n) by lra. assert (H : 2 * (y * s) <= n * y ^ 2 + q). { apply Rmult_le_reg_l with n; [exact P|]. assert (0 <= (n * y - s) ^ 2) by apply pow2_ge_0. nra. } nra.
Qed.
Lemma sum_dev : forall l m, rsum (map (fun x => x - m) l) = rsum l - INR (List.length l) * m.
Proof. induction l as [|x l IH]; intros m; [cbn; lra|]. cbn [map List.length]. rewrite S_INR. unfold rsum in *. cbn [fold_right]. rewrite IH. lra. Qed.
(** No value is further from the mean than sqrt(n-1) deviations *)
Lemma farthest : forall l m s x, spread l m s -> In x l -> (x - m) ^ 2 <= s ^ 2 * (INR (List.length l) - 1).
Proof.
  intros l m s x (M & S0 & V) I. destruct M as (N & M). destruct V as (_ & V). rewrite map_length in V. fold (rsum l) in M. fold (rsum (map (fun x => (x - m) ^ 2) l)) in V. apply in_split in I. destruct I as (l1 & l2 & ->).
  set (r := l1 ++ l2). assert (LN : INR (List.length (l1 ++ x :: l2)) = INR (List.length r) + 1) by (unfold r; rewrite !app_length; cbn [List.length]; rewrite Nat.add_succ_r, S_INR; reflexivity).
  assert (SM : rsum (l1 ++ x :: l2) = x + rsum r) by (unfold r; rewrite !rsum_app; unfold rsum; cbn [fold_right]; lra).
  assert (SV : rsum (map (fun x => (x - m) ^ 2) (l1 ++ x :: l2)) = (x - m) ^ 2 + rsum (map (fun x => (x - m) ^ 2) r)) by (unfold r; rewrite !map_app, !rsum_app; unfold rsum; cbn [map fold_right]; lra).
  rewrite LN in *. rewrite SM in M. rewrite SV in V. pose proof (cauchy (map (fun y => y - m) r)) as C. rewrite sum_dev, map_map, map_length in C. set (n := INR (List.length r)) in *. set (q := rsum (map (fun x => (x - m) ^ 2) r)) in *. assert (N0 : 0 <= n) by apply pos_INR.
  assert (E : rsum r - n * m = - (x - m)) by lra. rewrite E in C. replace ((- (x - m)) ^ 2) with ((x - m) ^ 2) in C by ring. set (u := (x - m) ^ 2) in *. assert (U0 : 0 <= u) by apply pow2_ge_0. set (v := s ^ 2) in *.
  (* v (n+1) = u + q, u <= n q *)
  replace (n + 1 - 1) with n by ring. apply Rmult_le_reg_l with (n + 1); [lra|]. nra.
Qed.
Lemma clip_few : forall n l c, (List.length l <= 7)%nat -> clips (5 / 2) n l c -> c = l.
Proof.
  intros n l c L H. inversion H as [?|?|?|k l' m s x l1 l2 SP I O SV H']; subst; try reflexivity. exfalso. pose proof (farthest l m s x SP I) as F. destruct SP as (_ & S0 & _). assert (LR : INR (List.length l) <= 7) by (change 7 with (IZR (Z.of_nat 7)); rewrite INR_IZR_INZ; apply IZR_le; lia).
  assert (A : (5 / 2 * s) ^ 2 < (x - m) ^ 2). { rewrite <- (pow2_abs (x - m)). pose proof (Rabs_pos (x - m)). assert (0 <= 5 / 2 * s) by lra. nra. }
  assert (S2 : 0 <= s ^ 2) by apply pow2_ge_0. nra.
Qed.
Lemma clip_sub : forall sigma n l c, clips sigma n l c -> forall x, In x c -> In x l.
Proof.
  intros sigma n l c H. induction H as [l|n|n l m s SP A|n l m s y l1 l2 SP I O SV H IH]; intros x X; try assumption. apply IH in X. clear - SV X. induction SV as [|y l l1 P SV IH|y l l1 P SV IH]; [destruct X|destruct X as [<-|X]; [left; reflexivity|right; apply IH, X]|right; apply IH, X].
Qed.
Lemma sum_above : forall (f : R -> R) b l, l <> [] -> (forall x, In x l -> b < f x) -> b * INR (List.length l) < rsum (map f l).
Proof.
  intros f b l N H. induction l as [|x l IH]; [congruence|]. cbn [map List.length]. rewrite S_INR. unfold rsum in *. cbn [fold_right]. assert (X : b < f x) by (apply H; left; reflexivity). destruct l as [|y l]; [cbn; lra|].
  assert (I : b * INR (List.length (y :: l)) < fold_right Rplus 0 (map f (y :: l))) by (apply IH; [discriminate|intros z Z; apply H; right; exact Z]). lra.
Qed.
Lemma clip_nonempty : forall sigma n l c, 1 <= sigma -> clips sigma n l c -> l <> [] -> c <> [].
Proof.
  intros sigma n l c S1 H. induction H as [l|n|n l m s SP A|n l m s y l1 l2 SP I O SV H IH]; intros N; try assumption. apply IH. intros ->. assert (A : forall x, In x l -> sigma * s < Rabs (x - m)).
  { intros x X. destruct (Rle_dec (Rabs (x - m)) (sigma * s)) as [L|L]; [|lra]. exfalso. clear - SV X L. remember [] as e eqn:E. induction SV as [|y l l1 P SV IH|y l l1 P SV IH]; [destruct X|discriminate|]. destruct X as [<-|X]; [contradiction|apply IH; assumption]. }
  destruct SP as (M & S0 & (_ & V)). rewrite map_length in V. assert (B : s ^ 2 * INR (List.length l) < rsum (map (fun x => (x - m) ^ 2) l)).
  { apply sum_above; [exact N|]. intros x X. specialize (A x X). rewrite <- (pow2_abs (x - m)). pose proof (Rabs_pos (x - m)). assert (s < Rabs (x - m)) by nra. cbn [pow]. nra. }
  unfold rsum in B. lra.
Qed.
(** At most one value in sigma^2 goes in each round *)
Lemma sum_outliers : forall (P : R -> Prop) (f : R -> R) b l l1, sieve P l l1 -> (forall x, In x l -> ~ P x -> b <= f x) -> (forall x, 0 <= f x) -> (INR (List.length l) - INR (List.length l1)) * b <= rsum (map f l).
Proof.
  intros P f b l l1 S H F. induction S as [|x l l1 PX S IH|x l l1 PX S IH].
  - cbn. lra.
  - cbn [map List.length]. rewrite !S_INR. unfold rsum in *. cbn [fold_right]. specialize (F x). assert (I : (INR (List.length l) - INR (List.length l1)) * b <= fold_right Rplus 0 (map f l)) by (apply IH; intros z Z; apply H; right; exact Z). lra.
  - cbn [map List.length]. rewrite S_INR. unfold rsum in *. cbn [fold_right]. assert (X : b <= f x) by (apply H; [left; reflexivity|exact PX]). assert (I : (INR (List.length l) - INR (List.length l1)) * b <= fold_right Rplus 0 (map f l)) by (apply IH; intros z Z; apply H; right; exact Z). lra.
Qed.
Lemma clip_share : forall sigma l m s l1 x, 0 < sigma -> spread l m s -> In x l -> sigma * s < Rabs (x - m) -> sieve (fun x => Rabs (x - m) <= sigma * s) l l1 -> (INR (List.length l) - INR (List.length l1)) * sigma ^ 2 <= INR (List.length l).
Proof.
  intros sigma l m s l1 x SG SP I O SV. pose proof SP as (M & S0 & (N & V)). rewrite map_length in V. fold (rsum (map (fun x => (x - m) ^ 2) l)) in V.
  assert (H : (INR (List.length l) - INR (List.length l1)) * (sigma * s) ^ 2 <= rsum (map (fun x => (x - m) ^ 2) l)).
  { apply (sum_outliers (fun x => Rabs (x - m) <= sigma * s)); [exact SV| |intros y; apply pow2_ge_0]. intros y _ NY. rewrite <- (pow2_abs (y - m)). assert (0 <= sigma * s) by (apply Rmult_le_pos; lra). nra. }
  rewrite <- V in H. assert (SP0 : 0 < s). { destruct (Rle_lt_or_eq_dec 0 s S0) as [L|E]; [exact L|]. exfalso. pose proof (farthest l m s x SP I) as F. subst s. rewrite Rmult_0_r in O. assert (0 < (x - m) ^ 2) by (rewrite <- (pow2_abs (x - m)); nra). lra. }
  assert (S2 : 0 < s ^ 2) by (apply pow_lt; exact SP0). apply Rmult_le_reg_l with (s ^ 2); [exact S2|]. replace (s ^ 2 * ((INR (List.length l) - INR (List.length l1)) * sigma ^ 2)) with ((INR (List.length l) - INR (List.length l1)) * (sigma * s) ^ 2) by ring. exact H.
Qed.
(** Clipping and the mode follow a change of units and of zero *)
Lemma spread_affine : forall u b l m s, 0 < u -> spread l m s -> spread (map (fun x => u * x + b) l) (u * m + b) (u * s).
Proof.
  intros u b l m s U (M & S0 & V). split; [|split; [apply Rmult_le_pos; lra|]].
  - rewrite <- (map_map (fun x => u * x) (fun x => x + b)). apply mean_shift, mean_times, M.
  - rewrite map_map. replace ((u * s) ^ 2) with (u ^ 2 * s ^ 2) by ring. erewrite map_ext; [|intros x; replace ((u * x + b - (u * m + b)) ^ 2) with (u ^ 2 * (x - m) ^ 2) by ring; reflexivity]. rewrite <- (map_map (fun x => (x - m) ^ 2) (fun x => u ^ 2 * x)). apply mean_times, V.
Qed.
Lemma sieve_image : forall (g : R -> R) (P Q : R -> Prop) l l1, (forall x, P x <-> Q (g x)) -> sieve P l l1 -> sieve Q (map g l) (map g l1).
Proof. intros g P Q l l1 H S. induction S; cbn [map]; [constructor|apply ComboSpec.sieve_in; [apply H; assumption|assumption]|apply ComboSpec.sieve_out; [intro X; apply H in X; contradiction|assumption]]. Qed.
Lemma clip_affine : forall u b sigma n l c, 0 < u -> clips sigma n l c -> clips sigma n (map (fun x => u * x + b) l) (map (fun x => u * x + b) c).
Proof.
  intros u b sigma n l c U H. assert (D : forall x m s, Rabs (u * x + b - (u * m + b)) <= sigma * (u * s) <-> Rabs (x - m) <= sigma * s).
  { intros x m s. replace (u * x + b - (u * m + b)) with (u * (x - m)) by ring. rewrite Rabs_mult, (Rabs_pos_eq u) by lra. replace (sigma * (u * s)) with (u * (sigma * s)) by ring. split; intro X; [apply Rmult_le_reg_l with u; assumption|apply Rmult_le_compat_l; [lra|exact X]]. }
  induction H as [l|n|n l m s SP A|n l m s x l1 l2 SP I O SV H IH].
  - constructor.
  - constructor.
  - eapply clips_same; [apply spread_affine; [exact U|exact SP]|]. intros y Y. apply in_map_iff in Y. destruct Y as (x & <- & X). apply D, A, X.
  - eapply clips_some; [apply spread_affine; [exact U|exact SP]|apply (in_map (fun x => u * x + b)), I| | |exact IH].
    + cbn beta. apply Rnot_le_lt. intro X. apply (proj1 (D x m s)) in X. lra.
    + apply (sieve_image (fun x => u * x + b) _ _ _ _ (fun x => iff_sym (D x m s)) SV).
Qed.
Lemma span_affine : forall u b l x y, 0 < u -> x < y -> least l x -> greatest l y -> least (map (fun z => u * z + b) l) (u * x + b) /\ greatest (map (fun z => u * z + b) l) (u * y + b).
Proof.
  intros u b l x y U XY (LI & LL) (GI & GG). split; (split; [apply (in_map (fun z => u * z + b)); assumption|]); intros z Z; apply in_map_iff in Z; destruct Z as (w & <- & W); [specialize (LL w W)|specialize (GG w W)]; nra.
Qed.
Lemma least_unique : forall l x y, least l x -> least l y -> x = y.
Proof. intros l x y (A & B) (D & E). specialize (B y D). specialize (E x A). lra. Qed.
Lemma greatest_unique : forall l x y, greatest l x -> greatest l y -> x = y.
Proof. intros l x y (A & B) (D & E). specialize (B y D). specialize (E x A). lra. Qed.
Lemma mode_affine : forall u b l v x y, 0 < u -> In x l -> In y l -> x <> y -> mode_is l v -> mode_is (map (fun z => u * z + b) l) (u * v + b).
Proof.
  intros u b l v x y U IX IY XY (p & q & k & n & SP & K & M & -> & H). destruct SP as (p' & q' & LP & GQ & [(PQ & -> & ->)|(-> & -> & ->)]).
  2:{ exfalso. destruct LP as (_ & LP). destruct GQ as (_ & GQ). pose proof (LP x IX). pose proof (GQ x IX). pose proof (LP y IY). pose proof (GQ y IY). lra. }
  destruct (span_affine u b l p' q' U PQ LP GQ) as (LP' & GQ').
  assert (HO : forall j z, holds p' q' j z <-> holds (u * p' + b) (u * q' + b) j (u * z + b)).
  { intros j z. unfold holds. replace (u * q' + b - (u * p' + b)) with (u * (q' - p')) by ring. replace (u * (q' - p') / 10) with (u * ((q' - p') / 10)) by field. set (e := (q' - p') / 10).
    replace (u * p' + b + INR j * (u * e)) with (u * (p' + INR j * e) + b) by ring. replace (u * p' + b + (INR j + 1) * (u * e)) with (u * (p' + (INR j + 1) * e) + b) by ring.
    assert (LE : forall s t, s <= t <-> u * s + b <= u * t + b) by (intros s t; split; intro Z; [pose proof (Rmult_le_compat_l u s t ltac:(lra) Z); lra|apply Rmult_le_reg_l with u; lra]). assert (LT : forall s t, s < t <-> u * s + b < u * t + b) by (intros s t; split; intro Z; [pose proof (Rmult_lt_compat_l u s t U Z); lra|apply Rmult_lt_reg_l with u; lra]). rewrite (LE (p' + INR j * e) z), (LT z (p' + (INR j + 1) * e)), (LE z q'). reflexivity. }
  assert (MB : forall j i, members p' q' l j i <-> members (u * p' + b) (u * q' + b) (map (fun z => u * z + b) l) j i).
  { intros j i. split.
    - intros (s & S & L). exists (map (fun z => u * z + b) s). split; [apply (sieve_image (fun z => u * z + b) _ _ _ _ (HO j) S)|rewrite map_length; exact L].
    - intros M'. apply members_iff in M'. subst i. exists (filter (in_bin (p', q') j) l). split; [apply (sieve_filter _ _ _ (holds_iff p' q' j)); reflexivity|]. unfold count. clear - HO. induction l as [|z l IH]; [reflexivity|]. cbn [map filter]. specialize (HO j z).
      destruct (in_bin (p', q') j z) eqn:A, (in_bin (u * p' + b, u * q' + b) j (u * z + b)) eqn:B; cbn [List.length]; try (rewrite IH; reflexivity); exfalso.
      + apply holds_iff in A. apply HO in A. apply holds_iff in A. congruence.
      + apply holds_iff in B. apply HO in B. apply holds_iff in B. congruence. }
  exists (u * p' + b), (u * q' + b), k, n. split; [exists (u * p' + b), (u * q' + b); split; [exact LP'|]; split; [exact GQ'|]; left; split; [nra|split; reflexivity]|]. split; [exact K|]. split; [apply MB, M|]. split; [field|]. intros j i J M'. apply H; [exact J|apply MB, M'].
Qed.
(** The mode is within half a bin of one of the values *)
Lemma some_bin : forall a b x, a < b -> a <= x <= b -> exists k, (k < 10)%nat /\ holds a b k x.
Proof.
  intros a b x AB X. set (e := (b - a) / 10). assert (E : 0 < e) by (unfold e; lra).
  assert (G : forall n, a + INR n * e <= x \/ exists k, (k < n)%nat /\ a + INR k * e <= x < a + (INR k + 1) * e).
  { induction n as [|n IH]; [left; cbn; lra|]. destruct IH as [IH|(k & K & H)]; [|right; exists k; split; [lia|exact H]]. destruct (Rle_dec (a + INR (Datatypes.S n) * e) x) as [L|L]; [left; exact L|right]. exists n. split; [lia|]. rewrite S_INR in L. lra. }
  destruct (G 10%nat) as [L|(k & K & H)].
  - exists 9%nat. split; [lia|]. unfold holds. fold e. split; [|right; split; [reflexivity|lra]]. replace (INR 9) with 9 by (cbn; ring). replace (INR 10) with 10 in L by (cbn; ring). lra.
  - exists k. split; [exact K|]. unfold holds. fold e. split; [lra|left; lra].
Qed.
Lemma mode_near : forall l v a b, mode_is l v -> least l a -> greatest l b -> exists x, In x l /\ Rabs (v - x) <= (if Req_EM_T a b then 1 / 20 else (b - a) / 20).
Proof.
  intros l v a b (p & q & k & n & SP & K & M & -> & H) LA GB. pose proof (span_lt _ _ _ SP) as PQ.
  assert (W : (q - p) / 20 = (if Req_EM_T a b then 1 / 20 else (b - a) / 20)). { destruct SP as (p' & q' & LP & GQ & C). pose proof (least_unique _ _ _ LP LA). pose proof (greatest_unique _ _ _ GQ GB). subst p' q'. destruct C as [(X & -> & ->)|(X & -> & ->)]; destruct (Req_EM_T a b); lra. }
  rewrite <- W. assert (N0 : (0 < n)%nat).
  { destruct (some_bin p q a) as (j & J & HJ); [exact PQ| |]. { destruct SP as (p' & q' & LP & GQ & C). pose proof (least_unique _ _ _ LP LA). pose proof (greatest_unique _ _ _ GQ GB). subst p' q'. destruct C as [(X & -> & ->)|(X & -> & ->)]; lra. }
    destruct (H j _ J (proj2 (members_iff p q l j _) eq_refl)) as (H1 & _). unfold count in H1. assert (I : In a (filter (in_bin (p, q) j) l)) by (apply filter_In; split; [apply LA|apply holds_iff, HJ]). destruct (filter _ _); [destruct I|cbn in H1; lia]. }
  destruct M as (s & S & L). destruct s as [|x s]; [cbn in L; lia|]. exists x. apply (sieve_filter _ _ _ (holds_iff p q k)) in S. assert (I : In x (filter (in_bin (p, q) k) l)) by (rewrite <- S; left; reflexivity). apply filter_In in I. destruct I as (I & B). split; [exact I|]. apply holds_iff in B. destruct B as (B1 & B2).
  apply Rabs_le. destruct B2 as [B2|(-> & B2)]; [lra|]. replace (INR 9) with 9 in * by (cbn; ring). lra.
Qed.
Lemma mode_constant : forall l v x, mode_is l v -> (forall y, In y l -> y = x) -> v = x + 1 / 20.
Proof.
  intros l v x (p & q & k & n & SP & K & M & -> & H) C. destruct SP as (p' & q' & LP & GQ & D). assert (p' = x) by (apply C, LP). assert (q' = x) by (apply C, GQ). subst p' q'. destruct D as [(X & _)|(_ & -> & ->)]; [lra|]. replace ((x + 1 / 2 - (x - 1 / 2)) / 10) with (1 / 10) by field.
  assert (H5 : forall y, In y l -> forall j, (j < 10)%nat -> holds (x - 1 / 2) (x + 1 / 2) j y -> j = 5%nat).
  { intros y Y j J (B1 & B2). rewrite (C y Y) in *. replace ((x + 1 / 2 - (x - 1 / 2)) / 10) with (1 / 10) in * by field. rewrite INR_IZR_INZ in *. assert (ZJ : (4 < Z.of_nat j < 6)%Z); [|lia]. destruct B2 as [B2|(-> & B2)].
    - split; apply lt_IZR; lra.
    - cbn in B1. lra. }
  assert (k = 5)%nat; [|subst k; cbn; lra]. destruct M as (s & S & L). apply (sieve_filter _ _ _ (holds_iff (x - 1 / 2) (x + 1 / 2) k)) in S. destruct s as [|y s].
  - exfalso. cbn in L. subst n. destruct LP as (LI & _). assert (X5 : holds (x - 1 / 2) (x + 1 / 2) 5 x) by (unfold holds; replace ((x + 1 / 2 - (x - 1 / 2)) / 10) with (1 / 10) by field; cbn; split; [lra|left; lra]).
    destruct (H 5%nat _ ltac:(lia) (proj2 (members_iff _ _ l 5 _) eq_refl)) as (H1 & _). unfold count in H1. assert (I : In x (filter (in_bin (x - 1 / 2, x + 1 / 2) 5) l)) by (apply filter_In; split; [exact LI|apply holds_iff, X5]). destruct (filter (in_bin (x - 1 / 2, x + 1 / 2) 5) l); [destruct I|cbn in H1; lia].
  - assert (I : In y (filter (in_bin (x - 1 / 2, x + 1 / 2) k) l)) by (rewrite <- S; left; reflexivity). apply filter_In in I. destruct I as (I & B). apply holds_iff in B. exact (H5 y I k K B).
Qed.
