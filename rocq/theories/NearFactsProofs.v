(** Throughput of a KL mode, and what the nearest lookups get wrong. *)
From Coq Require Import List Arith Bool Reals ZArith String Lia Lra.
From Verif Require Import Base DqModel AngleModel AngleSpec AngleProofs SortGroupProofs ComboSpec ComboProofs NearModel NearSpec NearProofs.
Import ListNotations.
Local Open Scope R_scope.

(** ** KL modes *)
Lemma row_at_iff : forall A (l : list A) z a, row_at l z = Ok a <-> named_by l z a.
Proof.
  intros A l z a. unfold row_at, named_by. set (n := Z.of_nat (List.length l)). split.
  - destruct (Z.leb_spec 0 z) as [L|L], (Z.ltb_spec z n) as [L'|L']; cbn [andb].
    + intros H. apply pick_iff in H. left. exists (Z.to_nat z). split; [lia|exact H].
    + destruct (Z.leb_spec (- n) z), (Z.ltb_spec z 0); cbn [andb]; try discriminate; lia.
    + destruct (Z.leb_spec (- n) z) as [M|M], (Z.ltb_spec z 0) as [M'|M']; cbn [andb]; try discriminate; try lia. intros H. apply pick_iff in H. right. exists (Z.to_nat (- z - 1)). split; [lia|].
      assert (LT : (Z.to_nat (- z - 1) < List.length l)%nat) by lia. rewrite (nth_error_nth' (rev l) a) by (rewrite rev_length; exact LT). rewrite rev_nth by exact LT. rewrite <- (nth_error_nth' l a) by lia. rewrite <- H. f_equal. lia.
    + lia.
  - intros [(k & -> & H)|(k & -> & H)].
    + assert (LT : (k < List.length l)%nat) by (apply nth_error_Some; congruence). destruct (Z.leb_spec 0 (Z.of_nat k)); [|lia]. destruct (Z.ltb_spec (Z.of_nat k) n); [|lia]. cbn [andb]. rewrite Nat2Z.id. apply pick_iff. exact H.
    + assert (LT : (k < List.length l)%nat) by (rewrite <- (rev_length l); apply nth_error_Some; congruence). destruct (Z.leb_spec 0 (- Z.of_nat (S k))); [lia|]. destruct (Z.ltb_spec (- Z.of_nat (S k)) n); [|lia]. cbn [andb]. destruct (Z.leb_spec (- n) (- Z.of_nat (S k))); [|lia]. destruct (Z.ltb_spec (- Z.of_nat (S k)) 0); [|lia]. cbn [andb]. apply pick_iff.
      rewrite (nth_error_nth' (rev l) a) in H by (rewrite rev_length; exact LT). rewrite rev_nth in H by exact LT. rewrite <- (nth_error_nth' l a) in H by lia. rewrite <- H. f_equal. lia.
Qed.
Theorem kl_iff : forall table mode guess v, kl_throughput table mode guess = Ok v <->
  exists seps row i s, nth_error table 0 = Some seps /\ nearest_of (fun x => Rabs (x - guess)) seps i s /\ named_by table mode row /\ nth_error row i = Some v.
Proof.
  intros table mode guess v. unfold kl_throughput. destruct (row_at table 0) as [seps|] eqn:E0; cbn [bind].
  - apply row_at_iff in E0. assert (H0 : nth_error table 0 = Some seps). { destruct E0 as [(k & K & H)|(k & K & _)]; [|lia]. replace 0%nat with k by lia. exact H. }
    destruct (argmin _) as [i|] eqn:EI; cbn [bind].
    + apply argmin_iff in EI. apply (least_map _ (fun x => Rabs (x - guess)) seps) in EI. destruct EI as (s & NS). destruct (row_at table mode) as [row|] eqn:ER; cbn [bind].
      * apply row_at_iff in ER. rewrite pick_iff. split; [intros H; exists seps, row, i, s; auto|]. intros (seps' & row' & i' & s' & S' & N' & R' & HV). rewrite H0 in S'. injection S' as <-.
        assert (I : i' = i) by (apply (least_fun (map (fun x => Rabs (x - guess)) seps)); apply least_map; eauto). subst i'. apply row_at_iff in R', ER. rewrite ER in R'. injection R' as <-. exact HV.
      * split; [discriminate|]. intros (? & row' & ? & ? & _ & _ & R' & _). apply row_at_iff in R'. congruence.
    + split; [discriminate|]. intros (seps' & ? & i' & s' & S' & N' & _). rewrite H0 in S'. injection S' as <-. assert (L : least (map (fun x => Rabs (x - guess)) seps) i') by (apply least_map; eauto). apply argmin_iff in L. congruence.
  - split; [discriminate|]. intros (seps' & _ & _ & _ & S' & _). assert (N : named_by table 0 seps') by (left; exists 0%nat; auto). apply row_at_iff in N. congruence.
Qed.
(** Index 0 is the row of separations. *)
Theorem kl_zero : forall seps modes guess, kl_throughput (seps :: modes) 0 guess = bind (argmin (map (fun x => Rabs (x - guess)) seps)) (fun i => pick seps i).
Proof.
  intros seps modes guess. unfold kl_throughput. assert (H : row_at (seps :: modes) 0 = Ok seps) by (apply row_at_iff; left; exists 0%nat; auto). rewrite H. cbn [bind]. destruct (argmin _) as [i|]; reflexivity.
Qed.
Theorem kl_separation : forall seps modes guess i s, nearest_of (fun x => Rabs (x - guess)) seps i s -> kl_throughput (seps :: modes) 0 guess = Ok s.
Proof. intros seps modes guess i s N. apply kl_iff. exists seps, seps, i, s. split; [reflexivity|]. split; [exact N|]. split; [left; exists 0%nat; auto|exact (proj1 N)]. Qed.
(** From the front every index is one mode early. *)
Theorem kl_shift : forall seps modes guess k i s v, nearest_of (fun x => Rabs (x - guess)) seps i s ->
  (kl_throughput (seps :: modes) (Z.of_nat (S k)) guess = Ok v <-> exists row, nth_error modes k = Some row /\ nth_error row i = Some v).
Proof.
  intros seps modes guess k i s v N. rewrite kl_iff. split.
  - intros (seps' & row & i' & s' & S' & N' & [(m & M & R0)|(m & M & _)] & H); [|lia]. injection S' as <-. assert (i' = i) by (apply (least_fun (map (fun x => Rabs (x - guess)) seps)); apply least_map; eauto). subst i'. assert (m = S k) by lia. subst m. exists row. auto.
  - intros (row & R0 & H). exists seps, row, i, s. split; [reflexivity|]. split; [exact N|]. split; [|exact H]. left. exists (S k). auto.
Qed.
(** From the end the index is the mode meant, as long as there are that many. *)
Theorem kl_end : forall seps modes guess k i s v, nearest_of (fun x => Rabs (x - guess)) seps i s -> (k < List.length modes)%nat ->
  (kl_throughput (seps :: modes) (- Z.of_nat (S k)) guess = Ok v <-> exists row, named_by modes (- Z.of_nat (S k)) row /\ nth_error row i = Some v).
Proof.
  intros seps modes guess k i s v N LT. assert (NB : forall row, named_by (seps :: modes) (- Z.of_nat (S k)) row <-> named_by modes (- Z.of_nat (S k)) row).
  { intros row. unfold named_by. cbn [rev]. split.
    - intros [(m & M & _)|(m & M & H)]; [lia|]. assert (m = k) by lia. subst m. rewrite nth_error_app1 in H by (rewrite rev_length; exact LT). right. exists k. auto.
    - intros [(m & M & _)|(m & M & H)]; [lia|]. assert (m = k) by lia. subst m. right. exists k. split; [reflexivity|]. rewrite nth_error_app1 by (rewrite rev_length; exact LT). exact H. }
  rewrite kl_iff. split.
  - intros (seps' & row & i' & s' & S' & N' & R0 & H). injection S' as <-. assert (i' = i) by (apply (least_fun (map (fun x => Rabs (x - guess)) seps)); apply least_map; eauto). subst i'. exists row. split; [apply NB; exact R0|exact H].
  - intros (row & R0 & H). exists seps, row, i, s. split; [reflexivity|]. split; [exact N|]. split; [apply NB; exact R0|exact H].
Qed.

(** ** Rounding to a pixel *)
Lemma rounds_0 : forall x, Rabs x <= / 2 -> rounds x 0.
Proof. intros x H. split; [rewrite Rminus_0_r; exact H|intros _; exists 0%Z; reflexivity]. Qed.
Lemma rounds_nonneg : forall x z, 0 <= x -> rounds x z -> (0 <= z)%Z.
Proof.
  intros x z N (A & _). assert (V : x - IZR z <= / 2) by (eapply Rle_trans; [apply Rle_abs|exact A]). assert (-1 < IZR z) by lra. apply lt_IZR in H. lia.
Qed.
Theorem half_pixel : forall grid t i g, nth_error grid i = Some g -> Rabs (far t - far g) <= / 2 -> radially_near grid t i.
Proof.
  intros grid t i g G H. split; [apply nth_error_Some; congruence|]. exists 0%Z. split.
  - exists g. split; [exact G|]. apply rounds_0. rewrite Rabs_Rabsolu. exact H.
  - intros j z _ (g' & _ & RO). apply (rounds_nonneg _ _ (Rabs_pos _) RO).
Qed.
Lemma pick_second : forall P (average : P -> P -> P) t g1 g2 p q a b1 b2, far t <> 0 -> Rabs (far t - far g1) <= / 2 -> Rabs (far t - far g2) <= / 2 ->
  azimuth t a -> azimuth g1 b1 -> azimuth g2 b2 -> 10 * far t * Rabs (a - b2) + 2 <= 10 * far t * Rabs (a - b1) -> psf_at average [g1; g2] [p; q] t = Ok q.
Proof.
  intros P average t g1 g2 p q a b1 b2 NZ H1 H2 A B1 B2 LT. apply psf_at_iff. right. split; [exact NZ|].
  assert (R0 : radially_near [g1; g2] t 0) by (apply (half_pixel _ _ 0%nat g1); [reflexivity|exact H1]). assert (R1 : radially_near [g1; g2] t 1) by (apply (half_pixel _ _ 1%nat g2); [reflexivity|exact H2]).
  split; [exists 0%nat, 1%nat; auto|]. left. exists 1%nat. split; [|reflexivity].
  set (z1 := rint (10 * far t * Rabs (a - b1))). set (z2 := rint (10 * far t * Rabs (a - b2))). pose proof (rint_rounds (10 * far t * Rabs (a - b1))) as Z1. pose proof (rint_rounds (10 * far t * Rabs (a - b2))) as Z2. fold z1 in Z1. fold z2 in Z2.
  assert (D : (z2 < z1)%Z). { destruct Z1 as (Z1 & _), Z2 as (Z2 & _). pose proof (Rle_abs (10 * far t * Rabs (a - b1) - IZR z1)). pose proof (Rle_abs (- (10 * far t * Rabs (a - b2) - IZR z2))) as V. rewrite Rabs_Ropp in V. apply lt_IZR. lra. }
  assert (S1 : forall z, angular_step [g1; g2] t 0 z <-> z = z1). { intros z. split; [intros (g & a' & b' & G & A' & B' & RO); injection G as <-; rewrite (azimuth_fun _ _ _ A' A), (azimuth_fun _ _ _ B' B1) in RO; symmetry; apply rounds_iff; exact RO|intros ->; exists g1, a, b1; auto]. }
  assert (S2 : forall z, angular_step [g1; g2] t 1 z <-> z = z2). { intros z. split; [intros (g & a' & b' & G & A' & B' & RO); injection G as <-; rewrite (azimuth_fun _ _ _ A' A), (azimuth_fun _ _ _ B' B2) in RO; symmetry; apply rounds_iff; exact RO|intros ->; exists g2, a, b2; auto]. }
  intros j. split.
  - intros (RJ & z & ST & LE). destruct RJ as (LJ & _). cbn in LJ. destruct j as [|[|j]]; [|reflexivity|lia]. apply S1 in ST. subst z. specialize (LE 1%nat z2 R1 (proj2 (S2 z2) eq_refl)). lia.
  - intros ->. split; [exact R1|]. exists z2. split; [apply S2; reflexivity|]. intros j z (LJ & _) ST. cbn in LJ. destruct j as [|[|j]]; [apply S1 in ST; lia|apply S2 in ST; lia|lia].
Qed.
Lemma far_x : forall x, 0 <= x -> far (x, 0) = x.
Proof. intros x H. rewrite <- radius_far. unfold radius. cbn [fst snd]. rewrite sqrt_sq1. apply Rabs_pos_eq. exact H. Qed.
Lemma far_y : forall x, 0 <= x -> far (0, x) = x.
Proof. intros x H. rewrite <- radius_far. unfold radius. cbn [fst snd]. rewrite sqrt_sq0. apply Rabs_pos_eq. exact H. Qed.
(** An entry at exactly the radius asked for loses to one up to half a pixel off. *)
Theorem round_loses : forall P (average : P -> P -> P) (p q : P) r e, 1 <= r -> 0 < e <= / 2 ->
  far (0, r) = far (r, 0) /\ far (r + e, 0) <> far (r, 0) /\ psf_at average [(0, r); (r + e, 0)] [p; q] (r, 0) = Ok q.
Proof.
  intros P average p q r e L E. rewrite far_y, !far_x by lra. split; [reflexivity|]. split; [lra|]. pose proof PI_RGT_0 as PP. pose proof PI2_3_2 as P2. unfold PI2 in P2.
  apply pick_second with (a := 0) (b1 := PI / 2) (b2 := 0); try rewrite !far_x by lra; try rewrite !far_y by lra.
  - lra.
  - replace (r - r) with 0 by ring. rewrite Rabs_R0. lra.
  - replace (r - (r + e)) with (- e) by ring. rewrite Rabs_Ropp, Rabs_pos_eq by lra. lra.
  - unfold azimuth. cbn [fst snd]. rewrite far_x, cos_0, sin_0 by lra. split; [lra|]. split; [lra|]. split; [lra|]. intros _. reflexivity.
  - unfold azimuth. cbn [fst snd]. rewrite far_y, cos_PI2, sin_PI2 by lra. split; [lra|]. split; [lra|]. split; [lra|]. intros H. injection H as H. lra.
  - unfold azimuth. cbn [fst snd]. rewrite far_x, cos_0, sin_0 by lra. split; [lra|]. split; [lra|]. split; [lra|]. intros _. reflexivity.
  - replace (0 - 0) with 0 by ring. rewrite Rabs_R0. replace (0 - PI / 2) with (- (PI / 2)) by ring. rewrite Rabs_Ropp, Rabs_pos_eq by lra. nra.
Qed.
(** Of two entries at the right radius, the one just across the cut of the azimuth loses to one
    nearly opposite. *)
Theorem cut_loses : forall P (average : P -> P -> P) (p q : P) a b, 1 <= a -> 0 < b < a ->
  far (- a, - b) = far (- a, b) /\ far (a, b) = far (- a, b) /\ dist (- a, b) (- a, - b) < dist (- a, b) (a, b) /\ psf_at average [(- a, - b); (a, b)] [p; q] (- a, b) = Ok q.
Proof.
  intros P average p q a b L B. set (r := sqrt (a ^ 2 + b ^ 2)).
  assert (F1 : far (- a, - b) = r) by (rewrite <- radius_far; unfold radius, r; cbn [fst snd]; f_equal; ring). assert (F2 : far (a, b) = r) by (rewrite <- radius_far; unfold radius, r; cbn [fst snd]; f_equal; ring). assert (F3 : far (- a, b) = r) by (rewrite <- radius_far; unfold radius, r; cbn [fst snd]; f_equal; ring).
  assert (RR : 1 <= r). { unfold r. rewrite <- sqrt_1 at 1. apply sqrt_le_1_alt. nra. }
  split; [congruence|]. split; [congruence|]. split.
  { unfold dist. cbn [fst snd]. apply sqrt_lt_1_alt. split; nra. }
  set (th := atan (b / a)). assert (T0 : 0 < th). { unfold th. rewrite <- atan_0. apply atan_increasing. apply Rdiv_lt_0_compat; lra. } assert (T1 : th < PI / 2) by (apply (proj2 (atan_bound (b / a)))).
  assert (CO : r * cos th = a). { unfold r, th. rewrite hyp_cos by lra. apply Rabs_pos_eq. lra. } assert (SI : r * sin th = b). { unfold r, th. rewrite hyp_sin by lra. rewrite Rabs_pos_eq by lra. field. lra. }
  pose proof PI_RGT_0 as PP. pose proof PI2_3_2 as P2. unfold PI2 in P2.
  assert (CP : cos (PI - th) = - cos th) by (replace (PI - th) with (- (th - PI)) by ring; rewrite cos_neg; replace (th - PI) with (th + PI - 2 * PI) by ring; replace (th + PI - 2 * PI) with ((th + PI) + 2 * IZR (-1) * PI) by (cbn; ring); rewrite cos_turn, neg_cos; reflexivity).
  assert (SP : sin (PI - th) = sin th) by (apply sin_PI_x).
  apply pick_second with (a := PI - th) (b1 := - (PI - th)) (b2 := th); rewrite ?F1, ?F2, ?F3.
  - lra.
  - replace (r - r) with 0 by ring. rewrite Rabs_R0. lra.
  - replace (r - r) with 0 by ring. rewrite Rabs_R0. lra.
  - unfold azimuth. cbn [fst snd]. rewrite F3, CP, SP. split; [lra|]. split; [lra|]. split; [lra|]. intros H. injection H as H1 H2. lra.
  - unfold azimuth. cbn [fst snd]. rewrite F1, cos_neg, sin_neg, CP, SP. split; [lra|]. split; [lra|]. split; [lra|]. intros H. injection H as H1 H2. lra.
  - unfold azimuth. cbn [fst snd]. rewrite F2. split; [lra|]. split; [lra|]. split; [lra|]. intros H. injection H as H1 H2. lra.
  - rewrite (Rabs_pos_eq (PI - th - th)) by lra. rewrite (Rabs_pos_eq (PI - th - - (PI - th))) by lra. nra.
Qed.

(** ** The corner of a cropped frame *)
(** The table has an entry where the source is on the detector, and one off by the corner of the
    crop.  get_1d_ct finds the former, inject_psf the latter. *)
Theorem crop_differs : forall P (p q : P) (u v x y cx cy roll sep pa : R), (cx, cy) <> (0, 0) -> 0 <= sep ->
  let h := mkct (Some x) (Some y) (Some cx) (Some cy) in
  let there := (x + (- sep * sin (rad (pa - roll))) + / 2, y + sep * cos (rad (pa - roll)) + / 2) in let here := (fst there + cx, snd there + cy) in
  get_1d_ct [(here, u); (there, v)] h [sep] true = Ok ([sep], [u]) /\ injected_psf [here; there] [p; q] h roll sep pa = Ok q.
Proof.
  intros P p q u v x y cx cy roll sep pa HC HS h there here. split.
  - unfold get_1d_ct, h. cbn [starx stary det0x det0y getkey bind default0 map fst snd here there mapR].
    replace (x + - sep * sin (rad (pa - roll)) + / 2 + cx - (x + cx + / 2)) with (- (sep * sin (rad (pa - roll)))) by ring. replace (y + sep * cos (rad (pa - roll)) + / 2 + cy - (y + cy + / 2)) with (sep * cos (rad (pa - roll))) by ring.
    assert (E : sqrt ((- (sep * sin (rad (pa - roll)))) ^ 2 + (sep * cos (rad (pa - roll))) ^ 2) = sep). { replace ((- (sep * sin (rad (pa - roll)))) ^ 2 + (sep * cos (rad (pa - roll))) ^ 2) with (sep² * ((sin (rad (pa - roll)))² + (cos (rad (pa - roll)))²)) by (unfold Rsqr; ring). rewrite sin2_cos2, Rmult_1_r. apply sqrt_Rsqr. exact HS. }
    rewrite E. replace (sep - sep) with 0 by ring. rewrite Rabs_R0. unfold argmin, argmin_from. destruct (Rlt_dec _ 0) as [L|L]; [pose proof (Rabs_pos (sep - sqrt ((x + - sep * sin (rad (pa - roll)) + / 2 - (x + cx + / 2)) ^ 2 + (y + sep * cos (rad (pa - roll)) + / 2 - (y + cy + / 2)) ^ 2))); lra|]. reflexivity.
  - apply injected_iff. exists x, y, 1%nat, there. split; [reflexivity|]. split; [reflexivity|]. split; [|reflexivity]. fold there. split; [reflexivity|]. assert (Z : dist there there = 0) by (unfold dist; replace ((fst there - fst there) ^ 2 + (snd there - snd there) ^ 2) with 0 by ring; apply sqrt_0).
    rewrite Z. intros [|[|j]] b B; [|injection B as <-; rewrite Z; split; [lra|lia]|destruct j; discriminate B]. injection B as <-.
    assert (D : 0 < dist there here). { apply dist_pos. unfold here. rewrite (surjective_pairing there) at 1. intros H. injection H as H1 H2. apply HC. f_equal; lra. } split; [lra|]. intros _. exact D.
Qed.
Theorem ct_iff' : forall table h seps out, get_1d_ct table h seps true = Ok out <->
  exists x y cx cy, starx h = Some x /\ stary h = Some y /\ corner (det0x h) cx /\ corner (det0y h) cy /\ fst out = seps
    /\ Forall2 (fun sep ct => exists i e, nearest_of (fun e => Rabs (sep - dist (x + cx + / 2, y + cy + / 2) (fst e))) table i e /\ ct = snd e) seps (snd out).
Proof.
  assert (C1 : forall o, corner o (default0 o)) by (intros [a|]; [left|right]; auto). assert (C2 : forall o c, corner o c -> c = default0 o) by (intros o c [-> | (-> & ->)]; reflexivity).
  intros table h seps out. rewrite ct_iff. split.
  - intros (x & y & X & Y & E & F). exists x, y, (default0 (det0x h)), (default0 (det0y h)). auto 10.
  - intros (x & y & cx & cy & X & Y & CX & CY & E & F). apply C2 in CX, CY. subst cx cy. exists x, y. auto.
Qed.
