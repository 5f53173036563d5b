(** Proofs on angles. *)
From Coq Require Import List Reals ZArith Lra Lia.
From Verif Require Import Base DqModel DqProofs AngleModel AngleSpec.
Import ListNotations.
Local Open Scope R_scope.

(** ** Basics *)
Lemma PI_pos : 0 < PI. Proof. exact PI_RGT_0. Qed.
Lemma rad_deg : forall a, rad (deg a) = a.
Proof. intros a. unfold rad, deg. pose proof PI_pos. field. lra. Qed.
Lemma deg_rad : forall a, deg (rad a) = a.
Proof. intros a. unfold rad, deg. pose proof PI_pos. field. lra. Qed.
Lemma rad_alt : forall a, a * PI / 180 = rad a. Proof. reflexivity. Qed.
Lemma rad_plus : forall a b, rad (a + b) = rad a + rad b. Proof. intros. unfold rad. field. Qed.
Lemma rad_minus : forall a b, rad (a - b) = rad a - rad b. Proof. intros. unfold rad. field. Qed.
Lemma rad_opp : forall a, rad (- a) = - rad a. Proof. intros. unfold rad. field. Qed.
Lemma rad_turns : forall a n, rad (a + 360 * IZR n) = rad a + 2 * IZR n * PI. Proof. intros. unfold rad. field. Qed.
Lemma rad_half : forall a n, rad (a + 180 * IZR n) = rad a + IZR n * PI. Proof. intros. unfold rad. field. Qed.
Lemma rad_inj : forall a b, rad a = rad b -> a = b.
Proof. intros a b H. rewrite <- (deg_rad a), <- (deg_rad b), H. reflexivity. Qed.
Lemma rad_lt : forall a b, a < b <-> rad a < rad b.
Proof. intros a b. unfold rad. pose proof PI_pos. split; intros H1; nra. Qed.
Lemma rad_le : forall a b, a <= b <-> rad a <= rad b.
Proof. intros a b. unfold rad. pose proof PI_pos. split; intros H1; nra. Qed.
Lemma rad_0 : rad 0 = 0. Proof. unfold rad. field. Qed.
Lemma rad_90 : rad 90 = PI / 2. Proof. unfold rad. field. Qed.
Lemma rad_m90 : rad (-90) = - (PI / 2). Proof. unfold rad. field. Qed.
Lemma rad_m180 : rad (-180) = - PI. Proof. unfold rad. field. Qed.
Lemma rad_180 : rad 180 = PI. Proof. unfold rad. field. Qed.
Lemma rad_360 : rad 360 = 2 * PI. Proof. unfold rad. field. Qed.

Lemma sin_kPI : forall n : Z, sin (IZR n * PI) = 0.
Proof. intros n. apply sin_eq_0_1. exists n. reflexivity. Qed.
Lemma cos_2kPI : forall n : Z, cos (2 * IZR n * PI) = 1.
Proof.
  intros n. replace (2 * IZR n * PI) with (2 * (IZR n * PI)) by ring. rewrite cos_2a_sin, sin_kPI. ring.
Qed.
Lemma sin_2kPI : forall n : Z, sin (2 * IZR n * PI) = 0.
Proof. intros n. replace (2 * IZR n * PI) with (IZR (2 * n) * PI) by (rewrite mult_IZR; ring). apply sin_kPI. Qed.
Lemma sin_turn : forall a n, sin (a + 2 * IZR n * PI) = sin a.
Proof. intros. rewrite sin_plus, cos_2kPI, sin_2kPI. ring. Qed.
Lemma cos_turn : forall a n, cos (a + 2 * IZR n * PI) = cos a.
Proof. intros. rewrite cos_plus, cos_2kPI, sin_2kPI. ring. Qed.
Lemma unique_angle : forall a b, sin a = sin b -> cos a = cos b -> exists n : Z, a = b + 2 * IZR n * PI.
Proof.
  intros a b S C. assert (H : cos (a - b) = 1) by (rewrite cos_minus, S, C; pose proof (sin2_cos2 b) as X; unfold Rsqr in X; lra).
  replace (a - b) with (2 * ((a - b) / 2)) in H by field. rewrite cos_2a_sin in H. assert (Z : sin ((a - b) / 2) = 0) by nra.
  destruct (sin_eq_0_0 _ Z) as (k & K). exists k. lra.
Qed.
Lemma unique_period : forall a b, sin a = sin b -> cos a = cos b -> Rabs (a - b) < 2 * PI -> a = b.
Proof.
  intros a b S C L. destruct (unique_angle a b S C) as (n & N). pose proof PI_pos as P. assert (n = 0)%Z; [|subst; lra].
  assert (A : Rabs (IZR n) < 1).
  { assert (R : a - b = 2 * PI * IZR n) by lra. rewrite R, Rabs_mult, (Rabs_pos_eq (2 * PI)) in L by lra. nra. }
  rewrite <- abs_IZR in A. apply lt_IZR in A. lia.
Qed.

(** ** Polar coordinates *)
Lemma hyp : forall x y, x <> 0 -> sqrt (x ^ 2 + y ^ 2) = Rabs x * sqrt (1 + (y / x)²).
Proof.
  intros x y X. replace (x ^ 2 + y ^ 2) with (x² * (1 + (y / x)²)) by (unfold Rsqr; field; exact X).
  rewrite sqrt_mult_alt by apply Rle_0_sqr. rewrite sqrt_Rsqr_abs. reflexivity.
Qed.
Lemma sq_pos : forall t, 0 < sqrt (1 + t²).
Proof. intros t. apply sqrt_lt_R0. pose proof (Rle_0_sqr t). lra. Qed.
Lemma hyp_cos : forall x y, x <> 0 -> sqrt (x ^ 2 + y ^ 2) * cos (atan (y / x)) = Rabs x.
Proof. intros x y X. rewrite hyp, cos_atan by exact X. field. pose proof (sq_pos (y / x)). lra. Qed.
Lemma hyp_sin : forall x y, x <> 0 -> sqrt (x ^ 2 + y ^ 2) * sin (atan (y / x)) = Rabs x * (y / x).
Proof. intros x y X. rewrite hyp, sin_atan by exact X. pose proof (sq_pos (y / x)). field. lra. Qed.
Lemma Rabs_quot_pos : forall x y, 0 < x -> Rabs x * (y / x) = y.
Proof. intros x y H. rewrite Rabs_pos_eq by lra. field. lra. Qed.
Lemma Rabs_quot_neg : forall x y, x < 0 -> Rabs x * (y / x) = - y.
Proof. intros x y H. rewrite Rabs_left by lra. field. lra. Qed.
Lemma sqrt_sq0 : forall y, sqrt (0 ^ 2 + y ^ 2) = Rabs y.
Proof. intros y. replace (0 ^ 2 + y ^ 2) with (y²) by (unfold Rsqr; ring). apply sqrt_Rsqr_abs. Qed.
Lemma sqrt_sq1 : forall y, sqrt (y ^ 2 + 0 ^ 2) = Rabs y.
Proof. intros y. replace (y ^ 2 + 0 ^ 2) with (y²) by (unfold Rsqr; ring). apply sqrt_Rsqr_abs. Qed.

Lemma arctan2_polar : forall y x, x = sqrt (x ^ 2 + y ^ 2) * cos (arctan2 y x) /\ y = sqrt (x ^ 2 + y ^ 2) * sin (arctan2 y x).
Proof.
  intros y x. unfold arctan2. destruct (Rlt_dec 0 x) as [X|X].
  { rewrite hyp_cos, hyp_sin by lra. rewrite Rabs_quot_pos by exact X. rewrite Rabs_pos_eq by lra. split; reflexivity. }
  destruct (Rlt_dec x 0) as [X'|X'].
  { destruct (Rlt_dec y 0) as [Y|Y].
    - rewrite cos_minus, sin_minus, cos_PI, sin_PI.
      replace (sqrt (x ^ 2 + y ^ 2) * (cos (atan (y / x)) * -1 + sin (atan (y / x)) * 0)) with (- (sqrt (x ^ 2 + y ^ 2) * cos (atan (y / x)))) by ring.
      replace (sqrt (x ^ 2 + y ^ 2) * (sin (atan (y / x)) * -1 - cos (atan (y / x)) * 0)) with (- (sqrt (x ^ 2 + y ^ 2) * sin (atan (y / x)))) by ring.
      rewrite hyp_cos, hyp_sin by lra. rewrite Rabs_quot_neg by exact X'. rewrite Rabs_left by lra. split; ring.
    - rewrite cos_plus, sin_plus, cos_PI, sin_PI.
      replace (sqrt (x ^ 2 + y ^ 2) * (cos (atan (y / x)) * -1 - sin (atan (y / x)) * 0)) with (- (sqrt (x ^ 2 + y ^ 2) * cos (atan (y / x)))) by ring.
      replace (sqrt (x ^ 2 + y ^ 2) * (sin (atan (y / x)) * -1 + cos (atan (y / x)) * 0)) with (- (sqrt (x ^ 2 + y ^ 2) * sin (atan (y / x)))) by ring.
      rewrite hyp_cos, hyp_sin by lra. rewrite Rabs_quot_neg by exact X'. rewrite Rabs_left by lra. split; ring. }
  assert (x = 0) by lra. subst x. rewrite sqrt_sq0. destruct (Rlt_dec 0 y) as [Y|Y].
  { rewrite cos_PI2, sin_PI2, Rabs_pos_eq by lra. split; ring. }
  destruct (Rlt_dec y 0) as [Y'|Y'].
  { rewrite cos_neg, sin_neg, cos_PI2, sin_PI2, Rabs_left by lra. split; ring. }
  assert (y = 0) by lra. subst y. rewrite Rabs_R0. split; ring.
Qed.
Lemma arctan2_range : forall y x, - PI < arctan2 y x <= PI.
Proof.
  intros y x. unfold arctan2. pose proof PI_pos as P. pose proof (atan_bound (y / x)) as B. destruct (Rlt_dec 0 x) as [X|X]; [lra|]. destruct (Rlt_dec x 0) as [X'|X'].
  - assert (I : / x < 0) by (apply Rinv_lt_0_compat; exact X'). destruct (Rlt_dec y 0) as [Y|Y].
    + assert (T : 0 < y / x) by (unfold Rdiv; nra). pose proof (atan_increasing 0 (y / x) T) as Q. rewrite atan_0 in Q. lra.
    + assert (T : y / x <= 0) by (unfold Rdiv; nra). destruct T as [T|T]; [pose proof (atan_increasing (y / x) 0 T) as Q; rewrite atan_0 in Q; lra|rewrite T, atan_0 in *; lra].
  - destruct (Rlt_dec 0 y); [lra|]. destruct (Rlt_dec y 0); lra.
Qed.

(** ** Position angle of a pair of points *)
Lemma toward_fun : forall d a b v, 0 < d -> toward d a v -> toward d b v -> sin (rad a) = sin (rad b) /\ cos (rad a) = cos (rad b).
Proof. intros d a b v D [A1 A2] [B1 B2]. split; nra. Qed.
Lemma dist_pos : forall p q, p <> q -> 0 < dist p q.
Proof.
  intros (a & b) (c & d) H. unfold dist. cbn [fst snd]. apply sqrt_lt_R0. destruct (Req_dec a c) as [A|A]; [destruct (Req_dec b d) as [B|B]|].
  - subst. destruct (H eq_refl).
  - assert (0 < (d - b)²) by (apply Rsqr_pos_lt; lra). unfold Rsqr in *. pose proof (Rle_0_sqr (c - a)). unfold Rsqr in *. nra.
  - assert (0 < (c - a)²) by (apply Rsqr_pos_lt; lra). unfold Rsqr in *. pose proof (Rle_0_sqr (d - b)). unfold Rsqr in *. nra.
Qed.
Lemma is_pa_fun : forall p q a b, is_pa p q a -> is_pa p q b -> a = b.
Proof.
  intros p q a b (N & RA & A) (_ & RB & B). destruct (toward_fun _ _ _ _ (dist_pos p q N) A B) as [S C]. apply rad_inj.
  apply (unique_period _ _ S C). rewrite <- rad_360. rewrite <- rad_minus. apply Rabs_def1.
  - apply (proj1 (rad_lt (a - b) 360)). lra.
  - rewrite <- rad_opp. apply (proj1 (rad_lt (-360) (a - b))). lra.
Qed.

Section Pa.
Variables p q : R * R.
Let x := fst q - fst p.
Let y := snd q - snd p.
Lemma make_pa : forall a, (x <> 0 \/ y <> 0) -> 0 < a <= 2 * PI -> x = - (sqrt (y ^ 2 + x ^ 2) * sin a) -> y = sqrt (y ^ 2 + x ^ 2) * cos a -> is_pa p q (a * 180 / PI).
Proof.
  intros a N R S C. split.
  { intros E. subst x y. rewrite E in N. lra. }
  assert (RD : rad (a * 180 / PI) = a) by exact (rad_deg a). split.
  { pose proof PI_pos as P. rewrite (rad_lt 0), (rad_le _ 360), RD, rad_0, rad_360. exact R. }
  unfold toward, minus, dist. cbn [fst snd]. rewrite RD. fold x y. replace (x ^ 2 + y ^ 2) with (y ^ 2 + x ^ 2) by ring. split; assumption.
Qed.
Lemma angle_is_pa : forall k a, angle_between k p q = Ok (Some a) -> is_pa p q a.
Proof.
  intros k a H. unfold angle_between, arctan_ratio in H. fold x y in H. pose proof PI_pos as P. destruct (Req_EM_T y 0) as [Y|Y].
  - destruct k; [|discriminate H]. destruct (Rlt_dec x 0) as [X|X].
    + cbn [bind option_map] in H. rewrite Y in H. destruct (Rlt_dec 0 0) as [Z|Z]; [lra|]. injection H as <-. apply make_pa; [left; lra|lra|..]; rewrite Y, sqrt_sq0, Ropp_involutive.
      * rewrite sin_PI2, Rabs_left by exact X. ring.
      * rewrite cos_PI2. ring.
    + destruct (Rlt_dec 0 x) as [X'|X']; [|discriminate H]. cbn [bind option_map] in H. rewrite Y in H. destruct (Rlt_dec 0 0) as [Z|Z]; [lra|]. injection H as <-.
      apply make_pa; [left; lra|lra|..]; rewrite Y, sqrt_sq0; replace (2 * PI - PI / 2) with (- (PI / 2) + 2 * IZR 1 * PI) by (simpl; lra).
      * rewrite sin_turn, sin_neg, sin_PI2, Rabs_pos_eq by lra. ring.
      * rewrite cos_turn, cos_neg, cos_PI2. ring.
  - cbn [bind option_map] in H. injection H as <-. pose proof (atan_bound (x / y)) as B. pose proof (hyp_cos y x Y) as HC. pose proof (hyp_sin y x Y) as HS. set (t := atan (x / y)) in *.
    assert (SG : (x / y < 0 -> t < 0) /\ (0 < x / y -> 0 < t) /\ (x / y = 0 -> t = 0)).
    { subst t. split; [|split]; intros T; [rewrite <- atan_0; apply atan_increasing; exact T|rewrite <- atan_0; apply atan_increasing; exact T|rewrite T; apply atan_0]. }
    clearbody t. destruct (Rlt_dec x 0) as [X|X]; destruct (Rlt_dec y 0) as [Y'|Y'].
    + rewrite Rabs_quot_neg in HS by exact Y'. rewrite Rabs_left in HC by exact Y'. apply make_pa; [left; lra|lra|..]; [rewrite sin_minus, sin_PI, cos_PI; lra|rewrite cos_minus, sin_PI, cos_PI; lra].
    + assert (Y2 : 0 < y) by lra. rewrite Rabs_quot_pos in HS by exact Y2. rewrite Rabs_pos_eq in HC by lra.
      assert (T : t < 0) by (apply (proj1 SG); unfold Rdiv; assert (0 < / y) by (apply Rinv_0_lt_compat; exact Y2); nra).
      apply make_pa; [left; lra|lra|..]; [rewrite sin_neg; lra|rewrite cos_neg; lra].
    + rewrite Rabs_quot_neg in HS by exact Y'. rewrite Rabs_left in HC by exact Y'. apply make_pa; [right; lra|lra|..]; [rewrite sin_plus, sin_PI, cos_PI, sin_neg, cos_neg; lra|rewrite cos_plus, sin_PI, cos_PI, sin_neg, cos_neg; lra].
    + assert (Y2 : 0 < y) by lra. rewrite Rabs_quot_pos in HS by exact Y2. rewrite Rabs_pos_eq in HC by lra.
      assert (T : 0 <= t). { destruct (Req_dec x 0) as [E|E]; [rewrite (proj2 (proj2 SG)); [lra|rewrite E; unfold Rdiv; ring]|]. left. apply (proj1 (proj2 SG)). unfold Rdiv. assert (0 < / y) by (apply Rinv_0_lt_compat; exact Y2). nra. }
      replace (2 * PI - t) with (- t + 2 * IZR 1 * PI) by (simpl; lra). apply make_pa; [right; lra|simpl; lra|..]; [rewrite sin_turn, sin_neg; lra|rewrite cos_turn, cos_neg; lra].
Qed.
Lemma same_pair : p = q <-> x = 0 /\ y = 0.
Proof. subst x y. split; [intros ->; lra|]. intros [A B]. destruct p, q; cbn [fst snd] in *. f_equal; lra. Qed.
Lemma angle_numpy : exists o, angle_between Numpy p q = Ok o /\ (o = None <-> p = q).
Proof.
  unfold angle_between, arctan_ratio. fold x y. pose proof same_pair as SP. destruct (Req_EM_T y 0) as [Y|Y].
  - destruct (Rlt_dec x 0) as [X|X]; [|destruct (Rlt_dec 0 x) as [X'|X']]; cbn [bind option_map]; eexists; (split; [reflexivity|]); rewrite SP; split; try discriminate; try (intros [E _]; lra); intros _; try reflexivity. lra.
  - cbn [bind option_map]. eexists. split; [reflexivity|]. rewrite SP. split; [discriminate|]. intros [_ E]. contradiction.
Qed.
Lemma angle_python : (snd p = snd q -> angle_between Python p q = Raise PyException) /\ (snd p <> snd q -> angle_between Python p q = angle_between Numpy p q).
Proof.
  unfold angle_between, arctan_ratio. fold x y. split; intros H; destruct (Req_EM_T y 0) as [Y|Y]; try reflexivity; exfalso; subst y; lra.
Qed.
End Pa.

Theorem angle_iff : forall p q a, angle_between Numpy p q = Ok (Some a) <-> is_pa p q a.
Proof.
  intros p q a. split; [apply angle_is_pa|]. intros H. destruct (angle_numpy p q) as ([b|] & E & N).
  - rewrite E. f_equal. f_equal. exact (is_pa_fun p q b a (angle_is_pa p q Numpy b E) H).
  - destruct H as (NE & _). destruct (NE (proj1 N eq_refl)).
Qed.
Theorem angle_none : forall p q, angle_between Numpy p q = Ok None <-> p = q.
Proof. intros p q. destruct (angle_numpy p q) as (o & E & N). rewrite E. split; [intros H; injection H as ->; tauto|]. intros H. f_equal. tauto. Qed.

Lemma pair_ext : forall a b : R * R, fst a = fst b -> snd a = snd b -> a = b.
Proof. intros [] []. cbn. intros -> ->. reflexivity. Qed.
Lemma seppa_toward : forall s a v, seppa2dxdy s a = v <-> toward s a v.
Proof.
  intros s a v. unfold seppa2dxdy, toward. rewrite !rad_alt. split; [intros <-; cbn [fst snd]; split; ring|]. intros [H1 H2]. apply pair_ext; cbn [fst snd]; lra.
Qed.
Theorem seppa_of_angle : forall k p q a, angle_between k p q = Ok (Some a) -> seppa2dxdy (dist p q) a = minus q p /\ seppa2xy (dist p q) a (fst p) (snd p) = q.
Proof.
  intros k p q a H. apply angle_is_pa in H. destruct H as (_ & _ & T). apply (proj2 (seppa_toward _ _ _)) in T. split; [exact T|]. unfold seppa2xy. rewrite T. unfold minus. apply pair_ext; cbn [fst snd]; ring.
Qed.
Lemma to_period : forall pa, exists b, turns b pa /\ 0 < b <= 360.
Proof.
  intros pa. destruct (archimed (- pa / 360)) as [A1 A2]. exists (pa + 360 * IZR (up (- pa / 360))). split; [exists (up (- pa / 360)); reflexivity|]. lra.
Qed.
Theorem angle_of_seppa : forall s pa c, 0 < s -> exists b, angle_between Numpy c (seppa2xy s pa (fst c) (snd c)) = Ok (Some b) /\ turns b pa /\ 0 < b <= 360 /\ dist c (seppa2xy s pa (fst c) (snd c)) = s.
Proof.
  intros s pa c S. destruct (to_period pa) as (b & (n & T) & R). exists b. set (q := seppa2xy s pa (fst c) (snd c)).
  assert (M : minus q c = seppa2dxdy s pa) by (unfold q, minus, seppa2xy; apply pair_ext; cbn [fst snd]; ring).
  assert (MT : toward s pa (minus q c)) by (apply seppa_toward; symmetry; exact M).
  assert (DS : dist c q = s).
  { unfold dist. destruct MT as [X Y]. unfold minus in X, Y. cbn [fst snd] in X, Y. rewrite X, Y. pose proof (sin2_cos2 (rad pa)) as Q. unfold Rsqr in Q.
    replace ((- (s * sin (rad pa))) ^ 2 + (s * cos (rad pa)) ^ 2) with (s² * (sin (rad pa) * sin (rad pa) + cos (rad pa) * cos (rad pa))) by (unfold Rsqr; ring).
    rewrite Q, Rmult_1_r. apply sqrt_Rsqr. lra. }
  split; [|split; [exists n; exact T|split; [exact R|exact DS]]]. apply angle_iff. split.
  { intros E. rewrite <- E in DS. unfold dist in DS. replace ((fst c - fst c) ^ 2 + (snd c - snd c) ^ 2) with 0 in DS by ring. rewrite sqrt_0 in DS. lra. }
  split; [exact R|]. rewrite DS. unfold toward. rewrite T, rad_turns, sin_turn, cos_turn. exact MT.
Qed.

Theorem polar_dist : forall a b, get_polar_dist a b = dist (seppa2dxdy (fst a) (snd a)) (seppa2dxdy (fst b) (snd b)).
Proof.
  intros (s & a) (t & b). unfold get_polar_dist, dist, seppa2dxdy. cbn [fst snd]. f_equal. rewrite !rad_alt, rad_minus, cos_minus.
  pose proof (sin2_cos2 (rad a)) as A. pose proof (sin2_cos2 (rad b)) as B. unfold Rsqr in A, B. nra.
Qed.

(** ** WCS *)
Lemma half_iff : forall a n : Z, a = ((n - 1) / 2)%Z <-> (2 * a = n - 1 \/ 2 * a + 1 = n - 1)%Z.
Proof. intros a n. pose proof (Z.div_mod (n - 1) 2 ltac:(lia)) as H. pose proof (Z.mod_pos_bound (n - 1) 2 ltac:(lia)) as B. lia. Qed.
Lemma oriented_iff : forall w v kx ky, oriented w v kx ky <-> cd11 w = - cos (rad v) * kx /\ cd12 w = sin (rad v) * kx /\ cd21 w = sin (rad v) * ky /\ cd22 w = cos (rad v) * ky.
Proof.
  intros w v kx ky. unfold oriented, sky. split.
  - intros H. assert (H1 := H 1 0 (0, 1)). assert (H2 := H 1 (-90) (1, 0)). unfold toward in H1, H2. cbn [fst snd] in H1, H2. rewrite rad_0, sin_0, cos_0, Rplus_0_l in H1.
    rewrite rad_plus, rad_m90 in H2. rewrite sin_plus, cos_plus, sin_neg, cos_neg, sin_PI2, cos_PI2 in H2.
    assert (E1 := H1 ltac:(split; ring)). assert (E2 := H2 ltac:(split; ring)). injection E1 as A1 A2. injection E2 as B1 B2. repeat split; lra.
  - intros (A & B & C & D) s a d [X Y]. rewrite rad_plus, sin_plus, cos_plus, A, B, C, D, X, Y. f_equal; ring.
Qed.
Theorem wcs_iff : forall north scale offset shape ra dec roll w, create_wcs north scale offset shape ra dec roll = Ok w <-> is_wcs north scale offset shape ra dec roll w.
Proof.
  intros north (sx & sy) (ox & oy) shape ra dec roll w. unfold create_wcs, is_wcs. cbn [fst snd]. split.
  - intros H. destruct shape as [|h [|wd [|]]]; try discriminate H. destruct ra as [a|]; [|discriminate H]. destruct dec as [d|]; [|discriminate H]. destruct roll as [r|]; [|discriminate H].
    cbn [getkey bind] in H. injection H as <-. exists h, wd, a, d, r. do 4 (split; [reflexivity|]). cbn [crpix1 crpix2 cdelt1 cdelt2 crval1 crval2 pltscale]. split.
    + apply oriented_iff. cbn [cd11 cd12 cd21 cd22]. repeat split; field.
    + split; [apply half_iff; reflexivity|]. split; [apply half_iff; reflexivity|]. repeat split; field.
  - intros (h & wd & a & d & r & -> & -> & -> & -> & O & X & Y & E1 & E2 & E3 & E4 & E5). cbn [getkey bind]. apply oriented_iff in O. destruct O as (A & B & C & D).
    apply half_iff in X, Y. destruct w as [w1 w2 w3 w4 x1 x2 d1 d2 v1 v2 ps]. cbn [cd11 cd12 cd21 cd22 crpix1 crpix2 cdelt1 cdelt2 crval1 crval2 pltscale] in *.
    subst w1 w2 w3 w4 x1 x2 d1 d2 v1 v2. f_equal. f_equal; try field; lra.
Qed.

(** ** The roll *)
Lemma roll_is : forall c12 c22, is_roll c12 c22 (- deg (arctan2 (- c12) c22)).
Proof.
  intros c12 c22. destruct (arctan2_polar (- c12) c22) as [X Y]. pose proof (arctan2_range (- c12) c22) as B. set (t := arctan2 (- c12) c22) in *. set (rho := sqrt (c22 ^ 2 + (- c12) ^ 2)) in *.
  assert (RD : rad (- deg t) = - t) by (rewrite rad_opp, rad_deg; reflexivity). pose proof PI_pos. split.
  { rewrite (rad_le (-180)), (rad_lt _ 180), RD, rad_m180, rad_180. lra. }
  split.
  { intros A C. unfold t, arctan2, deg. rewrite A, C. repeat (destruct (Rlt_dec _ _); [lra|]). lra. }
  exists rho. split; [apply sqrt_pos|]. rewrite RD, sin_neg, cos_neg. split; [lra|exact X].
Qed.
Lemma is_roll_fun : forall c12 c22 r r', is_roll c12 c22 r -> is_roll c12 c22 r' -> r = r'.
Proof.
  intros c12 c22 r r' (B & Z & rho & P & S & C) (B' & Z' & rho' & P' & S' & C').
  assert (E : rho = rho').
  { assert (Q : rho² = rho'²).
    { pose proof (sin2_cos2 (rad r)) as T. pose proof (sin2_cos2 (rad r')) as T'. unfold Rsqr in *.
      transitivity (c12 * c12 + c22 * c22); [rewrite S, C; nra|rewrite S', C'; nra]. }
    apply Rsqr_inj; assumption. }
  destruct (Req_dec rho 0) as [R|R].
  { subst rho'. rewrite R in *. rewrite Z, Z'; lra. }
  subst rho'. apply rad_inj. apply unique_period.
  - apply (Rmult_eq_reg_l rho); [congruence|exact R].
  - apply (Rmult_eq_reg_l rho); [congruence|exact R].
  - rewrite <- rad_360, <- rad_minus. apply Rabs_def1; [apply (proj1 (rad_lt (r - r') 360)); lra|rewrite <- rad_opp; apply (proj1 (rad_lt (-360) (r - r'))); lra].
Qed.
Theorem roll_of_wcs : forall north k offset shape ra dec roll w r, 0 < k -> create_wcs north (k, k) offset shape ra dec (Some roll) = Ok w ->
  (is_roll (cd12 w) (cd22 w) r <-> turns r (north + roll) /\ -180 <= r < 180).
Proof.
  intros north k offset shape ra dec roll w r K H. apply wcs_iff in H. destruct H as (h & wd & a & d & r0 & _ & _ & _ & E & O & _). injection E as <-. cbn [fst snd] in O.
  apply oriented_iff in O. destruct O as (_ & B & _ & D). set (v := north + roll) in *. set (kk := k / 3600000) in *. assert (KK : 0 < kk) by (unfold kk; lra).
  split.
  - intros (R & _ & rho & P & S & C). split; [|exact R].
    assert (E : rho = kk).
    { assert (Q : rho² = kk²).
      { pose proof (sin2_cos2 (rad r)) as T. pose proof (sin2_cos2 (rad v)) as T'. unfold Rsqr in *.
        transitivity (cd12 w * cd12 w + cd22 w * cd22 w); [rewrite S, C; nra|rewrite B, D; nra]. }
      apply Rsqr_inj; [exact P|lra|exact Q]. }
    subst rho. destruct (unique_angle (rad r) (rad v)) as (n & N); [nra|nra|]. exists n. apply rad_inj. rewrite rad_turns. exact N.
  - intros ((n & ->) & R). split; [exact R|]. rewrite rad_turns, sin_turn, cos_turn, B, D. split.
    + intros S C. exfalso. pose proof (sin2_cos2 (rad v)) as T. unfold Rsqr in T. assert (sin (rad v) = 0) by nra. assert (cos (rad v) = 0) by nra. nra.
    + exists kk. split; [lra|]. split; ring.
Qed.
(** after the turn by the roll, image angles are sky angles *)
Theorem north_is_up : forall north k offset shape ra dec roll w r s a, 0 < k -> create_wcs north (k, k) offset shape ra dec (Some roll) = Ok w -> is_roll (cd12 w) (cd22 w) r ->
  forall v east up_, toward s a v -> sky w v = (east, up_) -> let t := turn r v in east = - (k / 3600000) * fst t /\ up_ = k / 3600000 * snd t.
Proof.
  intros north k offset shape ra dec roll w r s a K H R v east up_ T SK. pose proof (proj1 (roll_of_wcs _ _ _ _ _ _ _ _ _ K H) R) as ((n & E) & _).
  apply wcs_iff in H. destruct H as (h & wd & a' & d & r0 & _ & _ & _ & E0 & O & _). injection E0 as <-. cbn [fst snd] in O. rewrite (O s a v T) in SK. injection SK as <- <-.
  destruct T as [X Y]. unfold turn. cbn [fst snd]. rewrite X, Y, E, rad_turns, sin_turn, cos_turn, rad_plus, sin_plus, cos_plus. split; ring.
Qed.

(** ** Northup *)
Section Northup.
Variables P D : Type.
Variable rotate : P -> R -> R * R -> P.
Variable rotate_cd : R * R * R * R -> R -> R * R * R * R.
Variable rotate_dq : D -> R -> R * R -> D.
Notation nf := (nframe P D).
Lemma centre_iff : forall c (f : nf) p, is_centre P D c f p <-> p = centre_of P D c f.
Proof.
  intros c f p. unfold is_centre, centre_of. cbv zeta.
  assert (M : (exists i j : Z, p = (IZR i, IZR j) /\ (2 * i = n_w _ _ f - 1 \/ 2 * i + 1 = n_w _ _ f - 1)%Z /\ (2 * j = n_h _ _ f - 1 \/ 2 * j + 1 = n_h _ _ f - 1)%Z) <-> p = (IZR ((n_w _ _ f - 1) / 2), IZR ((n_h _ _ f - 1) / 2))).
  { split; [intros (i & j & -> & I & J); apply half_iff in I, J; subst; reflexivity|]. intros ->. do 2 eexists. split; [reflexivity|]. split; apply half_iff; reflexivity. }
  destruct c as [| |q]; [exact M| |reflexivity]. destruct (n_star P D f) as [[x|] [y|]]; cbn [fst snd]; rewrite M; clear M.
  - split; [|intros ->; left; eauto]. intros [(x' & y' & E & ->)|[[E|E] _]]; [injection E as -> ->; reflexivity|discriminate E|discriminate E].
  - split; [|intros ->; right; auto]. intros [(x' & y' & E & ->)|[_ H]]; [discriminate E|exact H].
  - split; [|intros ->; right; auto]. intros [(x' & y' & E & ->)|[_ H]]; [discriminate E|exact H].
  - split; [|intros ->; right; auto]. intros [(x' & y' & E & ->)|[_ H]]; [discriminate E|exact H].
Qed.
Lemma northup_frame_iff : forall u c (f g : nf), northup_frame P D rotate rotate_cd rotate_dq u c f = Ok g <-> turned P D rotate rotate_cd rotate_dq u c f g.
Proof.
  intros u c f g. unfold northup_frame, turned, roll_of. split.
  - intros H. destruct u.
    + destruct (n_cd P D f) as [[[[c11 c12] c21] c22]|] eqn:CD; cbn [getkey bind] in H; [|discriminate H]. destruct (n_err P D f) as [|e rest] eqn:ER; [discriminate H|]. injection H as <-.
      exists (- deg (arctan2 (- c12) c22)), (centre_of P D c f), e, rest. split; [apply centre_iff; reflexivity|]. split; [reflexivity|]. split.
      { intros _. exists c11, c12, c21, c22. split; [reflexivity|]. split; [apply roll_is|]. reflexivity. }
      split; [discriminate|]. repeat split.
    + destruct (n_roll P D f) as [r|] eqn:RO; cbn [getkey bind] in H; [|discriminate H]. destruct (n_err P D f) as [|e rest] eqn:ER; [discriminate H|]. injection H as <-.
      exists r, (centre_of P D c f), e, rest. split; [apply centre_iff; reflexivity|]. split; [reflexivity|]. split; [discriminate|]. split; [intros _; split; reflexivity|]. repeat split.
  - intros (r & p & e & rest & CE & ER & W & NW & A1 & A2 & A3 & A4 & A5 & A6 & A7). apply centre_iff in CE. subst p.
    destruct g as [gh gw gd ge gq gs gc gr]. cbn [n_h n_w n_data n_err n_dq n_star n_cd n_roll] in *. subst gh gw gd ge gq gs gr. rewrite ER. destruct u.
    + destruct (W eq_refl) as (c11 & c12 & c21 & c22 & CD & RO & ->). rewrite CD. cbn [getkey bind]. rewrite (is_roll_fun _ _ _ _ RO (roll_is c12 c22)). reflexivity.
    + destruct (NW eq_refl) as [RO ->]. rewrite RO. reflexivity.
Qed.
Theorem northup_iff : forall u c (fs gs : list nf), northup P D rotate rotate_cd rotate_dq u c fs = Ok gs <-> Forall2 (turned P D rotate rotate_cd rotate_dq u c) fs gs.
Proof.
  intros u c fs. unfold northup. induction fs as [|f fs IH]; intros gs.
  - cbn [mapR]. split; [intros H; injection H as <-; constructor|intros H; inversion H; reflexivity].
  - cbn [mapR]. split.
    + intros H. destruct (northup_frame _ _ _ _ _ u c f) as [g|] eqn:G; cbn [bind] in H; [|discriminate H]. remember (mapR _ fs) as m eqn:M in H. symmetry in M. destruct m as [gs'|]; cbn [bind] in H; [|discriminate H]. injection H as <-.
      constructor; [apply northup_frame_iff; exact G|apply IH; exact M].
    + intros H. inversion H as [|? g ? gs' G F]; subst. apply northup_frame_iff in G. rewrite G. cbn [bind]. rewrite (proj2 (IH gs') F). reflexivity.
Qed.
End Northup.

(** ** The north angle *)
Lemma is_offset_fun : forall d o o', is_offset d o -> is_offset d o' -> o = o'.
Proof.
  intros d o o' (B & n & N & E) (B' & n' & N' & E').
  assert (A : (Z.abs (n - n') < 2)%Z).
  { apply lt_IZR. rewrite abs_IZR, minus_IZR. apply Rabs_def1; simpl; lra. }
  destruct (Z.eq_dec n n') as [->|NE]; [lra|]. exfalso. assert (C : (n = n' + 1 \/ n' = n + 1)%Z) by lia. destruct C as [-> | ->]; rewrite plus_IZR in *.
  - destruct (E ltac:(left; lra)) as (k & K). destruct (E' ltac:(right; lra)) as (k' & K'). lia.
  - destruct (E ltac:(right; lra)) as (k & K). destruct (E' ltac:(left; lra)) as (k' & K'). lia.
Qed.
Lemma even_turns : forall n a, Z.Even n -> sin (a + IZR n * PI) = sin a /\ cos (a + IZR n * PI) = cos a.
Proof.
  intros n a (k & ->). rewrite mult_IZR. split; [apply sin_turn|apply cos_turn].
Qed.
Lemma odd_turns : forall n a, Z.Odd n -> sin (a + IZR n * PI) = - sin a /\ cos (a + IZR n * PI) = - cos a.
Proof.
  intros n a (k & ->). rewrite plus_IZR, mult_IZR. replace (a + (2 * IZR k + 1) * PI) with ((a + PI) + 2 * IZR k * PI) by ring. rewrite sin_turn, cos_turn.
  rewrite sin_plus, cos_plus, sin_PI, cos_PI. split; ring.
Qed.
Lemma offset_is : forall s p, exists o, north_offset s p = Ok (Some o) /\ is_offset (s - p) o.
Proof.
  intros s p. unfold north_offset, arctan_ratio. set (d := s - p). pose proof (sin2_cos2 (rad d)) as T. unfold Rsqr in T. pose proof PI_pos as P.
  destruct (Req_EM_T (cos (rad d)) 0) as [C|C].
  - destruct (Rlt_dec (sin (rad d)) 0) as [S|S]; [|destruct (Rlt_dec 0 (sin (rad d))) as [S'|S']; [|exfalso; assert (sin (rad d) = 0) by lra; nra]]; cbn [bind option_map]; eexists; (split; [reflexivity|]).
    + destruct (unique_angle (- (PI / 2)) (rad d)) as (n & N); [rewrite sin_neg, sin_PI2; nra|rewrite cos_neg, cos_PI2; lra|].
      replace (deg (- (PI / 2))) with (-90) by (unfold deg; field; lra). split; [lra|]. exists (2 * n)%Z. split; [|intros _; exists n; reflexivity].
      apply rad_inj. rewrite rad_half, mult_IZR, <- N, rad_m90. reflexivity.
    + destruct (unique_angle (PI / 2) (rad d)) as (n & N); [rewrite sin_PI2; nra|rewrite cos_PI2; lra|].
      replace (deg (PI / 2)) with 90 by (unfold deg; field; lra). split; [lra|]. exists (2 * n)%Z. split; [|intros _; exists n; reflexivity].
      apply rad_inj. rewrite rad_half, mult_IZR, <- N, rad_90. reflexivity.
  - cbn [bind option_map]. eexists. split; [reflexivity|]. set (t := atan (sin (rad d) / cos (rad d))). pose proof (atan_bound (sin (rad d) / cos (rad d))) as B. fold t in B.
    assert (RT : rad (deg t) = t) by apply rad_deg. assert (RB : -90 < deg t < 90) by (rewrite (rad_lt (-90)), (rad_lt _ 90), RT, rad_m90, rad_90; lra).
    assert (E : exists n : Z, t = rad d + IZR n * PI).
    { pose proof (hyp_cos (cos (rad d)) (sin (rad d)) C) as HC. pose proof (hyp_sin (cos (rad d)) (sin (rad d)) C) as HS. fold t in HC, HS.
      replace (cos (rad d) ^ 2 + sin (rad d) ^ 2) with 1 in HC, HS by lra. rewrite sqrt_1, Rmult_1_l in HC, HS.
      destruct (Rlt_dec 0 (cos (rad d))) as [K|K].
      - rewrite Rabs_quot_pos in HS by exact K. rewrite Rabs_pos_eq in HC by lra. destruct (unique_angle t (rad d) HS HC) as (n & N). exists (2 * n)%Z. rewrite mult_IZR. exact N.
      - rewrite Rabs_quot_neg in HS by lra. rewrite Rabs_left in HC by lra. destruct (unique_angle t (rad d + PI)) as (n & N); [rewrite sin_plus, sin_PI, cos_PI; lra|rewrite cos_plus, sin_PI, cos_PI; lra|].
        exists (2 * n + 1)%Z. rewrite plus_IZR, mult_IZR. lra. }
    destruct E as (n & N). split; [lra|]. exists n. split; [|intros [X|X]; lra]. apply rad_inj. rewrite RT, rad_half. exact N.
Qed.
Lemma offset_iff : forall s p o, north_offset s p = Ok (Some o) <-> is_offset (s - p) o.
Proof.
  intros s p o. destruct (offset_is s p) as (o' & E & I). rewrite E. split; [intros H; injection H as <-; exact I|]. intros H. rewrite (is_offset_fun _ _ _ H I). reflexivity.
Qed.
Lemma delete_spec : forall A i (l m : list A), without (Some i) l m <-> m = delete_at i l.
Proof.
  intros A i l. revert i. induction l as [|x l IH]; intros i m; cbn [without].
  - replace (delete_at i []) with (@nil A) by (destruct i; reflexivity). split; [|intros ->; right; split; [cbn; lia|reflexivity]]. intros [(a & y & b & H & _)|[_ H]]; [destruct a; discriminate H|exact H].
  - destruct i as [|i]; cbn [delete_at].
    + split; [|intros ->; left; exists [], x, l; auto]. intros [([|y a] & z & b & H & L & ->)|[H _]]; [injection H as <- <-; reflexivity|discriminate L|cbn in H; lia].
    + split.
      * intros [([|y a] & z & b & H & L & ->)|[H ->]]; [discriminate L| |].
        -- injection H as <- ->. injection L as L. cbn [app]. f_equal. apply IH. left. exists a, z, b. auto.
        -- f_equal. apply IH. right. split; [cbn in H; lia|reflexivity].
      * intros ->. destruct (proj2 (IH i (delete_at i l)) eq_refl) as [(a & z & b & -> & L & E)|[H E]].
        -- left. exists (x :: a), z, b. split; [reflexivity|]. split; [cbn; lia|]. cbn [app]. f_equal. exact E.
        -- right. split; [cbn; lia|]. f_equal. exact E.
Qed.
Lemma offsets : forall l, exists os, mapR (fun a => north_offset (fst a) (snd a)) l = Ok (map Some os) /\ Forall2 (fun (a : R * R) o => is_offset (fst a - snd a) o) l os.
Proof.
  induction l as [|a l (os & E & F)]; [exists []; split; [reflexivity|constructor]|]. destruct (offset_is (fst a) (snd a)) as (o & Eo & Io). exists (o :: os). split; [|constructor; assumption].
  cbn [mapR map]. rewrite Eo. cbn [bind]. rewrite E. reflexivity.
Qed.
Lemma all_some_map : forall A (l : list A), all_some (map Some l) = Some l.
Proof. induction l as [|x l IH]; [reflexivity|]. cbn [map all_some]. rewrite IH. reflexivity. Qed.
Lemma mean_iff : forall l o, meanR l = o <-> is_mean l o.
Proof.
  intros l o. unfold is_mean. destruct l as [|x l]; cbn [meanR].
  - split; [intros <-; left; auto|]. intros [[_ ->]|(m & N & _)]; [reflexivity|destruct (N eq_refl)].
  - assert (N : INR (length (x :: l)) <> 0) by (apply not_0_INR; discriminate). set (n := INR (length (x :: l))) in *. set (sm := fold_right Rplus 0 (x :: l)).
    split; [intros <-; right; eexists; split; [discriminate|]; split; [reflexivity|]; field; exact N|]. intros [[H _]|(m & _ & -> & H)]; [discriminate H|]. f_equal. rewrite <- H. field. exact N.
Qed.
Theorem north_angle_iff : forall same l r, north_angle same l = Ok r <-> exists m os, without same l m /\ Forall2 (fun (a : R * R) o => is_offset (fst a - snd a) o) m os /\ is_mean os r.
Proof.
  intros same l r. unfold north_angle.
  assert (W : forall m, without same l m <-> m = match same with Some i => delete_at i l | None => l end) by (intros m; destruct same; [apply delete_spec|reflexivity]).
  set (k := match same with Some i => delete_at i l | None => l end) in *. destruct (offsets k) as (os & E & F). rewrite E. cbn [bind]. rewrite all_some_map. split.
  - intros H. injection H as H. exists k, os. split; [apply W; reflexivity|]. split; [exact F|apply mean_iff; exact H].
  - intros (m & os' & Wm & F' & M). apply W in Wm. subst m. apply mean_iff in M. assert (os' = os); [|subst; f_equal; exact M].
    clear - F F'. revert os' F'. induction F as [|a o k os I _ IH]; intros os' F'; inversion F' as [|? o' ? os'' I' F'']; subst; [reflexivity|]. f_equal; [exact (is_offset_fun _ _ _ I' I)|apply IH; exact F''].
Qed.
Lemma offset_const : forall d v z, turns d (v + 180 * IZR z) -> -90 < v < 90 -> is_offset d v.
Proof.
  intros d v z (n & ->) B. split; [lra|]. exists (- z - 2 * n)%Z. rewrite minus_IZR, mult_IZR, opp_IZR. split; [ring|]. intros [E|E]; lra.
Qed.
Lemma mean_const : forall v os, Forall (eq v) os -> fold_right Rplus 0 os = v * INR (length os).
Proof.
  intros v os F. induction F as [|x os <- _ IH]; [cbn; ring|]. cbn [fold_right length]. rewrite IH, S_INR. ring.
Qed.
(** stars whose sky and pixel angles differ by v + 180 z give v *)
Theorem north_recovered : forall same l v z, -90 < v < 90 -> (exists m, without same l m /\ m <> [] /\ Forall (fun a : R * R => turns (fst a - snd a) (v + 180 * IZR z)) m) -> north_angle same l = Ok (Some v).
Proof.
  intros same l v z B (m & W & NE & F). apply north_angle_iff. exists m, (map (fun _ => v) m). split; [exact W|]. split.
  - clear - F B. induction F as [|a m T _ IH]; [constructor|]. cbn [map]. constructor; [exact (offset_const _ _ _ T B)|exact IH].
  - right. exists v. split; [destruct m; [destruct (NE eq_refl)|discriminate]|]. split; [reflexivity|]. symmetry. apply mean_const. apply Forall_forall. intros x I. apply in_map_iff in I. destruct I as (_ & <- & _). reflexivity.
Qed.

(** ** Limits *)
Theorem unequal_scales : forall north kx ky offset shape ra dec roll w r, 0 < kx -> 0 < ky -> kx <> ky -> sin (rad (north + roll)) <> 0 -> cos (rad (north + roll)) <> 0 ->
  create_wcs north (kx, ky) offset shape ra dec (Some roll) = Ok w -> is_roll (cd12 w) (cd22 w) r -> ~ turns r (north + roll).
Proof.
  intros north kx ky offset shape ra dec roll w r X Y N S0 C0 H (_ & _ & rho & P & S & C) (n & E). apply wcs_iff in H. destruct H as (h & wd & a & d & r0 & _ & _ & _ & E0 & O & _). injection E0 as <-. cbn [fst snd] in O.
  apply oriented_iff in O. destruct O as (_ & B & _ & D). rewrite E, rad_turns, sin_turn in S. rewrite E, rad_turns, cos_turn in C. rewrite B in S. rewrite D in C.
  assert (rho = kx / 3600000) by (apply (Rmult_eq_reg_r (sin (rad (north + roll)))); [lra|exact S0]). assert (rho = ky / 3600000) by (apply (Rmult_eq_reg_r (cos (rad (north + roll)))); [lra|exact C0]). lra.
Qed.
Lemma turn_fixed : forall r v, turn r v = v -> v = (0, 0) \/ turns r 0.
Proof.
  intros r (x & y) H. unfold turn in H. cbn [fst snd] in H. injection H as H1 H2. set (c := cos (rad r)) in *. set (s := sin (rad r)) in *.
  assert (T : s * s + c * c = 1) by (pose proof (sin2_cos2 (rad r)) as T; unfold Rsqr in T; exact T).
  assert (Q : (x * x + y * y) * (1 - c) = 0) by nra. apply Rmult_integral in Q. destruct Q as [Q|Q].
  - left. f_equal; nra.
  - right. destruct (unique_angle (rad r) 0) as (n & N); [rewrite sin_0; fold s; nra|rewrite cos_0; fold c; lra|]. exists n. apply rad_inj. rewrite rad_turns, rad_0. exact N.
Qed.
Theorem star_left_behind : forall P D rot rcd rdq c (f g : nframe P D) r p x y, northup P D rot rcd rdq false c [f] = Ok [g] -> n_roll _ _ f = Some r -> ~ turns r 0 ->
  is_centre P D c f p -> n_star _ _ f = (Some x, Some y) -> (x, y) <> p ->
  n_data _ _ g = rot (n_data _ _ f) r p /\ exists x' y', n_star _ _ g = (Some x', Some y') /\ (x', y') <> (fst p + fst (turn r (minus (x, y) p)), snd p + snd (turn r (minus (x, y) p))).
Proof.
  intros P D rot rcd rdq c f g r p x y H R NT CE ST NE. apply northup_iff in H. inversion H as [|? ? ? ? G _]; subst. destruct G as (r' & p' & e & rest & CE' & _ & _ & NW & A1 & _ & _ & A4 & _).
  destruct (NW eq_refl) as [R' _]. rewrite R in R'. injection R' as <-. apply centre_iff in CE, CE'. rewrite <- CE in CE'. subst p'. split; [exact A1|]. rewrite ST in A4. exists x, y. split; [exact A4|].
  intros E. pose proof (f_equal fst E) as E1. change (x = fst p + fst (turn r (minus (x, y) p))) in E1. pose proof (f_equal snd E) as E2. change (y = snd p + snd (turn r (minus (x, y) p))) in E2. assert (F : turn r (minus (x, y) p) = minus (x, y) p) by (apply pair_ext; [change (fst (turn r (minus (x, y) p)) = x - fst p); lra|change (snd (turn r (minus (x, y) p)) = y - snd p); lra]).
  destruct (turn_fixed r _ F) as [Z|Z]; [|exact (NT Z)]. apply NE. unfold minus in Z. cbn [fst snd] in Z. injection Z as Z1 Z2. apply pair_ext; cbn [fst snd]; lra.
Qed.
Theorem north_beyond : forall same l v, 90 < v < 270 -> (exists m, without same l m /\ m <> [] /\ Forall (fun a : R * R => turns (fst a - snd a) v) m) -> north_angle same l = Ok (Some (v - 180)).
Proof.
  intros same l v B (m & W & NE & F). apply (north_recovered same l (v - 180) 1); [lra|]. exists m. split; [exact W|]. split; [exact NE|]. eapply Forall_impl; [|exact F].
  intros a T. cbv beta in *. replace (v - 180 + 180 * 1) with v by ring. exact T.
Qed.
Theorem injected_at : forall north k offset shape ra dec roll w starx stary sep pa, create_wcs north (k, k) offset shape ra dec (Some roll) = Ok w ->
  sky w (minus (inject_place roll starx stary sep pa) (starx, stary)) = (k / 3600000 * sep * sin (rad (pa + north)), k / 3600000 * sep * cos (rad (pa + north))).
Proof.
  intros north k offset shape ra dec roll w starx stary sep pa H. apply wcs_iff in H. destruct H as (h & wd & a & d & r0 & _ & _ & _ & E0 & O & _). injection E0 as <-. cbn [fst snd] in O.
  replace (pa + north) with ((pa - roll) + (north + roll)) by ring. apply O. apply seppa_toward. unfold inject_place, minus. apply pair_ext; cbn [fst snd]; ring.
Qed.
