From Coq Require Import List Arith Bool QArith ZArith String Reals Qreals Lqa Lra Lia.
From Verif Require Import Base DqModel DarkModel PcModel PcSpec PcMathProofs.
From Verif Require DqProofs DriftProofs DarkProofs.
Import ListNotations.
Local Open Scope R_scope.

(** * Fit of one pixel *)
Lemma fits_unique : forall F n l d v d' v', fits F n l d v -> fits F n l d' v' -> d = d' /\ v = v'.
Proof.
  intros F n l d v d' v' H. revert d' v'. induction H as [lam|n lam l d v W D L H IH|n lam St]; intros d' v' H2; inversion H2 as [l2 E1 E2 E3|n2 l2 dl d2 v2 W2 D2 L2 H3 E1 E2 E3|n2 l2 St2 E1 E2 E3]; subst.
  - split; reflexivity.
  - assert (Q0 := uniqueness_limite _ _ _ _ D D2). subst dl. apply IH. exact H3.
  - exfalso. destruct St2 as [St2|[_ St2]]; [contradiction|]. assert (Q0 := uniqueness_limite _ _ _ _ D St2). contradiction.
  - exfalso. destruct St as [St|[_ St]]; [contradiction|]. assert (Q0 := uniqueness_limite _ _ _ _ D2 St). contradiction.
  - split; reflexivity.
Qed.
Lemma newton_masked : forall n k m t g lam, newton n k m t g (lam, true) = (lam, true).
Proof. induction n as [|n IH]; intros; [reflexivity|]. cbn. apply IH. Qed.
Lemma newton_fits : forall n k m t g lam, g <> 0 ->
  fits (excess m k (t / g)) n lam (fst (newton n k m t g (lam, false))) (if snd (newton n k m t g (lam, false)) then 0 else fst (newton n k m t g (lam, false))).
Proof.
  induction n as [|n IH]; intros k m t g lam G; cbn [newton]; [constructor|].
  destruct (Req_EM_T (6 + lam * (6 + lam * (3 + lam))) 0) as [W|W].
  - rewrite newton_masked. cbn [fst snd]. apply f_stop. left. rewrite weight_Dn. unfold Dn. rewrite W. lra.
  - assert (W2 : weight lam <> 0) by (apply weight_nz; exact W). assert (D := excess_derive k m t g lam G W).
    destruct (Req_EM_T (calc_dfunc m t g lam) 0) as [Z0|Z0].
    + rewrite newton_masked. cbn [fst snd]. apply f_stop. right. split; [exact W2|]. rewrite <- Z0. exact D.
    + apply (f_step _ n lam (calc_dfunc m t g lam)); [exact W2|exact D|exact Z0|]. rewrite <- (func_excess k m t g lam G W). apply IH. exact G.
Qed.
Lemma guess_unique : forall x p a b, first_guess x p a -> first_guess x p b -> a = b.
Proof.
  intros x p a b [[L1 E1]|[L1 E1]] [[L2 E2]|[L2 E2]]; try lra. assert (P := exp_pos (- x)). rewrite E1 in E2. apply Rmult_eq_reg_l in E2; [|lra]. assert (E : exp (- a) = exp (- b)) by lra. apply exp_inv in E. lra.
Qed.
Lemma guess_approx : forall k n t g l0, (0 < k <= n)%Z -> calc_lam_approx k n t g = Some l0 -> first_guess (t / g) (IZR k / IZR n) l0 /\ l0 <> 0.
Proof.
  intros k n t g l0 K E. unfold calc_lam_approx in E. destruct (Z.eqb_spec n 0) as [N0|N0]; [lia|].
  assert (Kp : 0 < IZR k) by (apply IZR_lt; lia). assert (Np : 0 < IZR n) by (apply IZR_lt; lia). set (p := IZR k / IZR n) in *. assert (Pp : 0 < p) by (apply Rdiv_lt_0_compat; assumption).
  assert (X := exp_pos (t / g)). assert (Xn := exp_pos (- (t / g))). assert (XX := exp_mul_neg (t / g)).
  destruct (Rlt_dec 0 (1 - p * exp (t / g))) as [C|C]; injection E as <-.
  - assert (C2 : 0 < p * exp (t / g)) by (apply Rmult_lt_0_compat; assumption). split.
    + left. split.
      * apply (Rmult_lt_reg_l (exp (t / g))); [exact X|]. rewrite XX. lra.
      * rewrite Ropp_involutive, exp_ln by exact C. replace (exp (- (t / g)) * (1 - (1 - p * exp (t / g)))) with (p * (exp (t / g) * exp (- (t / g)))) by ring. rewrite XX. ring.
    + assert (ln (1 - p * exp (t / g)) < 0); [|lra]. rewrite <- ln_1. apply ln_increasing; lra.
  - split; [|lra]. right. split; [|reflexivity]. apply (Rmult_le_reg_l (exp (t / g))); [exact X|]. rewrite XX. lra.
Qed.
Lemma estimate_unique : forall niter x k n d v d' v', estimate niter x k n d v -> estimate niter x k n d' v' -> d = d' /\ v = v'.
Proof.
  intros niter x k n d v d' v' [K0|l0 d0 v0 K0 G0 F0] [K1|l1 d1 v1 K1 G1 F1]; try lia; [split; reflexivity|].
  assert (E := guess_unique _ _ _ _ G0 G1). subst l1. exact (fits_unique _ _ _ _ _ _ _ F0 F1).
Qed.
Lemma fit_estimate : forall niter t g k n, g <> 0 -> (0 <= k <= n)%Z ->
  exists d v, estimate niter (t / g) k n d v /\ (negative (fit_pixel niter t g (k, n)) = true <-> d < 0) /\ filled (fit_pixel niter t g (k, n)) = v.
Proof.
  intros niter t g k n G K. unfold fit_pixel. cbn [fst snd]. destruct (Z.eq_dec k 0) as [K0|K0].
  - exists 0, 0. split; [constructor; exact K0|]. subst k. unfold calc_lam_approx. destruct (Z.eqb n 0) eqn:N0.
    + split; [|reflexivity]. cbn. split; [discriminate|lra].
    + replace (1 - IZR 0 / IZR n * exp (t / g)) with 1 by (unfold Rdiv; ring). destruct (Rlt_dec 0 1) as [C|C]; [|lra]. rewrite ln_1. replace (- 0) with 0 by ring. destruct (Req_EM_T 0 0) as [_|C2]; [|lra]. rewrite newton_masked. cbn.
      destruct (Rlt_dec 0 0) as [C2|C2]; [lra|]. split; [split; [discriminate|lra]|reflexivity].
  - destruct (calc_lam_approx k n t g) as [l0|] eqn:A.
    + destruct (guess_approx k n t g l0 ltac:(lia) A) as [FG NZ]. destruct (Req_EM_T l0 0) as [C|_]; [contradiction|]. replace (Z.eqb k 0) with false by (symmetry; apply Z.eqb_neq; exact K0).
      assert (F := newton_fits niter (IZR k) (IZR n) t g l0 G). destruct (newton niter (IZR k) (IZR n) t g (l0, false)) as [d m]. cbn [fst snd] in F.
      exists d, (if m then 0 else d). split; [apply (es_fit _ _ _ _ l0); [lia|exact FG|exact F]|]. cbn [negative filled]. destruct (Rlt_dec d 0) as [C|C]; (split; [split; [intros; assumption || discriminate|intros; reflexivity || contradiction]|destruct m; reflexivity]).
    + exfalso. unfold calc_lam_approx in A. destruct (Z.eqb_spec n 0) as [N0|N0]; [lia|]. destruct (Rlt_dec 0 (1 - IZR k / IZR n * exp (t / g))); discriminate.
Qed.

(** * Counting *)
Local Close Scope R_scope.
Lemma qgt_spec : forall a b, qgt a b = true <-> (b < a)%Q.
Proof. intros a b. unfold qgt. rewrite negb_true_iff. split; [intros H; apply Qnot_le_lt; intros L; apply Qle_bool_iff in L; congruence|]. intros H. destruct (Qle_bool a b) eqn:E; [|reflexivity]. apply Qle_bool_iff in E. Lqa.lra. Qed.
Lemma tally_unique : forall above j l k n k' n', tally above j l k n -> tally above j l k' n' -> k = k' /\ n = n'.
Proof.
  intros above j l k n k' n' H. revert k' n'. induction H as [|f l k n q E1 E2 H IH|f l k n E1 E2 H IH|f l k n E1 E2 H IH]; intros k' n' H2;
  inversion H2 as [|f2 l2 k2 n2 q2 A1 A2 A3 B1 B2 B3|f2 l2 k2 n2 A1 A2 A3 B1 B2 B3|f2 l2 k2 n2 A1 A2 A3 B1 B2 B3]; subst; try (split; reflexivity); try congruence; try contradiction;
  destruct (IH _ _ A3) as [-> ->]; split; reflexivity.
Qed.
Lemma tally_bounds : forall above j l k n, tally above j l k n -> (0 <= k <= n)%Z /\ (n <= Z.of_nat (List.length l))%Z.
Proof. intros above j l k n H. induction H; cbn [List.length]; lia. Qed.
Lemma tally_n : forall above above' j l k n k' n', tally above j l k n -> tally above' j l k' n' -> n = n'.
Proof.
  intros above above' j l k n k' n' H. revert k' n'. induction H as [|f l k n q E1 E2 H IH|f l k n E1 E2 H IH|f l k n E1 E2 H IH]; intros k' n' H2;
  inversion H2 as [|f2 l2 k2 n2 q2 A1 A2 A3 B1 B2 B3|f2 l2 k2 n2 A1 A2 A3 B1 B2 B3|f2 l2 k2 n2 A1 A2 A3 B1 B2 B3]; subst; try reflexivity; try congruence;
  rewrite (IH _ _ A3); reflexivity.
Qed.
Definition stands (above : pframe -> nat -> Prop) (thr : Q) (npix : nat) (f : pframe) (p : list px * list Z) : Prop :=
  snd p = pf_dq f /\ List.length (fst p) = npix /\ List.length (pf_dq f) = npix /\ forall j x, nth_error (fst p) j = Some x -> (photon_count x thr = 1%Z <-> above f j).
Lemma photon_01 : forall x thr, photon_count x thr = 0%Z \/ photon_count x thr = 1%Z.
Proof. intros [v|] thr; cbn; [destruct (qgt v thr)|]; auto. Qed.
Lemma coadd_tally : forall above thr npix l ps acc, Forall2 (stands above thr npix) l ps -> List.length acc = npix ->
  exists r, coadd thr acc ps = Ok r /\ List.length r = npix /\ forall j k0 n0, nth_error acc j = Some (k0, n0) -> exists k n, tally above j l k n /\ nth_error r j = Some ((k0 + k)%Z, (n0 + n)%Z).
Proof.
  intros above thr npix l ps acc H. revert acc. induction H as [|f [xs dq] l ps (S1 & S2 & S3 & S4) H IH]; intros acc LA.
  - exists acc. split; [reflexivity|]. split; [exact LA|]. intros j k0 n0 E. exists 0%Z, 0%Z. split; [constructor|]. rewrite !Z.add_0_r. exact E.
  - cbn [coadd fst snd] in *. unfold contrib. subst dq.
    destruct (DriftProofs.zipR_total _ _ _ (fun x q => if Z.eqb q 0 then (photon_count x thr, 1%Z) else (0%Z, 0%Z)) xs (pf_dq f) ltac:(congruence)) as (c & -> & LC & NC). cbn [bind].
    destruct (DriftProofs.zipR_total _ _ _ (fun u v : Z * Z => ((fst u + fst v)%Z, (snd u + snd v)%Z)) acc c ltac:(congruence)) as (a & -> & La & Na). cbn [bind].
    destruct (IH a ltac:(congruence)) as (r & Er & Lr & Nr). exists r. split; [exact Er|]. split; [exact Lr|]. intros j k0 n0 E.
    assert (J : (j < npix)%nat) by (rewrite <- LA; apply nth_error_Some; congruence).
    destruct (nth_error xs j) as [x|] eqn:Ex; [|apply nth_error_None in Ex; lia]. destruct (nth_error (pf_dq f) j) as [q|] eqn:Eq; [|apply nth_error_None in Eq; lia].
    assert (Ec := NC _ _ _ Ex Eq). assert (Ea := Na _ _ _ E Ec). destruct (Z.eqb_spec q 0) as [Q0|Q0]; cbn [fst snd] in Ea; destruct (Nr _ _ _ Ea) as (k & n & T & ER).
    + subst q. destruct (photon_01 x thr) as [P|P]; rewrite P in ER.
      * exists k, (n + 1)%Z. split; [apply t_below; [exact Eq| |exact T]|rewrite ER; do 2 f_equal; lia]. intros A. apply (S4 j x Ex) in A. lia.
      * exists (k + 1)%Z, (n + 1)%Z. split; [apply t_above; [exact Eq| |exact T]|rewrite ER; do 2 f_equal; lia]. apply (S4 j x Ex). exact P.
    + exists k, n. split; [apply (t_flag _ _ _ _ _ _ q); assumption|rewrite ER; do 2 f_equal; lia].
Qed.
Lemma coadd_raise : forall thr ps acc r, coadd thr acc ps = Ok r -> List.length r = List.length acc /\ Forall (fun p => List.length (fst p) = List.length acc /\ List.length (snd p) = List.length acc) ps.
Proof.
  intros thr ps. induction ps as [|[xs dq] ps IH]; intros acc r E; cbn [coadd fst snd] in E.
  - injection E as <-. split; [reflexivity|constructor].
  - unfold contrib in E. destruct (zipR _ xs dq) as [c|] eqn:Z1; [|discriminate E]. cbn [bind] in E. destruct (zipR _ acc c) as [a|] eqn:Z2; [|discriminate E]. cbn [bind] in E.
    apply DarkProofs.zipR_ok in Z1. apply DarkProofs.zipR_ok in Z2. destruct (IH _ _ E) as [L F]. destruct Z1 as [Z1 Z1'], Z2 as [Z2 Z2']. split; [congruence|]. constructor; [cbn [fst snd]; split; congruence|].
    eapply Forall_impl; [|exact F]. cbn. intros p [P1 P2]. split; congruence.
Qed.
Lemma photon_above : forall x thr, photon_count x thr = 1%Z <-> exists v, x = Some v /\ (thr < v)%Q.
Proof.
  intros [v|] thr; cbn; [|split; [discriminate|intros (v & E & _); discriminate]]. destruct (qgt v thr) eqn:G.
  - split; [intros _; exists v; split; [reflexivity|apply qgt_spec; exact G]|reflexivity].
  - split; [discriminate|]. intros (w & E & L). injection E as <-. apply qgt_spec in L. congruence.
Qed.
Lemma stands_plain : forall thr npix f, shaped npix f -> stands (brighter thr) thr npix f (pf_data f, pf_dq f).
Proof.
  intros thr npix f (L1 & L2 & L3). split; [reflexivity|]. split; [exact L1|]. split; [exact L3|]. cbn [fst]. intros j x E. rewrite photon_above. unfold brighter. rewrite E. split.
  - intros (v & -> & H). exists v. auto.
  - intros (v & H & G). injection H as ->. exists v. auto.
Qed.
Lemma stands_up : forall thr npix f d, shaped npix f -> zipR plus (pf_data f) (pf_err f) = Ok d -> stands (brighter_up thr) thr npix f (d, pf_dq f).
Proof.
  intros thr npix f d (L1 & L2 & L3) Z0. destruct (DriftProofs.zipR_total _ _ _ plus (pf_data f) (pf_err f) ltac:(congruence)) as (d2 & E2 & Ld & Nd). rewrite Z0 in E2. injection E2 as <-.
  split; [reflexivity|]. cbn [fst]. split; [congruence|]. split; [exact L3|]. intros j x E. rewrite photon_above.
  assert (J : (j < npix)%nat) by (rewrite <- L1, <- Ld; apply nth_error_Some; congruence).
  destruct (nth_error (pf_data f) j) as [a|] eqn:Ea; [|apply nth_error_None in Ea; lia]. destruct (nth_error (pf_err f) j) as [b|] eqn:Eb; [|apply nth_error_None in Eb; lia].
  rewrite (Nd _ _ _ Ea Eb) in E. injection E as <-. unfold brighter_up. rewrite Ea, Eb. split.
  - intros (v & P & H). destruct a as [a|], b as [b|]; try discriminate P. injection P as <-. exists a, b. auto.
  - intros (v & e & A & B & H). injection A as ->. injection B as ->. exists (v + e)%Q. auto.
Qed.
Lemma stands_low : forall thr npix f d, shaped npix f -> zipR minus (pf_data f) (pf_err f) = Ok d -> stands (brighter_low thr) thr npix f (d, pf_dq f).
Proof.
  intros thr npix f d (L1 & L2 & L3) Z0. destruct (DriftProofs.zipR_total _ _ _ minus (pf_data f) (pf_err f) ltac:(congruence)) as (d2 & E2 & Ld & Nd). rewrite Z0 in E2. injection E2 as <-.
  split; [reflexivity|]. cbn [fst]. split; [congruence|]. split; [exact L3|]. intros j x E. rewrite photon_above.
  assert (J : (j < npix)%nat) by (rewrite <- L1, <- Ld; apply nth_error_Some; congruence).
  destruct (nth_error (pf_data f) j) as [a|] eqn:Ea; [|apply nth_error_None in Ea; lia]. destruct (nth_error (pf_err f) j) as [b|] eqn:Eb; [|apply nth_error_None in Eb; lia].
  rewrite (Nd _ _ _ Ea Eb) in E. injection E as <-. unfold brighter_low. rewrite Ea, Eb. split.
  - intros (v & P & H). destruct a as [a|], b as [b|]; try discriminate P. injection P as <-. exists a, b. auto.
  - intros (v & e & A & B & H). injection A as ->. injection B as ->. exists (v - e)%Q. auto.
Qed.
Lemma ups_stand : forall (op : px -> px -> px) above thr npix l,
  (forall f d, shaped npix f -> zipR op (pf_data f) (pf_err f) = Ok d -> stands above thr npix f (d, pf_dq f)) ->
  Forall (shaped npix) l -> exists ps, mapR (fun f => do d <- zipR op (pf_data f) (pf_err f); Ok (d, pf_dq f)) l = Ok ps /\ Forall2 (stands above thr npix) l ps.
Proof.
  intros op above thr npix l H F. induction F as [|f l Hf F IH]; [exists []; split; [reflexivity|constructor]|]. destruct IH as (ps & E & G). cbn [mapR].
  destruct Hf as (L1 & L2 & L3). destruct (DriftProofs.zipR_total _ _ _ op (pf_data f) (pf_err f) ltac:(congruence)) as (d & Z0 & _). rewrite Z0. cbn [bind]. rewrite E. cbn [bind].
  exists ((d, pf_dq f) :: ps). split; [reflexivity|]. constructor; [apply H; [split; [exact L1|split; assumption]|exact Z0]|exact G].
Qed.
Lemma ups_shape : forall (op : px -> px -> px) l ps, mapR (fun f => do d <- zipR op (pf_data f) (pf_err f); Ok (d, pf_dq f)) l = Ok ps -> Forall (fun f => List.length (pf_data f) = List.length (pf_err f)) l.
Proof.
  intros op l. induction l as [|f l IH]; intros ps E; [constructor|]. cbn [mapR] in E. destruct (zipR op (pf_data f) (pf_err f)) as [d|] eqn:Z0; [|discriminate E]. cbn [bind] in E.
  destruct (mapR _ l) as [r|] eqn:M; [|discriminate E]. constructor; [apply (DarkProofs.zipR_ok _ _ _ _ _ _ _ Z0)|exact (IH _ eq_refl)].
Qed.
