(** The correction of datasets, and the fit of the distortion map. *)
From Coq Require Import List Arith Bool Reals ZArith Lra Lia Psatz String.
From Verif Require Import Base DqModel AngleModel AngleProofs SpotModel SpotSpec SpotProofs SpotSearchProofs SortGroupProofs BendModel BendSpec BendProofs.
Import ListNotations.
Local Open Scope R_scope.

Lemma int_part_unique : forall r z, IZR z <= r < IZR z + 1 -> Int_part r = z.
Proof. intros r z (A & B). destruct (base_Int_part r) as (C & D). assert (E : IZR (Int_part r) < IZR (z + 1)) by (rewrite plus_IZR; lra). assert (F : IZR z < IZR (Int_part r + 1)) by (rewrite plus_IZR; lra). apply lt_IZR in E. apply lt_IZR in F. lia. Qed.
Lemma trunc_iff : forall r z, trunc r = z <-> toward_zero r z.
Proof.
  intros r z. unfold trunc, toward_zero. destruct (Rle_dec 0 r) as [H|H].
  - split; [intros <-; left; split; [assumption|]; destruct (base_Int_part r); lra|]. intros [(_ & K)|(K & _)]; [apply int_part_unique; assumption|lra].
  - split; [intros <-; right; split; [lra|]; rewrite opp_IZR; destruct (base_Int_part (- r)); lra|]. intros [(K & _)|(_ & K)]; [lra|]. rewrite (int_part_unique (- r) (- z)); [lia|]. rewrite opp_IZR. lra.
Qed.
Lemma trunc_order : forall o, trunc (INR o) = Z.of_nat o.
Proof. intros o. apply trunc_iff. left. split; [apply pos_INR|]. rewrite <- INR_IZR_INZ. lra. Qed.

Section Data.
  Variable mapc : image -> num -> num -> num.
  Lemma corr_red : forall fs cs r, distortion_correction mapc fs (cs ++ [Some r]) =
    (do ims <- mapR (fun f => bend mapc (f_data f) cs (trunc r)) fs; Ok (map (fun fi => mkframe (snd fi) (f_err (fst fi)) (f_dq (fst fi)) (f_hist (fst fi) ++ ["Distortion correction completed"%string])) (combine fs ims))).
  Proof using. intros fs cs r. unfold distortion_correction. rewrite rev_app_distr. cbn [rev app]. rewrite rev_involutive. reflexivity. Qed.
  (** Frame by frame: the data are mapped, the errors and flags are kept, the history grows by one line. *)
  Theorem corr_law : forall fs cs r z out, toward_zero r z ->
    (distortion_correction mapc fs (cs ++ [Some r]) = Ok out <-> Forall2 (fun f g => bend mapc (f_data f) cs z = Ok (f_data g) /\ after f g) fs out).
  Proof using.
    intros fs cs r z out Z. apply trunc_iff in Z. rewrite corr_red, Z. split.
    - destruct (mapR _ fs) as [ims|] eqn:E; cbn [bind]; [|discriminate]. apply mapR_iff in E. intros Q. assert (Q' : map (fun fi => mkframe (snd fi) (f_err (fst fi)) (f_dq (fst fi)) (f_hist (fst fi) ++ ["Distortion correction completed"%string])) (combine fs ims) = out) by congruence. clear Q. subst out.
      induction E as [|f im fs ims H E IH]; [constructor|]. cbn [combine map fst snd]. constructor; [|exact IH]. split; [exact H|]. repeat split.
    - intros F. assert (M : mapR (fun f => bend mapc (f_data f) cs z) fs = Ok (map f_data out)). { apply mapR_iff. induction F as [|f g fs out (H & _) F IH]; constructor; assumption. }
      rewrite M. cbn [bind]. f_equal. clear M. induction F as [|f g fs out (H & H1 & H2 & H3) F IH]; [reflexivity|]. cbn [combine map fst snd]. rewrite IH. f_equal. rewrite <- H1, <- H2, <- H3. destruct g; reflexivity.
  Qed.
  Lemma mapR_first_raise : forall A B (f : A -> result B) l e, mapR f l = Raise e <-> exists l1 a l2, l = l1 ++ a :: l2 /\ f a = Raise e /\ forall b, In b l1 -> exists y, f b = Ok y.
  Proof using.
    intros A B f. induction l as [|a l IH]; intros e; [split; [discriminate|intros ([|b l1] & a & l2 & E & _); discriminate E]|]. cbn [mapR]. destruct (f a) as [y|e'] eqn:E; cbn [bind].
    - destruct (mapR f l) as [ys|e2]; cbn [bind]. { split; [discriminate|]. intros ([|b l1] & c & l2 & E1 & E2 & E3); injection E1 as <- ->; [congruence|]. assert (Q : Ok ys = Raise e); [|discriminate Q]. apply IH. exists l1, c, l2. split; [reflexivity|]. split; [assumption|]. intros b I. apply E3. right. assumption. }
      split. { intros Q. assert (Q2 : @Raise (list B) e2 = Raise e) by congruence. apply IH in Q2. destruct Q2 as (l1 & c & l2 & -> & E2 & E3). exists (a :: l1), c, l2. split; [reflexivity|]. split; [assumption|]. intros b [<-|I]; [eauto|apply E3; assumption]. }
      intros ([|b l1] & c & l2 & E1 & E2 & E3); injection E1 as <- ->; [congruence|]. assert (Q : @Raise (list B) e2 = Raise e); [|congruence]. apply IH. exists l1, c, l2. split; [reflexivity|]. split; [assumption|]. intros b I. apply E3. right. assumption.
    - split. { intros Q. exists [], a, l. split; [reflexivity|]. split; [congruence|]. intros b []. }
      intros ([|b l1] & c & l2 & E1 & E2 & E3); injection E1 as <- ->; [congruence|]. destruct (E3 a (or_introl eq_refl)) as (y & Y). congruence.
  Qed.
  Theorem corr_refused : forall fs c e, distortion_correction mapc fs c = Raise e <->
    (c = [] /\ e = IndexError) \/ (exists cs, c = cs ++ [None] /\ e = ValueError) \/
    (exists cs r z, c = cs ++ [Some r] /\ toward_zero r z /\ exists fs1 f fs2, fs = fs1 ++ f :: fs2 /\ bend mapc (f_data f) cs z = Raise e /\ forall g, In g fs1 -> exists im, bend mapc (f_data g) cs z = Ok im).
  Proof using.
    intros fs c e. destruct c as [|c1 c2 _] using rev_ind.
    { split; [intros Q; injection Q as <-; left; auto|]. intros [(_ & ->)|[(cs & Q & _)|(cs & r & z & Q & _)]]; [reflexivity|destruct cs; discriminate Q|destruct cs; discriminate Q]. }
    destruct c1 as [r|].
    2:{ unfold distortion_correction. rewrite rev_app_distr. cbn [rev app]. split; [intros Q; injection Q as <-; right; left; eauto|]. intros [(Q & _)|[(cs & _ & ->)|(cs & r & z & Q & _)]]; [destruct c2; discriminate Q|reflexivity|apply app_inj_tail in Q; destruct Q; discriminate]. }
    rewrite corr_red. assert (Z : toward_zero r (trunc r)) by (apply trunc_iff; reflexivity). split.
    - destruct (mapR _ fs) as [|e'] eqn:E; cbn [bind]; [discriminate|]. intros Q. injection Q as ->. apply mapR_first_raise in E. right. right. exists c2, r, (trunc r). auto.
    - intros [(Q & _)|[(cs & Q & _)|(cs & r' & z & Q & Z' & H)]]; [destruct c2; discriminate Q|apply app_inj_tail in Q; destruct Q; discriminate|]. apply app_inj_tail in Q. destruct Q as (<- & Q). injection Q as <-. apply trunc_iff in Z'. rewrite Z'. apply mapR_first_raise in H. rewrite H. reflexivity.
  Qed.
  (** A calibration of (l, o) applied to square frames. *)
  Theorem corrected : forall P fs l o, legendre P -> (o <= 15)%nat -> List.length l = count_of o -> Forall (fun f => ny (f_data f) = nx (f_data f)) fs ->
    exists out, distortion_correction mapc fs (distortion_part (l, o)) = Ok out /\
      Forall2 (fun f g => after f g /\ ny (f_data g) = ny (f_data f) /\ nx (f_data g) = nx (f_data f) /\
        forall i j, px (f_data g) i j = mapc (f_data f) (Some (INR i - disp_y P o l (ny (f_data f)) (INR j) (INR i))) (Some (INR j - disp_x P o l (ny (f_data f)) (INR j) (INR i)))) fs out.
  Proof using.
    intros P fs l o LP O L SQ. unfold distortion_part. cbn [fst snd]. rewrite corr_red, trunc_order.
    assert (H : exists ims, mapR (fun f => bend mapc (f_data f) (map Some l) (Z.of_nat o)) fs = Ok ims /\ Forall2 (fun f im => ny im = ny (f_data f) /\ nx im = nx (f_data f) /\ forall i j, px im i j = mapc (f_data f) (Some (INR i - disp_y P o l (ny (f_data f)) (INR j) (INR i))) (Some (INR j - disp_x P o l (ny (f_data f)) (INR j) (INR i)))) fs ims).
    { induction SQ as [|f fs S SQ (ims & IH & F)]; [exists []; split; [reflexivity|constructor]|]. destruct (bend_ok mapc P (f_data f) o l LP O L S) as (im & B & R1). exists (im :: ims). cbn [mapR]. rewrite B, IH. split; [reflexivity|]. constructor; assumption. }
    destruct H as (ims & -> & F). cbn [bind]. eexists. split; [reflexivity|]. induction F as [|f im fs ims H F IH]; [constructor|]. cbn [combine map fst snd]. inversion SQ; subst. constructor; [|apply IH; assumption]. cbn [f_data]. split; [repeat split|]. exact H.
  Qed.
End Data.

(** Directions. *)
Lemma norm_nonneg : forall v, 0 <= norm v. Proof. intros v. apply sqrt_pos. Qed.
Lemma arctan_of_spec : forall d, - (PI / 2) <= arctan_of (sin d) (cos d) <= PI / 2 /\ exists s, (s = 1 \/ s = -1) /\ sin (arctan_of (sin d) (cos d)) = s * sin d /\ cos (arctan_of (sin d) (cos d)) = s * cos d.
Proof.
  intros d. pose proof PI_RGT_0 as PP. pose proof (sin2_cos2 d) as SC. unfold Rsqr in SC. unfold arctan_of. destruct (Req_EM_T (cos d) 0) as [C|C].
  - destruct (Rlt_dec (sin d) 0) as [S|S].
    + split; [lra|]. exists 1. split; [left; reflexivity|]. rewrite sin_neg, cos_neg, sin_PI2, cos_PI2, C. split; [nra|lra].
    + split; [lra|]. exists 1. split; [left; reflexivity|]. rewrite sin_PI2, cos_PI2, C. split; [nra|lra].
  - destruct (atan_bound (sin d / cos d)) as (A1 & A2). split; [lra|].
    assert (H1 := hyp_cos (cos d) (sin d) C). assert (H2 := hyp_sin (cos d) (sin d) C). replace (cos d ^ 2 + sin d ^ 2) with 1 in * by (cbn; lra). rewrite sqrt_1, Rmult_1_l in *. rewrite H1, H2.
    destruct (Rdichotomy _ _ C) as [N|N].
    + exists (-1). split; [right; reflexivity|]. rewrite Rabs_quot_neg by assumption. rewrite Rabs_left by assumption. split; lra.
    + exists 1. split; [left; reflexivity|]. rewrite Rabs_quot_pos by assumption. rewrite Rabs_pos_eq by lra. split; lra.
Qed.
Lemma line_angle_ok : forall ox oy t, line_angle (ox, oy) t (arctan_of (sin (arctan2 (- ox) oy - t)) (cos (arctan2 (- ox) oy - t))).
Proof.
  intros ox oy t. set (d := arctan2 (- ox) oy - t). destruct (arctan_of_spec d) as (B & s & S & E1 & E2). split; [exact B|]. exists s. split; [assumption|].
  destruct (arctan2_polar (- ox) oy) as (X & Y). assert (N : sqrt (oy ^ 2 + (- ox) ^ 2) = norm (ox, oy)) by (unfold norm; cbn [fst snd]; f_equal; ring). rewrite N in X, Y. cbn [fst snd].
  assert (T : arctan2 (- ox) oy = t + d) by (unfold d; ring). rewrite T in X, Y. rewrite sin_plus, cos_plus, E1, E2. rewrite sin_plus in Y. rewrite cos_plus in X. assert (SS : s * s = 1) by (destruct S as [-> | ->]; lra). split.
  - replace (- (s * norm (ox, oy) * (sin t * (s * cos d) + cos t * (s * sin d)))) with (- (s * s * (norm (ox, oy) * (sin t * cos d + cos t * sin d)))) by ring. rewrite SS, Rmult_1_l, <- Y. ring.
  - replace (s * norm (ox, oy) * (cos t * (s * cos d) - sin t * (s * sin d))) with (s * s * (norm (ox, oy) * (cos t * cos d - sin t * sin d))) by ring. rewrite SS, Rmult_1_l, <- X. ring.
Qed.
Lemma sin_zero_small : forall x, - PI < x < PI -> sin x = 0 -> x = 0.
Proof.
  intros x (A & B) S. destruct (Rtotal_order x 0) as [N|[Z|N]]; [|assumption|].
  - assert (K : 0 < sin (- x)) by (apply sin_gt_0; lra). rewrite sin_neg in K. lra.
  - assert (K : 0 < sin x) by (apply sin_gt_0; lra). lra.
Qed.
Lemma line_angle_near : forall v t a b, norm v <> 0 -> line_angle v t a -> line_angle v t b -> - PI < a - b < PI -> a = b.
Proof.
  intros v t a b N (_ & s & S & A1 & A2) (_ & u & U & B1 & B2) D. assert (Z : sin (a - b) = 0).
  { replace (a - b) with ((t + a) - (t + b)) by ring. rewrite sin_minus. rewrite A1 in B1. rewrite A2 in B2. apply Rmult_eq_reg_l with (norm v * s * u); [|destruct S as [-> | ->], U as [-> | ->]; intros Q; apply N; lra]. rewrite Rmult_0_r.
    assert (E1 : s * norm v * sin (t + a) = u * norm v * sin (t + b)) by lra.
    apply Rmult_eq_reg_l with (norm v); [|assumption]. rewrite Rmult_0_r.
    replace (norm v * (norm v * s * u * (sin (t + a) * cos (t + b) - cos (t + a) * sin (t + b)))) with ((s * norm v * sin (t + a)) * (u * norm v * cos (t + b)) - (s * norm v * cos (t + a)) * (u * norm v * sin (t + b))) by ring. rewrite E1, B2. ring. }
  assert (K := sin_zero_small (a - b) D Z). lra.
Qed.
Theorem line_angle_unique : forall v t a b, norm v <> 0 -> line_angle v t a -> line_angle v t b -> - (PI / 2) < a -> - (PI / 2) < b -> a = b.
Proof. intros v t a b N A B LA LB. apply (line_angle_near v t a b N A B). destruct A as (A & _), B as (B & _). lra. Qed.

Lemma residual_ok : forall P o l ps rot p cx cy, legendre P -> (o <= 15)%nat -> sound_pair ps p ->
  (forall x y, legval2d (S o) cx x y = Some (warp_x P o l x y)) -> (forall x y, legval2d (S o) cy x y = Some (warp_y P o l x y)) ->
  exists r, residual (S o) cx cy ps rot p = (Some (fst r), Some (snd r)) /\ resides P o l ps rot p r.
Proof.
  intros P o l ps rot p cx cy LP O (S1 & S2 & S3) CX CY. unfold residual. rewrite !CX, !CY. unfold resides, offset. set (x1 := p_x p - 511). set (y1 := p_y p - 511). cbv zeta.
  set (ox := warp_x P o l (x1 + p_dx p) (y1 + p_dy p) - warp_x P o l x1 y1). set (oy := warp_y P o l (x1 + p_dx p) (y1 + p_dy p) - warp_y P o l x1 y1).
  assert (E : (p_ex p + p_ey p) / 2 <> 0) by (intros Q; apply S3; lra).
  assert (TS : p_sep p / ps <> 0) by (unfold Rdiv; apply Rmult_integral_contrapositive_currified; [assumption|apply Rinv_neq_0_compat; assumption]).
  assert (PE : (p_ex p + p_ey p) / 2 / (p_sep p / ps) <> 0) by (unfold Rdiv at 1; apply Rmult_integral_contrapositive_currified; [assumption|apply Rinv_neq_0_compat; assumption]).
  unfold nsub, nadd, nmul. cbn [lift2 option_map]. fold ox oy. unfold nsqrt. destruct (Rle_dec 0 (ox * ox + oy * oy)) as [_|Q]; [|exfalso; apply Q; nra].
  unfold ndiv. destruct (Req_EM_T ps 0) as [Q|_]; [contradiction|]. cbn [lift2]. destruct (Req_EM_T ((p_ex p + p_ey p) / 2) 0) as [Q|_]; [contradiction|]. destruct (Req_EM_T (p_sep p / ps) 0) as [Q|_]; [contradiction|]. destruct (Req_EM_T ((p_ex p + p_ey p) / 2 / (p_sep p / ps)) 0) as [Q|_]; [contradiction|].
  eexists (_, _). split; [reflexivity|]. cbn [fst snd]. split.
  - unfold norm. cbn [fst snd]. field. auto.
  - rewrite rad_minus, rad_deg. match goal with |- line_angle _ _ ?x => match x with context [arctan_of ?a ?b] => replace x with (arctan_of a b) by (field; repeat split; auto) end end. apply line_angle_ok.
Qed.
Lemma fit_red : forall o l ps rot pairs, List.length l = count_of o -> exists cx cy,
  fit_distortion_solution (map Some l) o ps rot pairs = Ok (map fst (map (residual (S o) cx cy ps rot) pairs) ++ map snd (map (residual (S o) cx cy ps rot) pairs)) /\
  forall P, legendre P -> (o <= 15)%nat -> (forall x y, legval2d (S o) cx x y = Some (warp_x P o l x y)) /\ (forall x y, legval2d (S o) cy x y = Some (warp_y P o l x y)).
Proof.
  intros o l ps rot pairs L. unfold fit_distortion_solution. rewrite Nat.add_1_r. destruct (halves o l L) as (H1 & H2). destruct (coeffs_ok (S o) _ H1) as (cx & -> & CX). cbn [bind]. destruct (coeffs_ok (S o) _ H2) as (cy & -> & CY). cbn [bind].
  exists cx, cy. split; [reflexivity|]. intros P LP O. split; intros x y.
  - apply (legval_ok P o cx (fun i j => nth (i * S o + j) l 0)); try assumption. intros a b A B. rewrite CX, entry_x by assumption. reflexivity.
  - apply (legval_ok P o cy (fun i j => nth (S o * S o + (i * S o + j)) l 0)); try assumption. intros a b A B. rewrite CY, entry_y by assumption. reflexivity.
Qed.
(** All residuals of the separations, then all residuals of the angles. *)
Theorem fit_ok : forall P o l ps rot pairs, legendre P -> (o <= 15)%nat -> List.length l = count_of o -> Forall (sound_pair ps) pairs ->
  exists rs, fit_distortion_solution (map Some l) o ps rot pairs = Ok (map Some (map fst rs ++ map snd rs)) /\ Forall2 (resides P o l ps rot) pairs rs.
Proof.
  intros P o l ps rot pairs LP O L F. destruct (fit_red o l ps rot pairs L) as (cx & cy & -> & C). destruct (C P LP O) as (CX & CY).
  assert (H : exists rs, map (residual (S o) cx cy ps rot) pairs = map (fun r => (Some (fst r), Some (snd r))) rs /\ Forall2 (resides P o l ps rot) pairs rs).
  { induction F as [|p pairs S F (rs & IH & G)]; [exists []; split; [reflexivity|constructor]|]. destruct (residual_ok P o l ps rot p cx cy LP O S CX CY) as (r & E & Q). exists (r :: rs). cbn [map]. rewrite E, IH. split; [reflexivity|constructor; assumption]. }
  destruct H as (rs & -> & G). exists rs. split; [|assumption]. f_equal. rewrite map_app, !map_map. reflexivity.
Qed.
Theorem fit_refused : forall params o ps rot pairs e, fit_distortion_solution params o ps rot pairs = Raise e <-> List.length params <> count_of o /\ e = ValueError.
Proof.
  intros params o ps rot pairs e. unfold fit_distortion_solution. rewrite Nat.add_1_r. set (k := S o). change (count_of o) with (2 * (k * k))%nat. assert (KP : (0 < k * k)%nat) by (unfold k; lia).
  unfold coeffs. rewrite firstn_length, skipn_length. destruct (Nat.eqb_spec (Nat.min (k * k) (List.length params)) (k * k)) as [A|A]; cbn [bind].
  - destruct (Nat.eqb_spec (List.length params - k * k) (k * k)) as [B|B]; cbn [bind]; [split; [discriminate|intros (Q & _); lia]|]. split; [intros Q; injection Q as <-; split; [lia|reflexivity]|intros (_ & ->); reflexivity].
  - split; [intros Q; injection Q as <-; split; [lia|reflexivity]|intros (_ & ->); reflexivity].
Qed.

Lemma app_inj_len : forall A (u w u' w' : list A), List.length u = List.length w -> u ++ u' = w ++ w' -> u = w /\ u' = w'.
Proof. induction u as [|a u IH]; intros [|b w] u' w' L Q; try discriminate L; [auto|]. cbn in Q. injection Q as -> Q. injection L as L. destruct (IH w u' w' L Q) as (-> & ->). auto. Qed.
Lemma along_zero : forall P o l ps rot p r, sound_pair ps p -> 0 < p_sep p / ps -> resides P o l ps rot p r -> (r = (0, 0) <-> along P o l ps rot p).
Proof.
  intros P o l ps rot p r (S1 & S2 & S3) TP (R1 & R2). cbv zeta in R1, R2. assert (E : (p_ex p + p_ey p) / 2 <> 0) by (intros Q; apply S3; lra). set (e := (p_ex p + p_ey p) / 2) in *. set (T := p_sep p / ps) in *. split.
  - intros ->. cbn [fst snd] in *. assert (N : norm (offset P o l p) = T) by lra. destruct R2 as (_ & s & S & A & B). replace (toward_sky rot p + 0 * e / T) with (toward_sky rot p) in A, B by (field; lra). rewrite N in A, B. exists s. auto.
  - intros (s & S & A & B). set (v := offset P o l p) in *. fold T in A, B. assert (SS : s * s = 1) by (destruct S as [-> | ->]; lra).
    assert (N : norm v = T). { unfold norm. rewrite A, B. pose proof (sin2_cos2 (toward_sky rot p)) as SC. unfold Rsqr in SC. replace (_ + _) with (T * T); [apply sqrt_square; lra|]. replace (T * T) with (s * s * (T * T) * (sin (toward_sky rot p) * sin (toward_sky rot p) + cos (toward_sky rot p) * cos (toward_sky rot p))) by (rewrite SC, SS; ring). ring. }
    assert (Z : snd r * e / T = 0). { assert (PP := PI_RGT_0). apply (line_angle_near v (toward_sky rot p) _ 0); [lra|assumption| |destruct R2 as (B2 & _); lra]. split; [lra|]. exists s. rewrite Rplus_0_r, N. auto. }
    destruct r as (r1 & r2). cbn [fst snd] in *. rewrite N in R1. f_equal.
    + apply Rmult_eq_reg_r with e; [lra|assumption].
    + apply Rmult_eq_reg_r with (e / T); [|unfold Rdiv; apply Rmult_integral_contrapositive_currified; [assumption|apply Rinv_neq_0_compat; lra]]. unfold Rdiv in *. lra.
Qed.
(** The residuals vanish exactly when every offset without distortion lies along the direction of the sky. *)
Theorem fit_zero : forall P o l ps rot pairs, legendre P -> (o <= 15)%nat -> List.length l = count_of o -> Forall (sound_pair ps) pairs -> Forall (fun p => 0 < p_sep p / ps) pairs ->
  (fit_distortion_solution (map Some l) o ps rot pairs = Ok (map Some (repeat 0 (List.length pairs + List.length pairs))) <-> Forall (along P o l ps rot) pairs).
Proof.
  intros P o l ps rot pairs LP O L F G. destruct (fit_ok P o l ps rot pairs LP O L F) as (rs & -> & R).
  assert (H : (map fst rs ++ map snd rs = repeat 0 (List.length pairs + List.length pairs)) <-> Forall (along P o l ps rot) pairs).
  { rewrite repeat_app. assert (LL : List.length rs = List.length pairs) by (clear - R; induction R; cbn; auto). split.
    - intros Q. assert (Q1 : map fst rs = repeat 0 (List.length pairs) /\ map snd rs = repeat 0 (List.length pairs)). { assert (LF : List.length (map fst rs) = List.length (repeat 0 (List.length pairs))) by (rewrite map_length, repeat_length; assumption). exact (app_inj_len _ _ _ _ _ LF Q). }
      destruct Q1 as (Q1 & Q2). clear Q LL. induction R as [|p r pairs rs H R IH]; [constructor|]. inversion F; inversion G; subst. cbn in Q1, Q2. injection Q1 as A1 Q1. injection Q2 as A2 Q2. constructor; [|apply IH; assumption]. apply (along_zero P o l ps rot p r); try assumption. destruct r. cbn in A1, A2. subst. reflexivity.
    - intros A. assert (Z : rs = repeat (0, 0) (List.length pairs)). { clear LL. induction R as [|p r pairs rs H R IH]; [reflexivity|]. inversion F; inversion G; inversion A; subst. cbn. f_equal; [apply (along_zero P o l ps rot p r); assumption|apply IH; assumption]. }
      rewrite Z. f_equal; clear; induction pairs; cbn; congruence. }
  rewrite <- H. split; [|intros ->; reflexivity]. intros Q. assert (Q' : map Some (map fst rs ++ map snd rs) = map Some (repeat 0 (List.length pairs + List.length pairs))) by congruence. revert Q'. clear. generalize (map fst rs ++ map snd rs), (repeat 0 (List.length pairs + List.length pairs)). induction l as [|a l IH]; intros [|b w] Q; try discriminate Q; [reflexivity|]. cbn in Q. injection Q as -> Q. f_equal. auto.
Qed.

(** Offsets as on the sky need no distortion. *)
Lemma sky_along : forall P o ps rot p, legendre P -> (1 <= o)%nat -> as_on_sky ps rot p -> along P o (default_coeffs o) ps rot p.
Proof.
  intros P o ps rot p LP O (T & DX & DY). exists 1. split; [left; reflexivity|]. rewrite default_shift by assumption. unfold offset. cbn [fst snd].
  rewrite !(proj1 (shift_warp P o 0 0 _ _ LP O)), !(proj2 (shift_warp P o 0 0 _ _ LP O)). rewrite DX, DY. split; ring.
Qed.
Lemma sumsq_cons : forall a l, sumsq (a :: l) = a * a + sumsq l.
Proof. reflexivity. Qed.
Lemma sumsq_nonneg : forall l, 0 <= sumsq l.
Proof. induction l as [|a l IH]; [apply Rle_refl|]. rewrite sumsq_cons. nra. Qed.
Lemma sumsq_zero : forall l, sumsq l <= 0 -> Forall (fun x => x = 0) l.
Proof. induction l as [|a l IH]; intros H; [constructor|]. rewrite sumsq_cons in H. pose proof (sumsq_nonneg l). constructor; [nra|apply IH; nra]. Qed.
Lemma sumsq_repeat : forall n, sumsq (repeat 0 n) = 0.
Proof. induction n as [|n IH]; [reflexivity|]. cbn [repeat]. rewrite sumsq_cons, IH. ring. Qed.
(** A fit that is not worse than its start, of offsets as on the sky, leaves no residual. *)
Theorem fit_undistorted : forall P leastsq o ps rot pairs c o', legendre P -> no_increase leastsq -> (1 <= o <= 15)%nat -> Forall (sound_pair ps) pairs -> Forall (as_on_sky ps rot) pairs -> List.length c = count_of o ->
  compute_distortion leastsq o ps rot pairs None = Ok (c, o') -> o' = o /\ Forall (along P o c ps rot) pairs.
Proof.
  intros P leastsq o ps rot pairs c o' LP NI O F A L C. unfold compute_distortion in C. destruct (leastsq _ _) as [c'|] eqn:E; cbn [bind] in C; [|discriminate]. assert (Q : c' = c /\ o' = o) by (injection C as -> ->; auto). destruct Q as (-> & ->). split; [reflexivity|].
  assert (TP : Forall (fun p => 0 < p_sep p / ps) pairs) by (revert A; apply Forall_impl; intros p (T & _); assumption).
  assert (Z0 : fit_distortion_solution (map Some (default_coeffs o)) o ps rot pairs = Ok (map Some (repeat 0 (List.length pairs + List.length pairs)))).
  { apply (fit_zero P); try tauto. { rewrite default_shift by tauto. apply shift_length. tauto. } revert A. apply Forall_impl. intros p SK. apply sky_along; tauto. }
  destruct (fit_ok P o c ps rot pairs LP (proj2 O) L F) as (rs & FR & G). assert (W := NI _ _ _ _ _ E Z0 FR). rewrite sumsq_repeat in W. apply sumsq_zero in W.
  apply (fit_zero P o c ps rot pairs LP (proj2 O) L F TP). rewrite FR. do 2 f_equal. assert (LL : List.length rs = List.length pairs) by (clear - G; induction G; cbn; auto). assert (LN : List.length (map fst rs ++ map snd rs) = (List.length pairs + List.length pairs)%nat) by (rewrite app_length, !map_length, LL; reflexivity). rewrite <- LN.
  revert W. clear. induction 1 as [|x l -> _ IH]; [reflexivity|]. cbn. congruence.
Qed.
Theorem fit_no_worse : forall leastsq o ps rot pairs g c o' a b, no_increase leastsq -> compute_distortion leastsq o ps rot pairs (Some g) = Ok (c, o') ->
  fit_distortion_solution (map Some g) o ps rot pairs = Ok (map Some a) -> fit_distortion_solution (map Some c) o ps rot pairs = Ok (map Some b) -> o' = o /\ sumsq b <= sumsq a.
Proof.
  intros leastsq o ps rot pairs g c o' a b NI C A B. unfold compute_distortion in C. destruct (leastsq _ _) as [c'|] eqn:E; cbn [bind] in C; [|discriminate]. assert (Q : c' = c /\ o' = o) by (injection C as -> ->; auto). destruct Q as (-> & ->). split; [reflexivity|]. exact (NI _ _ _ _ _ E A B).
Qed.
Theorem fit_start : forall o, (1 <= o)%nat -> List.length (default_coeffs o) = count_of o.
Proof. intros o O. rewrite default_shift by assumption. apply shift_length. assumption. Qed.
