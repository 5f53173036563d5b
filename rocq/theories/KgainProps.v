(** C62: K gain calibration. *)
From Coq Require Import List Arith Bool Reals ZArith String Permutation Lia Lra.
From Verif Require Import Base DqModel NearModel CombineModel CombineSpec ComboSpec FlatModel FlatSpec ThruModel ThruSpec KgainModel KgainSpec KgainProofs KgainCurveProofs KgainRunProofs KgainLawProofs KgainTopProofs.
Import ListNotations.
Local Open Scope R_scope.

Theorem C62_settings : forall d, check_kgain_params d = Ok tt <-> forall k, In k settings -> exists s, d k = Some s /\ s <> Other.
Proof. exact check_ok. Qed.
Print Assumptions C62_settings.
Theorem C62_missing : forall d, check_kgain_params d = Raise ValueError <-> exists k, In k settings /\ d k = None.
Proof. exact check_missing. Qed.
Print Assumptions C62_missing.
Theorem C62_wrong : forall d, check_kgain_params d = Raise TypeError <-> (forall k, In k settings -> d k <> None) /\ exists k, In k settings /\ d k = Some Other.
Proof. exact check_wrong. Qed.
Print Assumptions C62_wrong.
Theorem C62_reads : forall d p, read_params d = Ok p <-> reads_as d p.
Proof. exact read_iff. Qed.
Print Assumptions C62_reads.
Theorem C62_accepted : forall sets means gain n_cal n_mean smin smax sw q,
  accept sets means gain n_cal n_mean smin smax sw = Ok q <-> exists a b w, accepted sets means gain n_cal n_mean smin smax sw a b w /\ q = (a, b, Z.to_nat w).
Proof. exact accept_iff. Qed.
Print Assumptions C62_accepted.
Theorem C62_cells : forall f g m w top t, (1 <= w)%nat -> rows g = rows f -> cols g = cols f -> (forall r c, pix g r c = m r c) ->
  (ptc_bin2 f g w top = Ok t <-> cells f m w top t).
Proof. exact ptc_iff. Qed.
Print Assumptions C62_cells.
Theorem C62_set : forall (prescan : img -> list val) (width : Z * Z -> img -> result R), forall p w gm good fs pts rn h c, (1 <= w)%nat -> (5 <= List.length fs)%nat -> (forall f, In f fs -> rows f = h /\ cols f = c) -> rows gm = h -> cols gm = c ->
  rows good = rows (region (p_box p) gm) -> cols good = cols (region (p_box p) gm) ->
  (one_set prescan width p w good fs = Ok (pts, rn) <-> set_of prescan width p w good fs pts rn).
Proof. exact set_iff. Qed.
Print Assumptions C62_set.
Theorem C62_curve : forall pts n t, curve pts n = Ok t <-> curve_of pts n t.
Proof. exact curve_iff. Qed.
Print Assumptions C62_curve.
Theorem C62_rising : forall pts n t, curve_of pts n t -> rising t.
Proof. exact curve_rising. Qed.
Print Assumptions C62_rising.
Theorem C62_gains : forall lo hi t ks, 0 <= lo -> rising t -> (gains lo hi t = Ok ks <-> gains_of lo hi t ks).
Proof. exact gains_iff. Qed.
Print Assumptions C62_gains.
Theorem C62_clip : forall sigma n l c, clips sigma n l c <-> c = sigma_clip sigma n l.
Proof. exact clip_iff. Qed.
Print Assumptions C62_clip.
Theorem C62_mode : forall l v, mode_is l v <-> l <> [] /\ v = calculate_mode l.
Proof. exact mode_iff. Qed.
Print Assumptions C62_mode.
Theorem C62_calibrated : forall (prescan : img -> list val) (width : Z * Z -> img -> result R), forall d sets means gain n_cal n_mean smin smax sw out h c, one_shape sets means h c ->
  (calibrate_kgain prescan width d sets means gain n_cal n_mean smin smax sw = Ok out <-> calibrated prescan width d sets means gain n_cal n_mean smin smax sw out).
Proof. exact calibrate_iff. Qed.
Print Assumptions C62_calibrated.
Theorem C62_clip_few : forall n l c, (List.length l <= 7)%nat -> clips (5 / 2) n l c -> c = l.
Proof. exact clip_few. Qed.
Print Assumptions C62_clip_few.
Theorem C62_clip_sub : forall sigma n l c, clips sigma n l c -> forall x, In x c -> In x l.
Proof. exact clip_sub. Qed.
Print Assumptions C62_clip_sub.
Theorem C62_clip_nonempty : forall sigma n l c, 1 <= sigma -> clips sigma n l c -> l <> [] -> c <> [].
Proof. exact clip_nonempty. Qed.
Print Assumptions C62_clip_nonempty.
Theorem C62_clip_share : forall sigma l m s l1 x, 0 < sigma -> spread l m s -> In x l -> sigma * s < Rabs (x - m) -> sieve (fun x => Rabs (x - m) <= sigma * s) l l1 -> (INR (List.length l) - INR (List.length l1)) * sigma ^ 2 <= INR (List.length l).
Proof. exact clip_share. Qed.
Print Assumptions C62_clip_share.
Theorem C62_clip_affine : forall u b sigma n l c, 0 < u -> clips sigma n l c -> clips sigma n (map (fun x => u * x + b) l) (map (fun x => u * x + b) c).
Proof. exact clip_affine. Qed.
Print Assumptions C62_clip_affine.
Theorem C62_mode_near : forall l v a b, mode_is l v -> least l a -> greatest l b -> exists x, In x l /\ Rabs (v - x) <= (if Req_EM_T a b then 1 / 20 else (b - a) / 20).
Proof. exact mode_near. Qed.
Print Assumptions C62_mode_near.
Theorem C62_mode_affine : forall u b l v x y, 0 < u -> In x l -> In y l -> x <> y -> mode_is l v -> mode_is (map (fun z => u * z + b) l) (u * v + b).
Proof. exact mode_affine. Qed.
Print Assumptions C62_mode_affine.
Theorem C62_mode_bounds : forall l v a b, mode_is l v -> least l a -> greatest l b -> a < v < b + (if Req_EM_T a b then 1 / 10 else 0).
Proof. exact mode_bounds. Qed.
Print Assumptions C62_mode_bounds.
Theorem C62_positive : forall (prescan : img -> list val) (width : Z * Z -> img -> result R), forall d sets means gain n_cal n_mean smin smax sw out, calibrated prescan width d sets means gain n_cal n_mean smin smax sw out -> 0 < k_gain out.
Proof. exact positive. Qed.
Print Assumptions C62_positive.
Theorem C62_five : Permutation (order 5) (seq 0 5).
Proof. exact five_used. Qed.
Print Assumptions C62_five.
(** In sets of six or more frames the first frame has no part in the result. *)
Theorem C62_first_refuted : forall (prescan : img -> list val) (width : Z * Z -> img -> result R), forall d sets sets' means gain n_cal n_mean smin smax sw, Forall2 (fun s s' => exists f f' t, s = f :: t /\ s' = f' :: t /\ (5 <= List.length t)%nat) sets sets' ->
  calibrate_kgain prescan width d sets means gain n_cal n_mean smin smax sw = calibrate_kgain prescan width d sets' means gain n_cal n_mean smin smax sw.
Proof. exact first_frames. Qed.
Print Assumptions C62_first_refuted.
(** Not every point enters the curve: the brightest one is in no level. *)
Theorem C62_brightest_refuted : forall pts xs b n t, curve_of pts n t -> map fst pts = map Some xs -> greatest xs b ->
  forall k l a, nth_error t k = Some l -> l_avg l = Some a -> a < b.
Proof. exact brightest_lost. Qed.
Print Assumptions C62_brightest_refuted.
(** Not every level with an average between the limits of the signal enters the gain: the last one below the upper limit does not. *)
Theorem C62_last_refuted : exists lo hi t j l a d e, rising t /\ nth_error t j = Some l /\ l_avg l = Some a /\ l_dev l = Some d /\ l_err l = Some e /\ lo < a < hi /\ 0 < d /\ ~ usable lo hi t j.
Proof. exact last_lost. Qed.
Print Assumptions C62_last_refuted.
(** The read noise is that of the last set only: it does not depend on the others, but for the gain. *)
Theorem C62_noise_refuted : forall (prescan : img -> list val) (width : Z * Z -> img -> result R), forall d sets sets' x means gain gain' n_cal n_cal' n_mean n_mean' smin smax smin' smax' sw out out',
  calibrate_kgain prescan width d (sets ++ [x]) means gain n_cal n_mean smin smax sw = Ok out ->
  calibrate_kgain prescan width d (sets' ++ [x]) means gain' n_cal' n_mean' smin' smax' sw = Ok out' ->
  k_rn out * k_gain out' = k_rn out' * k_gain out.
Proof. exact last_set. Qed.
Print Assumptions C62_noise_refuted.
(** Where all values of the gain are equal, the mode is larger by 0.05. *)
Theorem C62_constant_refuted : forall l v x, mode_is l v -> (forall y, In y l -> y = x) -> v = x + 1 / 20.
Proof. exact mode_constant. Qed.
Print Assumptions C62_constant_refuted.
(** A variance below that of the read noise is taken for shot noise of the same size. *)
Theorem C62_quiet_refuted : forall s r v, 0 <= s < r -> shot_of (Some s) (Some r) v -> exists x, v = Some x /\ 0 < x.
Proof. exact quiet_noise. Qed.
Print Assumptions C62_quiet_refuted.

(** Five frames of 11 by 11 pixels: one level is used, and its value of the gain, 1265, is raised by 0.05. *)
Example C62_run : exists out, calibrate_kgain prescan0 width0 dict0 [frames0] [plate 100 0] 1 1 1 (Whole 105) (Whole 190) (Whole 10) = Ok out /\ k_gain out = 1265 + 1 / 20 /\ k_err out = 0.
Proof. exact run0. Qed.
Example C62_shape : one_shape [frames0] [plate 100 0] 11 11.
Proof. split; [intros s f [<-|[]] F|intros f F]; repeat (destruct F as [<-|F]; [split; reflexivity|]); destruct F. Qed.
Example C62_curve0 : curve_of [(Some 100, Some (2 / sqrt 11)); (Some 110, Some (1 / sqrt 11)); (Some 120, Some (1 / sqrt 11)); (Some 200, Some (1 / sqrt 11)); (Some 170, Some (3 / sqrt 11))] 3 curve0 /\ gains_of 105 190 curve0 [1265].
Proof. split; [exact points0|exact gains0]. Qed.
(** Clipping does remove: of ten values, one far off. *)
Example C62_clips : exists c, clips (5 / 2) 1 [0; 0; 0; 0; 0; 0; 0; 0; 0; 10] c /\ c = [0; 0; 0; 0; 0; 0; 0; 0; 0].
Proof.
  eexists. split; [|reflexivity]. apply (clips_some _ 0 _ 1 3 10 [0; 0; 0; 0; 0; 0; 0; 0; 0]).
  - split; [split; [discriminate|cbn; lra]|]. split; [lra|]. split; [discriminate|cbn; lra].
  - cbn. auto 12.
  - rewrite Rabs_pos_eq; lra.
  - do 9 (apply ComboSpec.sieve_in; [rewrite Rabs_left by lra; lra|]). apply ComboSpec.sieve_out; [rewrite Rabs_pos_eq by lra; lra|]. constructor.
  - constructor.
Qed.
