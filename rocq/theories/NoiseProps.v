(** C58: noise maps. *)
From Coq Require Import List Arith Bool Reals ZArith Lia Lra Sorting.Sorted Sorting.Permutation String.
From Verif Require Import Base CombineModel CombineSpec ComboSpec GeomModel GeomSpec FlatModel FlatSpec NoiseModel NoiseSpec NoiseMainProofs NoiseLawProofs NoiseMoreProofs NoiseDemoProofs.
Import ListNotations.
Local Open Scope R_scope.

Theorem C58_product : forall rg tel fs m, noise_maps rg tel fs m <-> exists q, calibrate_darks rg tel fs = Ok q /\ same_maps q m.
Proof. exact maps_iff. Qed.
Print Assumptions C58_product.
Theorem C58_works : forall rg tel fs, (exists m, calibrate_darks rg tel fs = Ok m) <-> workable rg tel fs.
Proof. exact works_iff. Qed.
Print Assumptions C58_works.
Theorem C58_frame_order : forall rg tel fs fs' m, Permutation fs fs' -> gains_agree fs -> calibrate_darks rg tel fs = Ok m -> exists m', calibrate_darks rg tel fs' = Ok m' /\ same_maps m m'.
Proof. exact order_irrelevant. Qed.
Print Assumptions C58_frame_order.
Theorem C58_flagged_values : forall rg tel fs fs' m, Forall2 same_but_flagged fs fs' -> calibrate_darks rg tel fs = Ok m -> exists m', calibrate_darks rg tel fs' = Ok m' /\ same_maps m m'.
Proof. exact flagged_irrelevant. Qed.
Print Assumptions C58_flagged_values.
Theorem C58_pattern : forall rg tel k fs m, (forall ss s r c, splits fs ss -> In s ss -> lost r c s -> k r c = 0) -> calibrate_darks rg tel fs = Ok m ->
  exists m', calibrate_darks rg tel (map (raised k) fs) = Ok m' /\ shifted_maps k m m'.
Proof. exact pattern_absorbed. Qed.
Print Assumptions C58_pattern.
Theorem C58_exact : forall rg tel fs m r c F C0 D, calibrate_darks rg tel fs = Ok m -> obeys fs r c F C0 D -> ~ telemetry tel (m_rows m) r ->
  m_fpn m r c = Some F /\ m_cic m r c = Some (Rmax 0 C0) /\ e_fpn m r c = Some 0
  /\ forall a r0 c0 h w, lookup "SCI" rg = Some a -> shielded a r0 c0 h w -> in_box (m_rows m) (m_cols m) r0 c0 h w (r, c) -> m_dc m r c = Some (Rmax 0 D) /\ e_dc m r c = Some 0.
Proof. exact exact_recovered. Qed.
Print Assumptions C58_exact.
Theorem C58_signs : forall rg tel fs m r c, calibrate_darks rg tel fs = Ok m ->
  (forall x, m_cic m r c = Some x -> 0 <= x) /\ (forall x, m_dc m r c = Some x -> 0 <= x) /\ (forall x, e_fpn m r c = Some x -> 0 <= x) /\ (forall x, e_cic m r c = Some x -> 0 <= x) /\ (forall x, e_dc m r c = Some x -> 0 <= x).
Proof. exact signs. Qed.
Print Assumptions C58_signs.
Theorem C58_plain_prescan : forall rg tel fs m ss gts ks a sp k, calibrate_darks rg tel fs = Ok m -> splits fs ss -> settings ss gts ks -> Forall (fun x => x = k) ks -> lookup "SCI" rg = Some a -> lookup "prescan" (a_secs a) = Some sp ->
  (forall s p q v, In s ss -> in_section (m_rows m) (m_cols m) sp p -> in_section (m_rows m) (m_cols m) sp q -> ~ telemetry tel (m_rows m) (fst p) -> ~ telemetry tel (m_rows m) (fst q) ->
     stack_mean tel s (fst p) (snd p) v -> stack_mean tel s (fst q) (snd q) v) -> m_off m = 0.
Proof. exact plain_prescan. Qed.
Print Assumptions C58_plain_prescan.
(** A pixel flagged in all frames of a setting enters the fit there as 0 and shifts the maps, unflagged. *)
Theorem C58_lost_setting_refuted : exists m, calibrate_darks tiny bottom (shots five (all_same 6) flag_last) = Ok m
  /\ (forall f, In f (shots five (all_same 6) flag_last) -> f_dq f 0%nat 1%nat = 0%Z -> pix (f_img f) 0%nat 1%nat = Some 6)
  /\ m_dq m 0%nat 1%nat = 0%Z /\ exists x, m_fpn m 0%nat 1%nat = Some x /\ x <> 6.
Proof. exact lost_is_zero. Qed.
Print Assumptions C58_lost_setting_refuted.
(** The error of five sub-stacks of error 1 is pooled to more than 1. *)
Theorem C58_pooled_error_refuted : exists m, calibrate_darks tiny bottom (shots five (all_same 6) no_flag) = Ok m
  /\ (forall s, In s (map (fun f => [f]) (shots five (all_same 6) no_flag)) -> stack_err bottom s 0 1 (Some 1)) /\ exists e, e_cic m 0%nat 1%nat = Some e /\ 1 < e.
Proof. exact pooled_grows. Qed.
Print Assumptions C58_pooled_error_refuted.
(** A negative fixed pattern stays negative; the other two maps are raised to 0. *)
Theorem C58_sign_refuted : exists m, calibrate_darks tiny bottom (shots five (linear (-1) (-2) (-3)) no_flag) = Ok m /\ m_fpn m 0%nat 1%nat = Some (-1) /\ m_cic m 0%nat 1%nat = Some 0 /\ m_dc m 0%nat 1%nat = Some 0.
Proof. exact negative_pattern. Qed.
Print Assumptions C58_sign_refuted.
(** A constant level of the prescan is fixed pattern, not bias offset. *)
Theorem C58_bias_refuted : exists m, calibrate_darks tiny bottom (shots five (all_same 6) no_flag) = Ok m /\ m_off m = 0 /\ m_fpn m 0%nat 0%nat = Some 6.
Proof. exact level_unseen. Qed.
Print Assumptions C58_bias_refuted.
(** A NaN at a flagged pixel raises ValueError. *)
Theorem C58_nan_refuted : exists m, calibrate_darks tiny bottom (shots five (all_same 6) flag_last) = Ok m
  /\ (forall p r c, one_nan p r c = all_same 6 p r c \/ flag_last p r c <> 0%Z) /\ calibrate_darks tiny bottom (shots five one_nan flag_last) = Raise ValueError.
Proof. exact flagged_nan. Qed.
Print Assumptions C58_nan_refuted.
(** Settings that determine the maps are refused because the sub-stack of least gain x time has the largest gain. *)
Theorem C58_gain_check_refuted : admissible steep (map (fun _ => 1) steep) /\ determined steep /\ calibrate_darks tiny bottom (shots steep (all_same 6) no_flag) = Raise ValueError.
Proof. exact steep_refused. Qed.
Print Assumptions C58_gain_check_refuted.
(** Settings that pass every check leave the fit undetermined, and inversion raises. *)
Theorem C58_settings_refuted : admissible in_line (map (fun _ => 1) in_line) /\ gain_above in_line /\ calibrate_darks tiny bottom (shots in_line (all_same 6) no_flag) = Raise PyException.
Proof. exact line_refused. Qed.
Print Assumptions C58_settings_refuted.
(** The gain is that of the first frame of a sub-stack: the order of frames can decide between success and failure. *)
Theorem C58_order_refuted : exists fs fs' m, Permutation fs fs' /\ calibrate_darks tiny bottom fs = Ok m /\ forall m', calibrate_darks tiny bottom fs' <> Ok m'.
Proof. exact order_matters. Qed.
Print Assumptions C58_order_refuted.
Example C58_used : workable tiny bottom (shots five (linear 5 2 3) no_flag) /\ gains_agree (shots five (linear 5 2 3) no_flag) /\ obeys (shots five (linear 5 2 3) no_flag) 0 1 5 2 3
  /\ (forall ss s r c, splits (shots five (linear 5 2 3) no_flag) ss -> In s ss -> ~ lost r c s)
  /\ Forall2 same_but_flagged (shots five (all_same 6) flag_last) (shots five (fun p r c => if Z.eqb (flag_last p r c) 0 then Some 6 else Some 9) flag_last).
Proof.
  split; [apply works_iff; apply five_works; discriminate|]. split.
  { intros f g F G (T & GA & _). apply in_map_iff in F as (p & <- & _). apply in_map_iff in G as (q & <- & _). cbn in *. rewrite GA. auto. }
  split; [apply obeys_shots; [exact five_sorted|exact five_pos|]; intros p _; reflexivity|]. split.
  - intros ss s r c (SV & _) I U. rewrite Forall_forall in SV. destruct (SV s I) as (f & F & SF). assert (IF : forall l m, sieve (alike f) l m -> In f m -> In f l) by (clear; intros l m H; induction H; intros I; [destruct I|destruct I as [->|I]; [left; reflexivity|right; auto]|right; auto]).
    specialize (IF _ _ SF F). apply in_map_iff in IF as (p & E & _). clear - U F E. unfold lost, used in U. remember (@nil frame) as n eqn:N. induction U as [|x l m P U IH|x l m P U IH]; [destruct F|discriminate N|]. destruct F as [->|F]; [apply P; rewrite <- E; reflexivity|exact (IH N F)].
  - unfold shots. induction five as [|p l IH]; cbn [map]; constructor; [|exact IH]. repeat split; intros; cbn in *; try (rewrite H; reflexivity); try discriminate. destruct (Z.eqb _ _); discriminate.
Qed.
