(** C32: photon counting. *)
From Coq Require Import List Arith Bool QArith ZArith String Reals Qreals Lra Lia.
From Verif Require Import Base DarkModel PcModel PcSpec PcMathProofs PcProofs PcTopProofs PcFactsProofs PcExProofs.
Import ListNotations.

(** Complete input/output behaviour: a call succeeds with [out] exactly when
    [run_spec] holds.  In it a detection is an unflagged pixel strictly above
    T_factor read noises; the rate is Newton's method, with the true derivative,
    on the excess of the modelled over the observed detections. *)
Theorem C32_run : forall niter safemode mode mask dark tf mx bin_size fs out,
  get_pc_mean niter safemode mode mask dark tf mx bin_size fs = Ok out <-> run_spec niter safemode mode mask dark tf mx bin_size fs out.
Proof. exact run_iff. Qed.
Print Assumptions C32_run.
Example C32_run_case : exists d, get_pc_mean 1 true "illuminated" None None 0 1 None [ex_f "a" 5 0] = Ok (PcImages [(ex_o d, [ex_f "a" 5 0])]) /\ estimate 1 0 1 1 d d.
Proof. destruct ex_run as (d & H & E). exists d. split; [apply C32_run; exact H|exact E]. Qed.

(** Detections, usable frames and frames *)
Theorem C32_counts : forall above j l k n, tally above j l k n ->
  (0 <= k <= n)%Z /\ (n <= Z.of_nat (List.length l))%Z /\ (n = 0%Z <-> forall f, In f l -> exists q, nth_error (pf_dq f) j = Some q /\ q <> 0%Z).
Proof. intros above j l k n H. destruct (tally_bounds _ _ _ _ _ H) as [A B]. split; [exact A|]. split; [exact B|]. exact (tally_none _ _ _ _ _ H). Qed.
Print Assumptions C32_counts.
Example C32_counts_case : tally (brighter 500) 0 [ex_f "a" 501 0; ex_f "b" 500 0; ex_f "c" 900 4] 1 2.
Proof.
  apply (t_above _ 0 _ _ 0 1); [reflexivity|exists 501%Q; split; reflexivity|]. apply (t_below _ 0 _ _ 0 0); [reflexivity|intros (v & E & L); injection E as <-; discriminate L|]. apply (t_flag _ 0 _ _ _ _ 4); [reflexivity|discriminate|constructor].
Qed.

(** The combined mean is never negative, dark subtracted or not *)
Theorem C32_mean_nonneg : forall niter safemode mode mask dark tf mx bin_size fs out, get_pc_mean niter safemode mode mask dark tf mx bin_size fs = Ok out ->
  forall o, (match out with PcImages l => In o (map fst l) | PcDark l _ _ _ => In o l end) -> forall j x, nth_error (o_mean o) j = Some (Some x) -> (0 <= x)%R.
Proof.
  intros niter safemode mode mask dark tf mx bin_size fs out E o I. apply C32_run in E. destruct (run_bin _ _ _ _ _ _ _ _ _ _ E o I) as (i & c & B). exact (bin_mean_nonneg _ _ _ _ _ _ _ _ _ _ B).
Qed.
Print Assumptions C32_mean_nonneg.

(** A pixel is flagged by the combination exactly when it is flagged in every
    frame of its bin; the dark's flags are added. *)
Theorem C32_flags : forall niter safemode mode mask dark tf mx i c o, bin_spec niter safemode mode mask dark tf mx i c o -> forall j q, nth_error (o_dq o) j = Some q ->
  exists dqd, (dark = None -> dqd = 0%Z)
    /\ (q = Z.lor 1 dqd /\ (forall f, In f c -> exists s, nth_error (pf_dq f) j = Some s /\ s <> 0%Z) \/ q = dqd /\ exists f, In f c /\ nth_error (pf_dq f) j = Some 0%Z).
Proof. exact bin_flag. Qed.
Print Assumptions C32_flags.

(** The modelled detection probability is a probability, 0 without light and
    strictly increasing with the rate. *)
Theorem C32_detection : forall x, (0 <= x)%R ->
  detect x 0 = 0%R /\ (forall lam, 0 <= lam -> 0 <= detect x lam < tail 3 x)%R /\ (tail 3 x <= 1)%R /\ (forall a b, 0 <= a -> a < b -> detect x a < detect x b)%R.
Proof. intros x X. split; [apply detect_zero|]. split; [intros lam L; apply detect_below; assumption|]. split; [apply tail_le_1; exact X|]. intros a b A L. apply detect_mono; assumption. Qed.
Print Assumptions C32_detection.

(** A rate explains a detected fraction p iff p < tail 3 x, and then it is unique *)
Theorem C32_solution : forall x p, (0 <= x)%R -> (0 <= p)%R ->
  ((exists lam, (0 <= lam)%R /\ detect x lam = p) <-> (p < tail 3 x)%R) /\ (forall a b, (0 <= a)%R -> (0 <= b)%R -> detect x a = p -> detect x b = p -> a = b).
Proof. intros x p X P. split; [apply detect_solution; assumption|]. intros a b A B E1 E2. apply (detect_unique x); congruence. Qed.
Print Assumptions C32_solution.

(** Newton's method stays where the model explains the counts, and only there *)
Theorem C32_newton : forall k n x lam d v m, (0 < n)%R -> (0 <= x)%R -> (0 <= lam)%R -> fits (excess n k x) (Datatypes.S m) lam d v ->
  (n * detect x lam = k -> d = lam /\ v = lam)%R /\ (m = 0%nat -> d = lam -> (n * detect x lam = k)%R).
Proof.
  intros k n x lam d v m N X L F. destruct (newton_fixed k n x lam d v m N X L F) as [A B]. unfold excess in *. split; [intros E; apply A; lra|intros M0 E; assert (H := B M0 E); lra].
Qed.
Print Assumptions C32_newton.
Example C32_newton_case : fits (excess 2 (2 * detect 1 3) 1) 2 3 3 3.
Proof.
  assert (D := Dn_pos 3 ltac:(lra)). assert (DV := excess_derive (2 * detect 1 3) 2 1 1 3 ltac:(lra) ltac:(lra)). replace (1 / 1)%R with 1%R in DV by field. assert (DP := dfunc_pos 2 1 1 3 ltac:(lra) ltac:(lra) ltac:(lra) ltac:(lra)).
  assert (Z0 : (3 - excess 2 (2 * detect 1 3) 1 3 / calc_dfunc 2 1 1 3 = 3)%R) by (unfold excess; field; lra).
  apply (f_step _ 1 3 (calc_dfunc 2 1 1 3)); [apply weight_nz; lra|exact DV|lra|]. rewrite Z0. apply (f_step _ 0 3 (calc_dfunc 2 1 1 3)); [apply weight_nz; lra|exact DV|lra|]. rewrite Z0. constructor.
Qed.

(** No detections, or no usable frame: the rate is 0 *)
Theorem C32_dark_pixel : forall niter x n d v, estimate niter x 0 n d v -> d = 0%R /\ v = 0%R.
Proof. intros niter x n d v H. destruct H as [K|l0 d v K G F]; [auto|lia]. Qed.
Print Assumptions C32_dark_pixel.

(** The variance propagates the binomial variance of the detected fraction
    through an inverse of the model that is exact to third order *)
Theorem C32_inverse : forall x, (forall p, derivable_pt_lim (inv3 x) p (dinv3 x p)) /\ exists b, forall lam, (0 <= lam <= 1)%R -> (Rabs (inv3 x (detect x lam) - lam) <= b * lam ^ 4)%R.
Proof. intros x. split; [apply dinv3_derive|apply inv3_third_order]. Qed.
Print Assumptions C32_inverse.

(** An error is reported for every usable pixel *)
Theorem C32_error_defined : forall x n m up low e, (0 <= x)%R -> (0 <= m)%R -> n <> 0%Z -> uncertainty x n m up low e ->
  e = Some (Rmax (up + pc_var x (IZR n) m - m) (m - (low - pc_var x (IZR n) m))).
Proof. exact uncertainty_defined. Qed.
Print Assumptions C32_error_defined.

(** The reported error is not a standard deviation: without input errors it is
    the variance, smaller than the standard deviation for every variance below 1 *)
Theorem C32_error_refuted : (forall x n m e, (0 <= x)%R -> (0 <= m)%R -> (0 < n)%Z -> uncertainty x n m m m e -> e = Some (pc_var x (IZR n) m))
  /\ (forall v, (0 < v < 1)%R -> (v < sqrt v)%R) /\ (0 < pc_var 0 1 1 < 1)%R.
Proof. split; [exact error_is_variance|]. split; [exact below_sqrt|exact ex_var]. Qed.
Print Assumptions C32_error_refuted.

(** "If safemode is False, a negative count only gives a warning": it raises for
    either value of safemode, and negative estimates occur *)
Theorem C32_safemode_refuted : (exists d v, estimate 1 5 13 2000 d v /\ (d < 0)%R)
  /\ forall niter safemode mode mask dark tf mx fs f0 rn g j k n d v,
     hd_error fs = Some f0 -> pf_rn f0 = Some rn -> gain_is f0 g -> considers mask (List.length (pf_data f0)) j ->
     tally (brighter (tf * rn)) j fs k n -> estimate niter (Q2R (tf * rn) / Q2R g)%R k n d v -> (d < 0)%R ->
     exists e, get_pc_mean niter safemode mode mask dark tf mx None fs = Raise e.
Proof. split; [exact negative_estimate|exact negative_raises]. Qed.
Print Assumptions C32_safemode_refuted.

(** Bins: consecutive, [b] frames each, as many as fit; none else is used *)
Theorem C32_bins : forall b l, (0 < b)%nat -> exists cs, bins b l cs /\ (forall cs', bins b l cs' -> cs' = cs) /\ List.length cs = Nat.div (List.length l) b /\ List.concat cs = firstn (List.length cs * b) l.
Proof.
  intros b l B. destruct (bins_exist b B (List.length l) l (Nat.le_refl _)) as (cs & H). exists cs. split; [exact H|]. split; [intros cs' H'; exact (bins_unique _ _ _ _ H' H)|]. exact (bins_count _ _ _ B H).
Qed.
Print Assumptions C32_bins.

(** A master dark names as parents all frames it used, but also unused ones
    exactly when the ignored remainder has at least as many frames as there are bins *)
Theorem C32_parents_refuted : (forall b (l : list pframe) cs, (0 < b <= List.length l)%nat -> bins b l cs ->
  let used := (List.length cs * b)%nat in let recorded := List.length (firstn (List.length cs * Nat.div (List.length l) (List.length cs)) l) in
  (used <= recorded)%nat /\ (used < recorded <-> (List.length cs <= List.length l - used)%nat)%nat)
  /\ exists cs, bins 3 (repeat (ex_f "a" 5 0) 8) cs /\ (List.length cs * 3)%nat = 6%nat /\ List.length (firstn (List.length cs * Nat.div 8 (List.length cs)) (repeat (ex_f "a" 5 0) 8)) = 8%nat.
Proof.
  split; [exact parents_count|]. exists [repeat (ex_f "a" 5 0) 3; repeat (ex_f "a" 5 0) 3]. split; [|split; reflexivity].
  apply (b_more 3 (repeat (ex_f "a" 5 0) 3) (repeat (ex_f "a" 5 0) 5)); [reflexivity|]. apply (b_more 3 (repeat (ex_f "a" 5 0) 3) (repeat (ex_f "a" 5 0) 2)); [reflexivity|]. constructor. cbn. lia.
Qed.
Print Assumptions C32_parents_refuted.
