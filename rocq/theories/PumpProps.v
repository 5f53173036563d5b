(** C66: fits of trap-pumping amplitudes. *)
From Coq Require Import List Arith Bool Reals ZArith Lra.
From Verif Require Import Base PumpModel PumpSpec PumpTopProofs PumpLawProofs PumpUseProofs PumpCaseProofs.
Import ListNotations.
Local Open Scope R_scope.

(** What is returned: with the calls of curve_fit given, exactly this. *)
Theorem C66_fit : forall (c3 : curve3_t) (c5 : curve5_t), forall j o, run c3 c5 j = Ok o <-> accepted j /\ ends c3 c5 j (both_of j) o.
Proof. exact (fun c3 c5 => @run_ok c3 c5). Qed.
Print Assumptions C66_fit.
(** How a call fails: the first refusal, or an empty list for a pixel bright both ways. *)
Theorem C66_refused : forall (c3 : curve3_t) (c5 : curve5_t), forall j e, run c3 c5 j = Raise e <->
  refused j e \/ accepted j /\ e = ValueError /\ (exists t, both_of j = Some ([], t)) /\ exists q, found j (attempts2 c5 j) (good2 j) q.
Proof. exact (fun c3 c5 => @run_raises c3 c5). Qed.
Print Assumptions C66_refused.
(** Every trap reported is of a kind its scheme can show, and within the bounds of the caller. *)
Theorem C66_sound : forall (c3 : curve3_t) (c5 : curve5_t), forall j o k c ec u eu, bounded3 c3 -> bounded5 c5 -> run c3 c5 j = Ok o -> In (k, (c, ec, u, eu)) (traps_of o) ->
  In k (alone j) /\ fst (j_cap j) <= c <= snd (j_cap j) /\ fst (j_tau j) <= u <= snd (j_tau j).
Proof. exact (fun c3 c5 => @sound c3 c5). Qed.
Print Assumptions C66_sound.
(** One or two traps; with the lists of a pixel bright both ways, one for each, or none. *)
Theorem C66_shape : forall (c3 : curve3_t) (c5 : curve5_t), forall j o, run c3 c5 j = Ok o ->
  (both_of j = None -> traps_of o = [] \/ (exists k e, o = Traps [(k, [e])]) \/ (exists k e e', o = Traps [(k, [e; e'])]) \/ (exists k e k' e', k <> k' /\ o = Traps [(k, [e]); (k', [e'])])) /\
  (both_of j <> None -> traps_of o = [] \/ exists a b, o = Split a b).
Proof. exact (fun c3 c5 => @shape c3 c5). Qed.
Print Assumptions C66_shape.
(** Equal amplitudes never give a trap. *)
Theorem C66_equal : forall (c3 : curve3_t) (c5 : curve5_t), forall j o, run c3 c5 j = Ok o -> ~ varied (j_amps j) -> traps_of o = [].
Proof. exact (fun c3 c5 => @flat_none c3 c5). Qed.
Print Assumptions C66_equal.
(** The trap called 'a' is the one whose peak is nearer to the brightest time of the lists. *)
Theorem C66_nearer : forall (c3 : curve3_t) (c5 : curve5_t), forall j k1 c1 e1 u1 f1 k2 c2 e2 u2 f2, run c3 c5 j = Ok (Split (k1, (c1, e1, u1, f1)) (k2, (c2, e2, u2, f2))) ->
  exists amp t x, both_of j = Some (amp, t) /\ brightest amp t x /\ Rabs (x / peak k1 - u1) <= Rabs (x / peak k2 - u2).
Proof. exact (fun c3 c5 => @nearer c3 c5). Qed.
Print Assumptions C66_nearer.
(** With a constant capture probability, exact amplitudes sampled at the peak: the trap called 'a' is the one that made them (or one of the same peak). *)
Theorem C66_label : forall (c3 : curve3_t) (c5 : curve5_t), forall j N k c u t k1 c1 e1 u1 f1 k2 c2 e2 u2 f2, run c3 c5 j = Ok (Split (k1, (c1, e1, u1, f1)) (k2, (c2, e2, u2, f2))) ->
  both_of j = Some (map (amplitude Const N k c u) t, t) -> 0 < N * c -> 0 < u -> In (u * peak k) t ->
  (k1, u1) = (k, u) \/ (k2, u2) = (k, u) -> u1 * peak k1 = u * peak k.
Proof. exact (fun c3 c5 => @label_const c3 c5). Qed.
Print Assumptions C66_label.
(** Exact data of one trap, fitted exactly from one start: the answer fits them exactly. *)
Theorem C66_recover : forall (c3 : curve3_t) (c5 : curve5_t), forall j k p v, accepted j -> both_of j = None -> varied (j_amps j) -> ~ some_failed (attempts1 c3 j) -> In (k, Some (p, v)) (attempts1 c3 j) ->
  Forall (fun q => curve1 (j_mode j) (IZR (j_pumps j)) k (fst q) p = snd q) (combine (j_times j) (j_amps j)) ->
  exists k' p' v', In k' (alone j) /\ run c3 c5 j = Ok (answer1 (k', (p', v'))) /\ Forall (fun q => curve1 (j_mode j) (IZR (j_pumps j)) k' (fst q) p' = snd q) (combine (j_times j) (j_amps j)).
Proof. exact (fun c3 c5 => @recover1 c3 c5). Qed.
Print Assumptions C66_recover.
(** Every start lies within the bounds: what curve_fit does elsewhere has no effect. *)
Theorem C66_starts : forall c3 c5 c3' c5' j, same3 inside3 c3 c3' -> same5 inside5 c5 c5' -> run c3 c5 j = run c3' c5' j.
Proof. exact (starts_bounded). Qed.
Print Assumptions C66_starts.
(** No start has a zero, for trap_fit. *)
Theorem C66_starts_nonzero : forall c3 c5 c3' c5' j, j_mode j = Timed -> same3 (fun _ _ p0 => nonzero3 p0) c3 c3' -> same5 (fun _ _ p0 => nonzero5 p0) c5 c5' -> run c3 c5 j = run c3' c5' j.
Proof. exact (starts_nonzero). Qed.
Print Assumptions C66_starts_nonzero.
(** The release is greatest at one phase time, ln 2, ln 3/2 or ln 4 / 3 release times. *)
Theorem C66_peak : forall k x, release k x <= release k (peak k) /\ (release k x = release k (peak k) <-> x = peak k).
Proof. exact (release_max). Qed.
Print Assumptions C66_peak.
(** With a constant capture probability, a time of greatest amplitude divided by that number is the release time, and conversely. *)
Theorem C66_estimate : forall N k c u x, 0 < N * c -> 0 < u ->
  (forall t, amplitude Const N k c u t <= amplitude Const N k c u x) <-> x / peak k = u.
Proof. exact (const_peak). Qed.
Print Assumptions C66_estimate.
(** Amplitudes lie between zero and the number of pumps times the greatest release. *)
Theorem C66_bounds : forall m N k c u t, 0 <= N -> 0 <= t -> 0 < u -> 0 < c -> (m = Const -> c <= 1) ->
  0 <= amplitude m N k c u t <= N * release k (peak k).
Proof. exact (amplitude_bounds). Qed.
Print Assumptions C66_bounds.
(** The greatest releases. *)
Theorem C66_top : release 1 (peak 1) = / 4 /\ release 2 (peak 2) = 4 / 27 /\ release 3 (peak 3) = 3 / 4 * exp (- (ln 4 / 3)).
Proof. exact (release_top). Qed.
Print Assumptions C66_top.
(** Two traps in either order. *)
Theorem C66_swap : forall m N k1 k2 t o c u c2 u2, curve2 m N k1 k2 t (o, c, u, c2, u2) = curve2 m N k2 k1 t (o, c2, u2, c, u).
Proof. exact (curve2_swap). Qed.
Print Assumptions C66_swap.
(** Goodness is at most one, and one exactly for an exact fit. *)
Theorem C66_goodness : forall p f t a, (p < List.length t)%nat -> (1 < List.length t)%nat -> 0 < spread a ->
  goodness p f t a <= 1 /\ (goodness p f t a = 1 <-> Forall (fun q => f (fst q) = snd q) (combine t a)).
Proof. exact (goodness_le). Qed.
Print Assumptions C66_goodness.
(** With a capture time the amplitude is greatest later: the same estimate is always too large. *)
Theorem C66_estimate_refuted : forall N k c u, 0 < N -> 0 < c -> 0 < u ->
  (forall t, 0 <= t -> t < u * peak k -> amplitude Timed N k c u t < amplitude Timed N k c u (u * peak k)) /\
  (exists t, u * peak k < t /\ amplitude Timed N k c u (u * peak k) < amplitude Timed N k c u t) /\
  (forall x, 0 <= x -> (forall t, amplitude Timed N k c u t <= amplitude Timed N k c u x) -> u < x / peak k).
Proof. exact (timed_later). Qed.
Print Assumptions C66_estimate_refuted.
(** With exact amplitudes, an exact fit and exact lists, trap_fit calls the wrong trap 'a'. *)
Theorem C66_label_refuted : exists c3 c5 j k c u k2 c2 u2 t,
  accepted j /\ j_mode j = Timed /\
  j_amps j = map (fun x => curve2 Timed (IZR (j_pumps j)) k k2 x (0, c, u, c2, u2)) (j_times j) /\
  both_of j = Some (map (amplitude Timed (IZR (j_pumps j)) k c u) t, t) /\ t = j_times j /\ 0 < c /\ 0 < u /\ 0 < c2 /\ 0 < u2 /\
  run c3 c5 j = Ok (Split (k2, (c2, None, u2, None)) (k, (c, None, u, None))) /\ u <> u2.
Proof. exact (label_timed_refuted). Qed.
Print Assumptions C66_label_refuted.
(** trap_fit_const starts at zero when the range of the capture probability is below one and reaches zero. *)
Theorem C66_starts_refuted : exists j, accepted j /\ j_mode j = Const /\ forall up, ~ nonzero3 (start1 j up) /\ ~ nonzero5 (start2 j up).
Proof. exact (start_zero_refuted). Qed.
Print Assumptions C66_starts_refuted.

(** One trap, of both functions, and its standard deviations. *)
Example C66_one_example : forall m c5, accepted (lone m) /\ varied (j_amps (lone m)) /\ run one_trap c5 (lone m) = Ok (Traps [(1%nat, [(1, Some (sqrt 9), 1, None)])]).
Proof. intros m c5. split; [apply lone_accepted|]. split; [apply lone_varied|apply lone_run]. Qed.
Example C66_recover_example : forall m c5, ~ some_failed (attempts1 one_trap (lone m)) /\ exists k' p' v', In k' (alone (lone m)) /\ run one_trap c5 (lone m) = Ok (answer1 (k', (p', v'))) /\ Forall (fun q => curve1 (j_mode (lone m)) (IZR (j_pumps (lone m))) k' (fst q) p' = snd q) (combine (j_times (lone m)) (j_amps (lone m))).
Proof.
  intros m c5. assert (N : ~ some_failed (attempts1 one_trap (lone m))) by (intros (k & I); cbn in I; repeat (destruct I as [I|I]; [discriminate|]); exact I).
  split; [exact N|]. apply (C66_recover one_trap c5 (lone m) 1%nat (0, 1, 1) (Some 4, Some 9, None)); [apply lone_accepted|reflexivity|apply lone_varied|exact N|left; reflexivity|apply lone_exact].
Qed.
(** Two traps, labelled. *)
Example C66_two_example : forall m, accepted (case m) /\ run fit3 fit5 (case m) = Ok (Split (1%nat, (2, None, 2, None)) (1%nat, (1, None, 1, None))).
Proof. intros m. split; [apply case_accepted|apply case_run]. Qed.
(** An accepted call that ends in the search of an empty list. *)
Example C66_empty_example : exists j e, accepted j /\ run fit3 fit5 j = Raise e.
Proof.
  set (j := mkjob (j_mode (case Const)) (j_scheme (case Const)) (j_amps (case Const)) (j_times (case Const)) (j_pumps (case Const)) (j_thresh (case Const)) (j_tau (case Const)) (j_cap (case Const)) (j_off (case Const)) (Some (mkabove (Some []) (Some [])))).
  assert (A : accepted j).
  { pose proof (case_accepted Const) as A. unfold accepted, refusals in *. repeat (apply Forall_cons_iff in A; destruct A as (? & A); apply Forall_cons; [first [assumption|cbn [fst]; intros [Q|Q]; discriminate|cbn [fst]; intros (x & y & E & E' & N); cbn in E, E'; injection E as <-; injection E' as <-; apply N; reflexivity]|]). apply Forall_nil. }
  exists j, ValueError. split; [exact A|]. apply C66_refused. right. split; [exact A|]. split; [reflexivity|]. split; [exists []; reflexivity|]. eexists. exact (case_found Const).
Qed.
