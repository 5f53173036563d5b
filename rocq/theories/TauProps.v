(** C67: energy levels and cross sections of traps. *)
From Coq Require Import List Arith Bool Reals ZArith Lra Sorting.Sorted.
From Verif Require Import Base TauModel TauSpec TauProofs TauLawProofs TauFitProofs TauBinProofs TauCaseProofs.
Import ListNotations.
Local Open Scope R_scope.

(** The release time: exactly that of thermal emission, and none outside its domain. *)
Theorem C67_tau : forall T E c r, tau_temp T E c = r <-> release T E c r.
Proof. exact (tau_iff). Qed.
Print Assumptions C67_tau.
(** Its deviation: propagated with the true derivatives. *)
Theorem C67_sigma : forall T E c sE sc r, sig_tau_temp T E c sE sc = r <-> deviation T E c sE sc r.
Proof. exact (sig_iff). Qed.
Print Assumptions C67_sigma.
(** Inversely proportional to the cross section. *)
Theorem C67_scale : forall T E c t a, a <> 0 -> tau_temp T E c = Some t -> tau_temp T E (a * c) = Some (t / a).
Proof. exact (scale). Qed.
Print Assumptions C67_scale.
(** Exponential in the energy. *)
Theorem C67_shift : forall T E c t d, tau_temp T E c = Some t -> tau_temp T (E + d) c = Some (t * exp (d / (kE * T))).
Proof. exact (shift). Qed.
Print Assumptions C67_shift.
(** Positive. *)
Theorem C67_positive : forall T E c t, 0 < c -> tau_temp T E c = Some t -> 0 < t.
Proof. exact (positive). Qed.
Print Assumptions C67_positive.
(** Deeper traps release later. *)
Theorem C67_energy : forall T E E' c t t', 0 < c -> tau_temp T E c = Some t -> tau_temp T E' c = Some t' -> (E < E' <-> t < t').
Proof. exact (more_energy). Qed.
Print Assumptions C67_energy.
(** Colder traps release later. *)
Theorem C67_colder : forall S T E c s t, 0 < S -> S < T -> 0 < gap T -> 0 <= E -> 0 < c -> tau_temp S E c = Some s -> tau_temp T E c = Some t -> t < s.
Proof. exact (colder). Qed.
Print Assumptions C67_colder.
(** Two temperatures determine the trap. *)
Theorem C67_determined : forall S T E c E' c' s t, S <> T -> tau_temp S E c = Some s -> tau_temp S E' c' = Some s -> tau_temp T E c = Some t -> tau_temp T E' c' = Some t -> E = E' /\ c = c'.
Proof. exact (determined). Qed.
Print Assumptions C67_determined.
(** What a fit returns, with the calls of curve_fit given. *)
Theorem C67_fit : forall (eps : R) (curve : curve_t), forall j f, run eps curve j = Ok f <-> accepted j /\ ends eps curve j f.
Proof. exact (fun eps curve => @run_ok eps curve). Qed.
Print Assumptions C67_fit.
(** How it fails: the first refusal. *)
Theorem C67_refused : forall (eps : R) (curve : curve_t), forall j e, run eps curve j = Raise e <-> refused j e.
Proof. exact (fun eps curve => @run_raises eps curve). Qed.
Print Assumptions C67_refused.
(** Within the bounds of the caller. *)
Theorem C67_within : forall (eps : R) (curve : curve_t), forall j E sE cs scs r t s, bounded curve -> run eps curve j = Ok (Fit E sE cs scs r t s) ->
  let l := j_lim j in fst (l_E l) <= E <= snd (l_E l) /\ fst (l_cs l) / 10 ^ 15 <= cs <= snd (l_cs l) / 10 ^ 15.
Proof. exact (fun eps curve => @within eps curve). Qed.
Print Assumptions C67_within.
(** A perfect fit of the release times of a trap is that trap, and its release time at the input temperature is that of the trap. *)
Theorem C67_recovered : forall (eps : R) (curve : curve_t), forall j E sE cs scs t s E0 c0, Forall2 (fun T u => release T E0 c0 (Some u)) (j_T j) (j_tau j) ->
  run eps curve j = Ok (Fit E sE cs scs (Some 1) t s) -> E = E0 /\ cs = c0 / 10 ^ 15 /\ release (l_T (j_lim j)) E0 c0 t.
Proof. exact (fun eps curve => @recovered eps curve). Qed.
Print Assumptions C67_recovered.
(** An exact fit has goodness one. *)
Theorem C67_perfect : forall (eps : R) (curve : curve_t), forall j E sE cs scs r t s, Forall2 (fun T u => release T E (cs * 10 ^ 15) (Some u)) (j_T j) (j_tau j) -> varied (j_tau j) ->
  run eps curve j = Ok (Fit E sE cs scs r t s) -> r = Some 1.
Proof. exact (fun eps curve => @perfect eps curve). Qed.
Print Assumptions C67_perfect.
(** All the traps: each its own fit, the good ones kept. *)
Theorem C67_all : forall eps curve K (l : limits) (d : list (K * trap)) fs v, fit_all eps curve l d = Ok (fs, v) <->
  Forall2 (fun q f => fst f = q /\ run eps curve (job_of l (snd q)) = Ok (snd f)) d fs /\ chosen (l_thresh l) (map snd fs) v.
Proof. exact (all_ok). Qed.
Print Assumptions C67_all.
(** All the traps: the first that is refused. *)
Theorem C67_all_refused : forall eps curve K (l : limits) (d : list (K * trap)) e, fit_all eps curve l d = Raise e <->
  exists d1 q d2, d = d1 ++ q :: d2 /\ Forall (fun q => accepted (job_of l (snd q))) d1 /\ refused (job_of l (snd q)) e.
Proof. exact (all_raises). Qed.
Print Assumptions C67_all_refused.
(** The rows of the densities. *)
Theorem C67_table : forall (nE nc : Z) (area : R) (v : list (R * R)), (0 < nE)%Z -> (0 < nc)%Z -> v <> [] -> exists mE mc bins, greatest (map fst v) mE /\ greatest (map snd v) mc /\
  let topE := Rmax 1 mE + 1 / (2 * IZR nE) in let topc := Rmax (/ 10 ^ 14) mc + / 10 ^ 14 / (2 * IZR nc) in
  StronglySorted before bins /\
  (forall i j, In (i, j) bins <-> (0 <= i < nE)%Z /\ (0 <= j < nc)%Z /\ exists q, In q v /\ in_bin nE topE i (fst q) /\ in_bin nc topc j (snd q)) /\
  Forall2 (fun r b => row_of nE nc area topE topc v r (fst b) (snd b)) (densities nE nc area v) bins.
Proof. exact (fun nE nc area v => @table nE nc area v). Qed.
Print Assumptions C67_table.
(** The densities add up to the number of good traps over the number of pixels. *)
Theorem C67_total : forall eps curve K l (d : list (K * trap)) fs v nE nc area, bounded curve -> fit_all eps curve l d = Ok (fs, v) -> (0 < nE)%Z -> (0 < nc)%Z ->
  sum (map (fun r => fst (fst r)) (densities nE nc area v)) = INR (List.length v) / area.
Proof. exact (all_counted). Qed.
Print Assumptions C67_total.
(** A fit below the threshold is reported like any other. *)
Theorem C67_poor_refuted : exists eps curve j E sE cs scs r t s, accepted j /\ run eps curve j = Ok (Fit E sE cs scs (Some r) (Some t) (Some s)) /\ r < l_thresh (j_lim j).
Proof. exact (poor_refuted). Qed.
Print Assumptions C67_poor_refuted.

(** A trap of 0.3 eV and 2e-15 cm^2 seen at three temperatures is found. *)
Example C67_fit_example : forall eps, accepted good_job /\ varied (j_tau good_job) /\ exists sE scs t s, run eps tries good_job = Ok (Fit (3 / 10) sE (2 * / 10 ^ 15) scs (Some 1) (Some t) (Some s)).
Proof. intros eps. split; [apply good_accepted|]. split; [apply good_varied|apply good_run]. Qed.
(** Temperatures of use are in the domain. *)
Example C67_warm_example : forall T, 0 < T -> T <= 300 -> 0 < gap T /\ exists t, tau_temp T (3 / 10) 2 = Some t.
Proof. intros T H L. pose proof (gap_pos T H L) as G. split; [assumption|]. eexists. apply tau_eq; [split; [assumption|lra]|lra]. Qed.
(** Two traps of equal bins make one row. *)
Example C67_rows_example : exists rows, densities 1 1 10 [(1 / 10, / 10 ^ 15); (2 / 10, / 10 ^ 15)] = rows /\ sum (map (fun r => fst (fst r)) rows) = 2 / 10.
Proof.
  eexists. split; [reflexivity|]. rewrite total; [cbn; lra|reflexivity|reflexivity|discriminate|]. assert (0 < / 10 ^ 15) by (apply Rinv_0_lt_compat, ten). repeat (constructor; [cbn [fst snd]; lra|]). constructor.
Qed.
