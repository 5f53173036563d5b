From Coq Require Import List Arith Bool Reals ZArith Lra Lia.
From Verif Require Import Base TauModel TauSpec TauProofs TauLawProofs TauFitProofs TauBinProofs.
Import ListNotations.
Local Open Scope R_scope.
Local Opaque kE kB planck electron.

(** Every good trap is in exactly one row. *)
Lemma chosen_pos : forall eps curve K l (d : list (K * trap)) fs v, bounded curve -> fit_all eps curve l d = Ok (fs, v) -> Forall (fun q => 0 <= fst q /\ 0 <= snd q) v.
Proof.
  intros eps curve K l d fs v B H. apply all_ok in H. destruct H as (F & C).
  assert (G : Forall (fun f => forall E sE cs scs r t s, f = Fit E sE cs scs r t s -> 0 <= E /\ 0 <= cs) (map snd fs)).
  { clear C. induction F as [|q f d fs (_ & R) F IH]; cbn [map]; constructor; [|exact IH]. intros E sE cs scs r t s X. rewrite X in R. pose proof (within _ _ _ _ _ _ _ _ _ _ B R) as W. cbv zeta in W. cbn [job_of j_lim] in W.
    apply run_ok in R. destruct R as (A & _). unfold accepted, refusals in A. cbv zeta in A. cbn [job_of j_lim] in A.
    repeat match type of A with Forall _ (_ :: _) => apply Forall_cons_iff in A; let B0 := fresh "B" in destruct A as (B0 & A); cbn [fst] in B0 end.
    assert (0 <= fst (l_cs l) / 10 ^ 15). { apply Rmult_le_pos; [lra|]. apply Rlt_le, Rinv_0_lt_compat, ten. } lra. }
  induction C as [|E sE cs scs r t s l0 v L C IH|f l0 v N C IH]; [constructor| |].
  - apply Forall_cons_iff in G. destruct G as (G0 & G). constructor; [exact (G0 _ _ _ _ _ _ _ eq_refl)|]. clear F. revert C IH G. intros C IH G. apply IH. assumption.
  - apply Forall_inv_tail in G. apply IH. assumption.
Qed.
Theorem all_counted : forall eps curve K l (d : list (K * trap)) fs v nE nc area, bounded curve -> fit_all eps curve l d = Ok (fs, v) -> (0 < nE)%Z -> (0 < nc)%Z ->
  sum (map (fun r => fst (fst r)) (densities nE nc area v)) = INR (List.length v) / area.
Proof.
  intros eps curve K l d fs v nE nc area B H N1 N2. pose proof (chosen_pos _ _ _ _ _ _ _ B H) as P. destruct v as [|q v]; [cbn; unfold Rdiv; ring|]. apply total; [assumption|assumption|discriminate|assumption].
Qed.

(** A trap at three temperatures, and one that is fitted badly. *)
Definition cold : list R := [100; 200; 300].
Definition lims : limits := mklim 1 (0, 1) (0, 50) 180.
Definition tries : curve_t := fun _ _ _ _ _ _ _ => Some ((3 / 10, 2), (Some (/ 100), Some 4)).
Definition good_job : job := mkjob (map (fun T => tau_f T (3 / 10) 2) cold) [Some 1; Some 0; None] cold lims.
Definition bad_job : job := mkjob [0; 1; 2] [Some 1; Some 1; Some 1] cold lims.
Lemma gap_pos : forall T, 0 < T -> T <= 300 -> 0 < gap T.
Proof.
  intros T H L. assert (G : 0 < gap 300) by (unfold gap; lra). destruct (Req_dec T 300) as [->|N]; [assumption|]. pose proof (gap_down T 300 H ltac:(lra)). lra.
Qed.
Lemma warm_cold : Forall (fun T => warm T /\ 2 <> 0) cold.
Proof. unfold cold, warm. repeat (constructor; [split; [split; [lra|apply Rgt_not_eq, gap_pos; lra]|lra]|]). constructor. Qed.
Lemma good_accepted : accepted good_job.
Proof.
  unfold accepted, refusals. cbv zeta. cbn [good_job j_tau j_err j_T j_lim lims l_thresh l_E l_cs l_T fst snd cold map List.length]. repeat (apply Forall_cons; [cbn [fst]; first [lia|lra]|]). apply Forall_nil.
Qed.
Lemma bad_accepted : accepted bad_job.
Proof.
  unfold accepted, refusals. cbv zeta. cbn [bad_job j_tau j_err j_T j_lim lims l_thresh l_E l_cs l_T fst snd cold map List.length]. repeat (apply Forall_cons; [cbn [fst]; first [lia|lra]|]). apply Forall_nil.
Qed.
Lemma three_temps : forall u e l, ~ few (mkjob u e cold l).
Proof.
  intros u e l (a & b & I). cbn [j_T] in I. pose proof (I 100 ltac:(left; reflexivity)) as I1. pose proof (I 200 ltac:(right; left; reflexivity)) as I2. pose proof (I 300 ltac:(right; right; left; reflexivity)) as I3.
  cbn [In] in *. lra.
Qed.
Lemma good_varied : varied (j_tau good_job).
Proof.
  exists (tau_f 100 (3 / 10) 2), (tau_f 200 (3 / 10) 2). split; [left; reflexivity|]. split; [right; left; reflexivity|]. pose proof warm_cold as W. unfold cold in W. apply Forall_cons_iff in W. destruct W as ((W1 & C) & W). apply Forall_cons_iff in W. destruct W as ((W2 & _) & _).
  apply Rgt_not_eq. apply (colder 100 200 (3 / 10) 2); try lra; [apply gap_pos; lra|apply tau_eq; assumption|apply tau_eq; assumption].
Qed.
Lemma fits : forall eps j, accepted j -> ~ few j -> run eps tries j = Ok (answer j (3 / 10, 2) (Some (/ 100), Some 4)).
Proof.
  intros eps j A N. rewrite run_eq. pose proof (checks_iff j) as K. destruct (checks (j_tau j) (j_err j) (j_T j) (j_lim j)) as [x|e]; [|destruct (accepted_not_refused _ _ A K)].
  destruct (Nat.ltb_spec (List.length (nodup Req_EM_T (j_T j))) 3) as [F|F]; [rewrite few_iff in F; contradiction|].
  cbn [asked tries]. destruct (at_least _ _); reflexivity.
Qed.
Theorem good_run : forall eps, exists sE scs t s, run eps tries good_job = Ok (Fit (3 / 10) sE (2 * / 10 ^ 15) scs (Some 1) (Some t) (Some s)).
Proof.
  intros eps. pose proof (fits eps good_job good_accepted (three_temps _ _ _)) as R. pose proof (ten 15) as T15.
  assert (F : Forall2 (fun T u => release T (3 / 10) (2 * / 10 ^ 15 * 10 ^ 15) (Some u)) (j_T good_job) (j_tau good_job)).
  { replace (2 * / 10 ^ 15 * 10 ^ 15) with 2 by (field; lra). apply release_list_ok. apply warm_cold. }
  unfold answer in R. cbn [fst snd dev option_map] in R.
  pose proof (perfect _ _ _ _ _ _ _ _ _ _ F good_varied R) as Q. rewrite Q in R.
  assert (W : warm (l_T (j_lim good_job))) by (split; [cbn; lra|apply Rgt_not_eq, gap_pos; cbn; lra]). assert (C : 2 * / 10 ^ 15 * 10 ^ 15 <> 0) by (replace (2 * / 10 ^ 15 * 10 ^ 15) with 2 by (field; lra); lra).
  rewrite (tau_eq _ _ _ W C), (sig_eq _ _ _ _ _ W C) in R. eexists. eexists. eexists. eexists. exact R.
Qed.
(** A fit below the threshold is reported like any other. *)
Theorem poor_refuted : exists eps curve j E sE cs scs r t s, accepted j /\ run eps curve j = Ok (Fit E sE cs scs (Some r) (Some t) (Some s)) /\ r < l_thresh (j_lim j).
Proof.
  pose proof (fits 1 bad_job bad_accepted (three_temps _ _ _)) as R. pose proof (ten 15) as T15. unfold answer in R. cbn [fst snd dev option_map] in R.
  assert (W : warm (l_T (j_lim bad_job))) by (split; [cbn; lra|apply Rgt_not_eq, gap_pos; cbn; lra]). assert (C : 2 * / 10 ^ 15 * 10 ^ 15 <> 0) by (replace (2 * / 10 ^ 15 * 10 ^ 15) with 2 by (field; lra); lra).
  rewrite (tau_eq _ _ _ W C), (sig_eq _ _ _ _ _ W C) in R.
  assert (V : varied (j_tau bad_job)) by (exists 0, 1; cbn; repeat split; auto; lra).
  assert (Q : r_sq (3 / 10) 2 (j_T bad_job) (j_tau bad_job) = Some (goodness (map (fun T => tau_f T (3 / 10) 2) cold) (j_tau bad_job))).
  { apply r_sq_iff; [reflexivity|cbn; lia|]. cbn [quality]. split; [assumption|]. eexists. split; [apply release_list_ok, warm_cold|reflexivity]. }
  rewrite Q in R. exists 1, tries, bad_job. do 7 eexists. split; [apply bad_accepted|]. split; [exact R|]. cbn [bad_job j_lim lims l_thresh].
  assert (N : goodness (map (fun T => tau_f T (3 / 10) 2) cold) (j_tau bad_job) <> 1).
  { intros G. apply good_one in G; [|cbn; lia|assumption]. cbn [cold map bad_job j_tau combine] in G. apply Forall_inv in G. cbn [fst snd] in G. pose proof warm_cold as WC. unfold cold in WC. apply Forall_inv in WC. destruct WC as (W1 & C1).
    pose proof (positive 100 (3 / 10) 2 _ ltac:(lra) (tau_eq _ _ _ W1 C1)). lra. }
  assert (L : goodness (map (fun T => tau_f T (3 / 10) 2) cold) (j_tau bad_job) <= 1).
  { unfold goodness. pose proof (spread_pos _ V) as P. assert (S : 0 <= scatter (map (fun T => tau_f T (3 / 10) 2) cold) (j_tau bad_job)).
    { unfold scatter. generalize (combine (map (fun T => tau_f T (3 / 10) 2) cold) (j_tau bad_job)). induction l as [|q l IH]; cbn [map sum fold_right]; [lra|]. pose proof (Rle_0_sqr (fst q - snd q)). unfold sum in IH. lra. }
    cbn [bad_job j_tau List.length] in *. replace (INR 3) with 3 by (cbn; lra). set (sc := scatter _ _) in *. set (sp := spread _) in *. replace (sc / (3 - 2) / (sp / (3 - 1))) with (sc * (2 * / sp)) by (field; lra). assert (0 <= sc * (2 * / sp)) by (apply Rmult_le_pos; [assumption|apply Rmult_le_pos; [lra|apply Rlt_le, Rinv_0_lt_compat; assumption]]). lra. }
  change (goodness (map (fun T => tau_f T (3 / 10) 2) cold) (j_tau bad_job) < 1). lra.
Qed.
