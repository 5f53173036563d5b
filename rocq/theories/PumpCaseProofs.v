From Coq Require Import List Arith Bool Reals ZArith Lra Lia FinFun.
From Verif Require Import Base PumpModel PumpSpec PumpProofs PumpRunProofs PumpTopProofs PumpLawProofs PumpUseProofs.
Import ListNotations.
Local Open Scope R_scope.

(** The best of a list that is not empty. *)
Lemma best_exists : forall {A} (g : A -> R) l, l <> [] -> exists x, first_best g l x.
Proof.
  intros A g l. induction l as [|y l IH]; [congruence|]. intros _. destruct l as [|z l].
  - exists y, [], []. repeat split; constructor.
  - destruct IH as (x & l1 & l2 & E & F1 & F2); [discriminate|]. destruct (Rle_dec (g x) (g y)) as [L|L].
    + exists y, [], (z :: l). split; [reflexivity|]. split; [constructor|]. rewrite E. apply Forall_app. split.
      * eapply Forall_impl; [|exact F1]. cbn beta. intros; lra.
      * constructor; [assumption|]. eapply Forall_impl; [|exact F2]. cbn beta. intros; lra.
    + exists x, (y :: l1), l2. split; [rewrite E; reflexivity|]. split; [constructor; [lra|assumption]|assumption].
Qed.
Lemma done_or_failed : forall {K A} (att : list (K * option A)), ~ some_failed att -> exists d, all_done att d.
Proof.
  intros K A att. induction att as [|[k [a|]] att IH]; intros N.
  - exists []. reflexivity.
  - destruct IH as (d & E). { intros (k' & I). apply N. exists k'. right. assumption. } exists ((k, a) :: d). unfold all_done in *. rewrite E. reflexivity.
  - exfalso. apply N. exists k. left. reflexivity.
Qed.
Lemma in_done : forall {K A} (att : list (K * option A)) d k a, all_done att d -> In (k, Some a) att -> In (k, a) d.
Proof.
  intros K A att d k a -> I. apply in_map_iff in I. destruct I as ([k' a'] & E & I). injection E as -> ->. assumption.
Qed.
Lemma times_six : forall j, accepted j -> (5 < List.length (j_times j))%nat.
Proof.
  intros j A. destruct (accepted_facts j A) as (_ & T & _). lia.
Qed.
Section CASE.
Variable c3 : curve3_t.
Variable c5 : curve5_t.
(** An exact fit is found. *)
Theorem recover1 : forall j k p v, accepted j -> both_of j = None -> varied (j_amps j) -> ~ some_failed (attempts1 c3 j) -> In (k, Some (p, v)) (attempts1 c3 j) ->
  Forall (fun q => curve1 (j_mode j) (IZR (j_pumps j)) k (fst q) p = snd q) (combine (j_times j) (j_amps j)) ->
  exists k' p' v', In k' (alone j) /\ run c3 c5 j = Ok (answer1 (k', (p', v'))) /\ Forall (fun q => curve1 (j_mode j) (IZR (j_pumps j)) k' (fst q) p' = snd q) (combine (j_times j) (j_amps j)).
Proof using.
  intros j k p v A B V NF I EX. destruct (done_or_failed _ NF) as (d & D). pose proof (in_done _ _ _ _ D I) as Id. pose proof (times_six j A) as T6. pose proof (varied_spread _ V) as SP.
  destruct (best_exists (good1 j) d) as ([k' [p' v']] & BX). { intros ->. destruct Id. }
  pose proof (best_max _ _ _ BX) as M. rewrite Forall_forall in M. specialize (M _ Id).
  assert (G : forall k p v, good1 j (k, (p, v)) <= 1 /\ (good1 j (k, (p, v)) = 1 <-> Forall (fun q => curve1 (j_mode j) (IZR (j_pumps j)) k (fst q) p = snd q) (combine (j_times j) (j_amps j)))).
  { intros k0 p0 v0. unfold good1. cbn [fst snd]. apply goodness_le; [lia|lia|assumption]. }
  destruct (G k p v) as (_ & G1). apply G1 in EX. cbn beta in M. rewrite EX in M. destruct (G k' p' v') as (G2 & G3). assert (E1 : good1 j (k', (p', v')) = 1) by lra.
  exists k', p', v'. assert (F : found j (attempts1 c3 j) (good1 j) (k', (p', v'))).
  { split; [assumption|]. exists d. split; [assumption|]. split; [assumption|]. rewrite E1. destruct (accepted_facts j A) as (_ & _ & _ & _ & (_ & TH) & _). lra. }
  split; [|split].
  - exact (proj1 (in1 c3 _ _ _ (found_in _ _ _ _ _ F))).
  - apply run_ok. split; [assumption|]. rewrite B. apply E_single. assumption.
  - apply G3. assumption.
Qed.
End CASE.

(** Six times and two traps *)
Definition six : list R := map (fun n => INR n * (2 * ln 2)) [1; 2; 3; 4; 5; 6]%nat.
Definition two_traps : five := (0, 1, 1, 2, 2).
Definition fit5 : curve5_t := fun _ _ _ _ _ _ => Some (two_traps, (None, None, None, None, None)).
Definition fit3 : curve3_t := fun _ _ _ _ _ _ => None.
Definition case (m : mode) : job :=
  mkjob m 1 (map (fun t => curve2 m 1 1 1 t two_traps) six) six 1 (1 / 2) (0, 10) (0, 10) (-1, 1)
    (Some (mkabove (Some (map (amplitude m 1 1 1 1) six)) (Some six))).
Lemma ln2_pos : 0 < ln 2. Proof. exact (peak_pos 1). Qed.
Lemma quarter : forall n, exp (- (INR n * (2 * ln 2) / 1)) = (/ 4) ^ n.
Proof.
  intros n. replace (INR n * (2 * ln 2) / 1) with (INR n * (2 * ln 2)) by field. rewrite exp_mult_nat. f_equal. rewrite e2. rewrite exp_Ropp, exp_ln by lra. field.
Qed.
Lemma half : forall n, exp (- (INR n * (2 * ln 2) / 2)) = (/ 2) ^ n.
Proof.
  intros n. replace (INR n * (2 * ln 2) / 2) with (INR n * ln 2) by field. rewrite exp_mult_nat. f_equal. rewrite exp_Ropp, exp_ln by lra. reflexivity.
Qed.
Lemma amp1_at : forall m n, amplitude m 1 1 1 1 (INR n * (2 * ln 2)) = let y := (/ 4) ^ n in match m with Timed => (1 - y) * (y - y ^ 2) | Const => y - y ^ 2 end.
Proof. intros m n. unfold amplitude. rewrite release_y. cbv zeta. rewrite quarter. destruct m; cbn [capture]; rewrite ?quarter; ring. Qed.
Lemma amp2_at : forall m n, amplitude m 1 1 2 2 (INR n * (2 * ln 2)) = let y := (/ 2) ^ n in match m with Timed => (1 - y) * (y - y ^ 2) | Const => 2 * (y - y ^ 2) end.
Proof. intros m n. unfold amplitude. rewrite release_y. cbv zeta. rewrite half. destruct m; cbn [capture]; rewrite ?half; ring. Qed.
Lemma six_nodup : NoDup six.
Proof.
  unfold six. apply Injective_map_NoDup.
  - intros a b E. apply INR_eq. apply (Rmult_eq_reg_r (2 * ln 2)); [assumption|]. pose proof ln2_pos. lra.
  - repeat constructor; cbn; lia.
Qed.
Lemma case_accepted : forall m, accepted (case m).
Proof.
  intros m. unfold accepted, refusals. repeat (apply Forall_cons; [cbn [fst snd case j_scheme j_times j_amps j_pumps j_thresh j_tau j_cap j_off j_both]|]); try apply Forall_nil.
  - lia.
  - intros (l & L & I). pose proof (NoDup_incl_length six_nodup I) as H. change (List.length six) with 6%nat in H. lia.
  - rewrite map_length. intros C. apply C. reflexivity.
  - lia.
  - lra.
  - lra.
  - lra.
  - lra.
  - lra.
  - lra.
  - lra.
  - lra.
  - lra.
  - intros [C|C]; discriminate.
  - intros (x & y & E & E' & N). cbn [ab_amp ab_t] in E, E'. injection E as <-. injection E' as <-. apply N. reflexivity.
Qed.
Lemma case_varied : forall m, varied (j_amps (case m)).
Proof.
  intros m. cbn [case j_amps]. exists (curve2 m 1 1 1 (INR 1 * (2 * ln 2)) two_traps), (curve2 m 1 1 1 (INR 2 * (2 * ln 2)) two_traps).
  split; [left; reflexivity|]. split; [right; left; reflexivity|].
  unfold curve2, two_traps. rewrite !amp1_at, !amp2_at. cbv zeta. destruct m; cbn [pow]; lra.
Qed.
Lemma case_found : forall m, found (case m) (attempts2 fit5 (case m)) (good2 (case m)) ((1%nat, 1%nat), (two_traps, (None, None, None, None, None))).
Proof.
  intros m. pose proof (varied_spread _ (case_varied m)) as SP. pose proof (times_six _ (case_accepted m)) as T6.
  assert (G : forall k1 k2 v, good2 (case m) ((k1, k2), (two_traps, v)) <= 1 /\ (good2 (case m) ((k1, k2), (two_traps, v)) = 1 <-> Forall (fun q => curve2 m 1 k1 k2 (fst q) two_traps = snd q) (combine (j_times (case m)) (j_amps (case m))))).
  { intros k1 k2 v. apply goodness_le; [lia|lia|assumption]. }
  assert (G1 : good2 (case m) ((1%nat, 1%nat), (two_traps, (None, None, None, None, None))) = 1).
  { apply G. apply Forall_forall. intros [t a] I. cbn [fst snd case j_times j_amps] in *.
    assert (X : forall l, In (t, a) (combine l (map (fun t => curve2 m 1 1 1 t two_traps) l)) -> curve2 m 1 1 1 t two_traps = a).
    { induction l as [|z l IH]; cbn [map combine In]; [intros []|]. intros [E|E]; [apply pair_equal_spec in E; destruct E as (-> & <-); reflexivity|auto]. }
    exact (X _ I). }
  split; [apply case_varied|]. exists (map (fun kk => (kk, (two_traps, (None, None, None, None, None)))) [(1, 1); (1, 1); (1, 2); (1, 2); (2, 2); (2, 2)]%nat).
  split; [reflexivity|]. split; [|rewrite G1; cbn [case j_thresh]; lra].
  cbn [map]. eexists [], _. split; [reflexivity|]. split; [constructor|]. rewrite G1. repeat (apply Forall_cons; [apply G|]). apply Forall_nil.
Qed.
Lemma case_bright : forall m, brightest (map (amplitude m 1 1 1 1) six) six (1 * (2 * ln 2)).
Proof.
  intros m. exists (amplitude m 1 1 1 1 (INR 1 * (2 * ln 2))). unfold six. cbn [map combine]. exists []. eexists. split; [reflexivity|]. split; [constructor|].
  repeat (apply Forall_cons; [cbn [fst]; rewrite !amp1_at; cbv zeta; destruct m; cbn [pow]; lra|]). apply Forall_nil.
Qed.
Lemma case_run : forall m, run fit3 fit5 (case m) = Ok (Split (1%nat, (2, None, 2, None)) (1%nat, (1, None, 1, None))).
Proof.
  intros m. apply run_ok. split; [apply case_accepted|]. cbn [case both_of j_both ab_amp ab_t]. apply E_both. eapply E_pair; [apply case_found|].
  cbn [answer2 two_traps stdev]. exists (1 * (2 * ln 2)). split; [apply case_bright|]. right. split; [|reflexivity].
  change (peak 1) with (ln 2). pose proof ln2_pos. replace (1 * (2 * ln 2) / ln 2) with 2 by (field; lra). replace (2 - 2) with 0 by ring. rewrite Rabs_R0. apply Rabs_pos_lt. lra.
Qed.
(** The job without the both-ways lists *)
Definition lone (m : mode) : job :=
  mkjob m 1 (map (amplitude m 1 1 1 1) six) six 1 (1 / 2) (0, 10) (0, / 2) (-1, 1) None.
Definition one_trap : curve3_t := fun _ _ _ _ _ _ => Some ((0, 1, 1), (Some 4, Some 9, None)).
Lemma lone_accepted : forall m, accepted (lone m).
Proof.
  intros m. unfold accepted, refusals. repeat (apply Forall_cons; [cbn [fst snd lone j_scheme j_times j_amps j_pumps j_thresh j_tau j_cap j_off j_both]|]); try apply Forall_nil.
  - lia.
  - intros (l & L & I). pose proof (NoDup_incl_length six_nodup I) as H. change (List.length six) with 6%nat in H. lia.
  - rewrite map_length. intros C. apply C. reflexivity.
  - lia.
  - lra.
  - lra.
  - lra.
  - lra.
  - lra.
  - lra.
  - lra.
  - lra.
  - lra.
  - intros [].
  - intros [].
Qed.
Lemma lone_varied : forall m, varied (j_amps (lone m)).
Proof.
  intros m. cbn [lone j_amps]. exists (amplitude m 1 1 1 1 (INR 1 * (2 * ln 2))), (amplitude m 1 1 1 1 (INR 2 * (2 * ln 2))).
  split; [left; reflexivity|]. split; [right; left; reflexivity|].
  rewrite !amp1_at. cbv zeta. destruct m; cbn [pow]; lra.
Qed.
Lemma lone_exact : forall m, Forall (fun q => curve1 (j_mode (lone m)) (IZR (j_pumps (lone m))) 1 (fst q) (0, 1, 1) = snd q) (combine (j_times (lone m)) (j_amps (lone m))).
Proof.
  intros m. apply Forall_forall. intros [t a] I. cbn [fst snd lone j_times j_amps j_mode j_pumps] in *.
  assert (X : forall l, In (t, a) (combine l (map (amplitude m 1 1 1 1) l)) -> curve1 m 1 1 t (0, 1, 1) = a).
  { induction l as [|z l IH]; cbn [map combine In]; [intros []|]. intros [E|E]; [apply pair_equal_spec in E; destruct E as (-> & <-); unfold curve1; ring|auto]. }
  exact (X _ I).
Qed.
Lemma lone_run : forall m c5, run one_trap c5 (lone m) = Ok (Traps [(1%nat, [(1, Some (sqrt 9), 1, None)])]).
Proof.
  intros m c5. apply run_ok. split; [apply lone_accepted|]. cbn [lone both_of j_both].
  change (Traps [(1%nat, [(1, Some (sqrt 9), 1, None)])]) with (answer1 (1%nat, ((0, 1, 1), (Some 4, Some 9, None)))). apply E_single.
  pose proof (varied_spread _ (lone_varied m)) as SP. pose proof (times_six _ (lone_accepted m)) as T6.
  assert (G : forall k v, good1 (lone m) (k, ((0, 1, 1), v)) <= 1 /\ (good1 (lone m) (k, ((0, 1, 1), v)) = 1 <-> Forall (fun q => curve1 m 1 k (fst q) (0, 1, 1) = snd q) (combine (j_times (lone m)) (j_amps (lone m))))).
  { intros k v. apply goodness_le; [lia|lia|assumption]. }
  assert (G1 : good1 (lone m) (1%nat, ((0, 1, 1), (Some 4, Some 9, None))) = 1) by (apply G; exact (lone_exact m)).
  split; [apply lone_varied|]. exists (map (fun k => (k, ((0, 1, 1), (Some 4, Some 9, None)))) [1; 1; 2; 2]%nat).
  split; [reflexivity|]. split; [|change (1 / 2 <= good1 (lone m) (1%nat, ((0, 1, 1), (Some 4, Some 9, None)))); rewrite G1; lra].
  cbn [map]. eexists [], _. split; [reflexivity|]. split; [constructor|]. rewrite G1. repeat (apply Forall_cons; [apply G|]). apply Forall_nil.
Qed.
(** A wrong label, and a start at zero. *)
Theorem label_timed_refuted : exists c3 c5 j k c u k2 c2 u2 t,
  accepted j /\ j_mode j = Timed /\
  j_amps j = map (fun x => curve2 Timed (IZR (j_pumps j)) k k2 x (0, c, u, c2, u2)) (j_times j) /\
  both_of j = Some (map (amplitude Timed (IZR (j_pumps j)) k c u) t, t) /\ t = j_times j /\ 0 < c /\ 0 < u /\ 0 < c2 /\ 0 < u2 /\
  run c3 c5 j = Ok (Split (k2, (c2, None, u2, None)) (k, (c, None, u, None))) /\ u <> u2.
Proof.
  exists fit3, fit5, (case Timed), 1%nat, 1, 1, 1%nat, 2, 2, six. split; [apply case_accepted|]. split; [reflexivity|]. split; [reflexivity|]. split; [reflexivity|]. split; [reflexivity|].
  repeat (split; [lra|]). split; [apply case_run|lra].
Qed.
Theorem start_zero_refuted : exists j, accepted j /\ j_mode j = Const /\ forall up, ~ nonzero3 (start1 j up) /\ ~ nonzero5 (start2 j up).
Proof.
  exists (lone Const). split; [apply lone_accepted|]. split; [reflexivity|]. intros up.
  assert (Z : snd (fst (start1 (lone Const) up)) = 0).
  { unfold start1. cbn [lone j_mode j_cap fst snd]. destruct (Rle_dec 0 1); [|lra]. destruct (Rle_dec 1 (/ 2)); [lra|reflexivity]. }
  split.
  - destruct (start1 (lone Const) up) as [[a b] c]. cbn [fst snd] in Z. unfold nonzero3. tauto.
  - unfold start2. cbn [lone j_mode]. change (mkjob Const 1 (map (amplitude Const 1 1 1 1) six) six 1 (1 / 2) (0, 10) (0, / 2) (-1, 1) None) with (lone Const). cbv zeta. rewrite Z. destruct up; unfold nonzero5; tauto.
Qed.
