From Coq Require Import List Arith Bool Reals ZArith Lra Lia.
From Verif Require Import Base PumpModel PumpSpec PumpProofs PumpRunProofs PumpTopProofs PumpLawProofs.
Import ListNotations.
Local Open Scope R_scope.

Section USE.
Variable c3 : curve3_t.
Variable c5 : curve5_t.

Lemma done_in : forall {K A} (att : list (K * option A)) d k a, all_done att d -> In (k, a) d -> In (k, Some a) att.
Proof using. intros K A att d k a -> I. apply in_map_iff. exists (k, a). auto. Qed.
Lemma found_in : forall {K A} j (att : list (K * option A)) g k a, found j att g (k, a) -> In (k, Some a) att.
Proof using. intros K A j att g k a (_ & d & D & B & _). exact (done_in _ _ _ _ D (best_in _ _ _ B)). Qed.
Lemma in1 : forall j k a, In (k, Some a) (attempts1 c3 j) -> In k (alone j) /\ exists up, c3 (curve1 (j_mode j) (IZR (j_pumps j)) k) (j_times j) (j_amps j) (lower1 j) (upper1 j) (start1 j up) = Some a.
Proof using.
  intros j k a I. unfold attempts1 in I. apply in_flat_map in I. destruct I as (k' & Hk & I). apply in_map_iff in I. destruct I as (up & E & _). injection E as -> E. split; [assumption|]. exists up. assumption.
Qed.
Lemma in2 : forall j kk a, In (kk, Some a) (attempts2 c5 j) -> In kk (paired j) /\ exists up, c5 (curve2 (j_mode j) (IZR (j_pumps j)) (fst kk) (snd kk)) (j_times j) (j_amps j) (lower2 j) (upper2 j) (start2 j up) = Some a.
Proof using.
  intros j k a I. unfold attempts2 in I. apply in_flat_map in I. destruct I as (k' & Hk & I). apply in_map_iff in I. destruct I as (up & E & _). injection E as -> E. split; [assumption|]. exists up. assumption.
Qed.
Lemma paired_alone : forall j k1 k2, In (k1, k2) (paired j) -> In k1 (alone j) /\ In k2 (alone j).
Proof using.
  intros j k1 k2. unfold paired, alone. destruct (early j); cbn [In]; intros H; repeat (destruct H as [H|H]; [injection H; intros; subst; auto|]); destruct H.
Qed.

(** Who the traps are. *)
Inductive origin (j : job) (o : outcome) : Prop :=
| O_none : traps_of o = [] -> origin j o
| O_single : forall k c v, both_of j = None -> In (k, Some (c, v)) (attempts1 c3 j) -> o = answer1 (k, (c, v)) -> j_thresh j <= good1 j (k, (c, v)) -> origin j o
| O_pair : forall k1 k2 c v, In ((k1, k2), Some (c, v)) (attempts2 c5 j) -> answer2 (both_of j) ((k1, k2), (c, v)) o -> j_thresh j <= good2 j ((k1, k2), (c, v)) -> origin j o.
Lemma run_origin : forall j o, run c3 c5 j = Ok o -> origin j o.
Proof using.
  intros j o E. apply run_ok in E. destruct E as (_ & E).
  assert (X : forall b, b = both_of j -> ends2 c5 j b o -> origin j o).
  { intros b Hb H. destruct H as [F|[[k1 k2] [c v]] o F A|N Y|N V Y]; try (apply O_none; reflexivity).
    subst b. apply (O_pair _ _ k1 k2 c v); [exact (found_in _ _ _ _ _ F)|assumption|]. destruct F as (_ & d & _ & _ & T). exact T. }
  remember (both_of j) as b eqn:Hb. destruct E as [F|[k [c v]] F|o N E|b o E].
  - apply O_none. reflexivity.
  - apply (O_single _ _ k c v); [auto|exact (found_in _ _ _ _ _ F)|reflexivity|]. destruct F as (_ & d & _ & _ & T). exact T.
  - exact (X None eq_refl E).
  - exact (X (Some b) eq_refl E).
Qed.

Theorem sound : forall j o k c ec u eu, bounded3 c3 -> bounded5 c5 -> run c3 c5 j = Ok o -> In (k, (c, ec, u, eu)) (traps_of o) ->
  In k (alone j) /\ fst (j_cap j) <= c <= snd (j_cap j) /\ fst (j_tau j) <= u <= snd (j_tau j).
Proof using.
  intros j o k c ec u eu B3 B5 E I. destruct (run_origin j o E) as [N|k0 [[o0 c0] u0] v Hb A -> _|k1 k2 [[[[o0 c1] u1] c2] u2] v A AN _].
  - rewrite N in I. destruct I.
  - apply in1 in A. destruct A as (K & up & A). apply B3 in A. destruct v as [[v0 v1] v2]. cbn [answer1 traps_of flat_map map fst snd app In] in I. destruct I as [I|[]].
    injection I as <- <- _ <- _. unfold le3, lower1, upper1 in A. split; [assumption|lra].
  - apply in2 in A. destruct A as (K & up & A). apply B5 in A. apply paired_alone in K. destruct K as (K1 & K2). destruct v as [[[[v0 v1] v2] v3] v4]. unfold le5, lower2, upper2 in A. cbn [fst snd] in A.
    assert (Z : In (k, (c, ec, u, eu)) [(k1, (c1, stdev v1, u1, stdev v2)); (k2, (c2, stdev v3, u2, stdev v4))]).
    { unfold answer2 in AN. destruct (both_of j) as [[amp t]|].
      - destruct AN as (x & _ & [(_ & ->)|(_ & ->)]); cbn [traps_of In] in *; tauto.
      - subst o. destruct (Nat.eqb_spec k1 k2); [subst k2|]; cbn [traps_of flat_map map fst snd app In] in *; tauto. }
    cbn [In] in Z. destruct Z as [Z|[Z|[]]]; injection Z as <- <- _ <- _; (split; [assumption|lra]).
Qed.
(** How many, and in which form. *)
Theorem shape : forall j o, run c3 c5 j = Ok o ->
  (both_of j = None -> traps_of o = [] \/ (exists k e, o = Traps [(k, [e])]) \/ (exists k e e', o = Traps [(k, [e; e'])]) \/ (exists k e k' e', k <> k' /\ o = Traps [(k, [e]); (k', [e'])])) /\
  (both_of j <> None -> traps_of o = [] \/ exists a b, o = Split a b).
Proof using.
  intros j o E. destruct (run_origin j o E) as [N|k0 [[o0 c0] u0] v Hb A -> _|k1 k2 [[[[o0 c1] u1] c2] u2] v A AN _].
  - auto.
  - destruct v as [[v0 v1] v2]. split; [|congruence]. intros _. right. left. eexists. eexists. reflexivity.
  - destruct v as [[[[v0 v1] v2] v3] v4]. unfold answer2 in AN. destruct (both_of j) as [[amp t]|].
    + split; [discriminate|]. intros _. right. destruct AN as (x & _ & [(_ & ->)|(_ & ->)]); eauto.
    + split; [|congruence]. intros _. right. right. subst o. destruct (Nat.eqb_spec k1 k2); [left|right]; repeat eexists. assumption.
Qed.
(** Equal amplitudes never give a trap. *)
Theorem flat_none : forall j o, run c3 c5 j = Ok o -> ~ varied (j_amps j) -> traps_of o = [].
Proof using.
  intros j o E V. apply run_ok in E. destruct E as (_ & E).
  assert (X : forall b, ends2 c5 j b o -> traps_of o = []).
  { intros b H. destruct H as [F|q o F A|N Y|N V' Y]; try reflexivity. destruct F as (V' & _). contradiction. }
  destruct E as [F|q F|o N E|b o E]; [reflexivity|destruct F; contradiction|exact (X _ E)|exact (X _ E)].
Qed.
(** The trap called 'a' is the one whose peak is nearer to the brightest time. *)
Theorem nearer : forall j k1 c1 e1 u1 f1 k2 c2 e2 u2 f2, run c3 c5 j = Ok (Split (k1, (c1, e1, u1, f1)) (k2, (c2, e2, u2, f2))) ->
  exists amp t x, both_of j = Some (amp, t) /\ brightest amp t x /\ Rabs (x / peak k1 - u1) <= Rabs (x / peak k2 - u2).
Proof using.
  intros j k1 c1 e1 u1 f1 k2 c2 e2 u2 f2 E. destruct (run_origin j _ E) as [N|k0 [[o0 c0] u0] v Hb A X _|k1' k2' [[[[o0 c1'] u1'] c2'] u2'] v A AN _].
  - discriminate.
  - destruct v as [[v0 v1] v2]. discriminate.
  - destruct v as [[[[v0 v1] v2] v3] v4]. unfold answer2 in AN. destruct (both_of j) as [[amp t]|]; [|discriminate].
    destruct AN as (x & B & [(L & X)|(L & X)]); injection X; intros; subst; exists amp, t, x; (split; [reflexivity|]); (split; [assumption|]); lra.
Qed.
Lemma brightest_in : forall amp t x, brightest amp t x -> exists a, In (a, x) (combine amp t) /\ forall b y, In (b, y) (combine amp t) -> b <= a.
Proof using.
  intros amp t x (a & B). exists a. split; [exact (best_in _ _ _ B)|]. intros b y I. pose proof (best_max _ _ _ B) as M. rewrite Forall_forall in M. exact (M (b, y) I).
Qed.
Lemma combine_map : forall {A} (f : A -> R) (l : list A) b y, In (b, y) (combine (map f l) l) -> b = f y.
Proof using. induction l as [|z l IH]; cbn [map combine In]; [intros ? ? []|]. intros b y [E|E]; [injection E; intros; subst; reflexivity|auto]. Qed.
Lemma combine_map_in : forall {A} (f : A -> R) (l : list A) y, In y l -> In (f y, y) (combine (map f l) l).
Proof using. induction l as [|z l IH]; cbn [map combine In]; [intros ? []|]. intros y [->|E]; auto. Qed.
(** With a constant capture probability and exact amplitudes sampled at the peak, the label is right. *)
Theorem label_const : forall j N k c u t k1 c1 e1 u1 f1 k2 c2 e2 u2 f2, run c3 c5 j = Ok (Split (k1, (c1, e1, u1, f1)) (k2, (c2, e2, u2, f2))) ->
  both_of j = Some (map (amplitude Const N k c u) t, t) -> 0 < N * c -> 0 < u -> In (u * peak k) t ->
  (k1, u1) = (k, u) \/ (k2, u2) = (k, u) -> u1 * peak k1 = u * peak k.
Proof using.
  intros j N k c u t k1 c1 e1 u1 f1 k2 c2 e2 u2 f2 E B HN Hu Ht W. destruct W as [W|W]; [injection W; intros; subst; reflexivity|].
  destruct (nearer _ _ _ _ _ _ _ _ _ _ _ E) as (amp & t' & x & B' & BR & L). rewrite B in B'. injection B' as <- <-.
  destruct (brightest_in _ _ _ BR) as (a & I & M). pose proof (combine_map _ _ _ _ I) as Ea.
  pose proof (M _ _ (combine_map_in (amplitude Const N k c u) _ _ Ht)) as Mx. subst a.
  assert (P : forall y, amplitude Const N k c u y <= amplitude Const N k c u (u * peak k)). { apply const_peak; [assumption|assumption|]. field. apply Rgt_not_eq, peak_pos. }
  assert (X : x / peak k = u). { apply (const_peak N k c u x HN Hu). intros y. eapply Rle_trans; [apply P|exact Mx]. }
  injection W as -> ->. rewrite X in L. replace (u - u) with 0 in L by ring. rewrite Rabs_R0 in L.
  assert (Z : x / peak k1 - u1 = 0) by (destruct (Req_dec (x / peak k1 - u1) 0) as [|Q]; [assumption|pose proof (Rabs_pos_lt _ Q); lra]).
  pose proof (peak_pos k1). pose proof (peak_pos k). replace u1 with (x / peak k1) by lra. rewrite <- X. field. lra.
Qed.
End USE.

(** Only the calls of curve_fit that are made matter. *)
Lemma ends_same : forall c3 c5 c3' c5' j b o, attempts1 c3 j = attempts1 c3' j -> attempts2 c5 j = attempts2 c5' j -> (exact_first c5 j <-> exact_first c5' j) ->
  ends c3 c5 j b o -> ends c3' c5' j b o.
Proof.
  intros c3 c5 c3' c5' j b o A1 A2 EX H.
  assert (X : forall b, ends2 c5 j b o -> ends2 c5' j b o).
  { intros b0 H0. destruct H0 as [F|q o F A|N Y|N V Y]; rewrite A2 in *; [apply E_failed2|eapply E_pair|apply E_none|apply E_silent]; try eassumption; [intros (V & Z); apply Y; tauto|tauto]. }
  destruct H as [F|q F|o N E|b o E]; rewrite ?A1 in *; [apply E_failed1|apply E_single|apply E_then|apply E_both]; auto.
Qed.
Lemma run_same : forall c3 c5 c3' c5' j, (accepted j -> attempts1 c3 j = attempts1 c3' j /\ attempts2 c5 j = attempts2 c5' j /\ (exact_first c5 j <-> exact_first c5' j)) -> run c3 c5 j = run c3' c5' j.
Proof.
  intros c3 c5 c3' c5' j H. destruct (run c3 c5 j) as [o|e] eqn:E; symmetry.
  - apply run_ok in E. destruct E as (A & E). apply run_ok. split; [assumption|]. destruct (H A) as (A1 & A2 & EX). exact (ends_same _ _ _ _ _ _ _ A1 A2 EX E).
  - apply run_raises in E. apply run_raises. destruct E as [R|(A & -> & B & F)]; [auto|]. right. destruct (H A) as (_ & A2 & _). rewrite <- A2. auto.
Qed.
Lemma attempts_same : forall c3 c5 c3' c5' j (ok3 : three -> three -> three -> Prop) (ok5 : five -> five -> five -> Prop), same3 ok3 c3 c3' -> same5 ok5 c5 c5' ->
  (forall up, ok3 (lower1 j) (upper1 j) (start1 j up)) -> (forall up, ok5 (lower2 j) (upper2 j) (start2 j up)) ->
  attempts1 c3 j = attempts1 c3' j /\ attempts2 c5 j = attempts2 c5' j /\ (exact_first c5 j <-> exact_first c5' j).
Proof.
  intros c3 c5 c3' c5' j ok3 ok5 S3 S5 O3 O5. split; [|split].
  - unfold attempts1. apply flat_map_ext. intros k. apply map_ext. intros up. rewrite (S3 _ _ _ _ _ _ (O3 up)). reflexivity.
  - unfold attempts2. apply flat_map_ext. intros k. apply map_ext. intros up. rewrite (S5 _ _ _ _ _ _ (O5 up)). reflexivity.
  - unfold exact_first. destruct (paired j) as [|kk l]; [tauto|]. rewrite (S5 _ _ _ _ _ _ (O5 false)). tauto.
Qed.
Lemma nudge_in : forall z b top, z < top -> 0 <= b -> z <= nudge z b top <= top.
Proof. intros z b top H Hb. unfold nudge. destruct (Req_EM_T z 0) as [->|]; [|lra]. split; [apply Rmin_glb; lra|apply Rmin_r]. Qed.
Lemma nudge_nz : forall z b top, z < top -> 0 < b -> 0 <= z -> nudge z b top <> 0.
Proof. intros z b top H Hb Hz. unfold nudge. destruct (Req_EM_T z 0) as [->|]; [|assumption]. apply Rgt_not_eq. apply Rmin_pos; lra. Qed.
Lemma off0_in : forall j, fst (j_off j) < snd (j_off j) -> fst (j_off j) <= off0 j <= snd (j_off j) /\ off0 j <> 0.
Proof.
  intros j H. unfold off0, nudge. destruct (Req_EM_T ((fst (j_off j) + snd (j_off j)) / 2) 0) as [E|E].
  - assert (0 < snd (j_off j)) by lra. pose proof (Rmin_pos 1 (snd (j_off j)) ltac:(lra) H0). pose proof (Rmin_r 1 (snd (j_off j))). split; [lra|apply Rgt_not_eq; lra].
  - split; [lra|assumption].
Qed.
Lemma ten : forall n, 0 < / 10 ^ n.
Proof. intros. apply Rinv_0_lt_compat, pow_lt. lra. Qed.
Lemma starts_inside : forall j, accepted j -> forall up, inside3 (lower1 j) (upper1 j) (start1 j up) /\ inside5 (lower2 j) (upper2 j) (start2 j up).
Proof.
  intros j A up. destruct (accepted_facts j A) as (_ & _ & _ & _ & _ & (T0 & T1) & (C0 & C1) & O). destruct (off0_in j O) as (OI & _).
  pose proof (nudge_in (fst (j_tau j)) (/ 10 ^ 7) (snd (j_tau j)) T1 (Rlt_le _ _ (ten 7))) as TI. fold (tau_lo j) in TI.
  pose proof (nudge_in (fst (j_cap j)) (/ 10 ^ 12) (snd (j_cap j)) C1 (Rlt_le _ _ (ten 12))) as CI.
  unfold inside3, inside5, le3, le5, lower1, upper1, lower2, upper2, start2, start1. cbv zeta. cbn [fst snd].
  destruct (j_mode j).
  - destruct up; repeat split; lra.
  - destruct (Rle_dec (fst (j_cap j)) 1); [destruct (Rle_dec 1 (snd (j_cap j)))|]; destruct up; repeat split; lra.
Qed.
Theorem starts_bounded : forall c3 c5 c3' c5' j, same3 inside3 c3 c3' -> same5 inside5 c5 c5' -> run c3 c5 j = run c3' c5' j.
Proof.
  intros c3 c5 c3' c5' j S3 S5. apply run_same. intros A. apply (attempts_same _ _ _ _ _ inside3 inside5); try assumption; intros up; apply (starts_inside j A up).
Qed.
Theorem starts_nonzero : forall c3 c5 c3' c5' j, j_mode j = Timed -> same3 (fun _ _ p0 => nonzero3 p0) c3 c3' -> same5 (fun _ _ p0 => nonzero5 p0) c5 c5' -> run c3 c5 j = run c3' c5' j.
Proof.
  intros c3 c5 c3' c5' j M S3 S5. apply run_same. intros A. destruct (accepted_facts j A) as (_ & _ & _ & _ & _ & (T0 & T1) & (C0 & C1) & O). destruct (off0_in j O) as (_ & ON).
  pose proof (nudge_nz (fst (j_tau j)) (/ 10 ^ 7) (snd (j_tau j)) T1 (ten 7) T0) as TI. fold (tau_lo j) in TI.
  pose proof (nudge_nz (fst (j_cap j)) (/ 10 ^ 12) (snd (j_cap j)) C1 (ten 12) C0) as CI.
  assert (NZ : forall x, 0 < x -> x <> 0) by (intros; lra).
  apply (attempts_same _ _ _ _ _ (fun _ _ p0 => nonzero3 p0) (fun _ _ p0 => nonzero5 p0)); try assumption; intros up; unfold start1, start2, nonzero3, nonzero5; rewrite M; cbv zeta; destruct up; repeat split; try assumption; apply NZ; lra.
Qed.
