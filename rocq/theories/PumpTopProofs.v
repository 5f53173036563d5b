From Coq Require Import List Arith Bool Reals ZArith Lra Lia.
From Verif Require Import Base PumpModel PumpSpec PumpProofs PumpRunProofs.
Import ListNotations.
Local Open Scope R_scope.

Section TOP.
Variable c3 : curve3_t.
Variable c5 : curve5_t.

Section ONE.
Variable j : job.
Hypothesis ACC : accepted j.

Definition tries1 (k : nat) : list (nat * option (three * (err * err * err))) :=
  map (fun up : bool => (k, c3 (curve1 (j_mode j) (IZR (j_pumps j)) k) (j_times j) (j_amps j) (lower1 j) (upper1 j) (start1 j up))) [true; false].
Definition block1 (f : R -> R -> R -> R -> R) (st : starts) : option (rsq * option (three * (err * err * err))) :=
  choose (List.length (j_times j)) 3 (total (j_amps j)) (fun p => residue (fun t => one f t p) (j_times j) (j_amps j))
    (c3 (one f) (j_times j) (j_amps j) (s_lo1 st) (s_hi1 st) (s_p1l st)) (c3 (one f) (j_times j) (j_amps j) (s_lo1 st) (s_hi1 st) (s_p1u st)).

Lemma block1_cases : forall f k st, one f = curve1 (j_mode j) (IZR (j_pumps j)) k -> right_starts j st ->
  (block1 f st = None /\ some_failed (tries1 k)) \/
  (exists l u, tries1 k = [(k, Some u); (k, Some l)] /\
     (varied (j_amps j) -> exists c, block1 f st = Some (Num (good1 j (k, c)), Some c) /\ first_best (good1 j) [(k, u); (k, l)] (k, c)) /\
     (~ varied (j_amps j) -> exists r c, block1 f st = Some (r, c) /\ (r = NotNum \/ r = NegInf))).
Proof using ACC.
  intros f k st Ef (L & U & SL & SU & _). unfold block1, tries1. cbn [map]. rewrite L, U, SL, SU, Ef.
  destruct (c3 _ _ _ _ _ (start1 j false)) as [l|] eqn:El; [|left; split; [reflexivity|exists k; cbn; auto]].
  destruct (c3 _ _ _ _ _ (start1 j true)) as [u|] eqn:Eu; [|left; split; [reflexivity|exists k; cbn; auto]].
  right. exists l, u. split; [reflexivity|]. split.
  - intros V. apply varied_iff in V; [|assumption]. apply (choose_varied _ _ _ _ k (good1 j)); [assumption|].
    intros c. unfold gv, good1. cbn [fst snd]. apply good_eq; [assumption|lia|]. rewrite <- total_eq. assumption.
  - intros V. assert (T0 : total (j_amps j) = 0) by (destruct (Req_EM_T (total (j_amps j)) 0); [assumption|exfalso; apply V, varied_iff; assumption]).
    destruct (choose_equal (List.length (j_times j)) 3 (total (j_amps j)) (fun p => residue (fun t => curve1 (j_mode j) (IZR (j_pumps j)) k t p) (j_times j) (j_amps j)) T0 l u) as (r & c & E & D).
    exists r, c. split; [exact E|]. tauto.
Qed.

Lemma single_eq : forall k c, single k c = answer1 (k, c).
Proof using. intros k [[[o c] u] [[v vc] vu]]. reflexivity. Qed.

Definition bad_both (b : option (list R * list R)) : Prop := exists amp t, b = Some (amp, t) /\ combine amp t = [].

Lemma search_iff : forall st b k1 f1 k2 f2 m1 m2 m3 kk1 kk2 kk3, right_starts j st ->
  one f1 = curve1 (j_mode j) (IZR (j_pumps j)) k1 -> one f2 = curve1 (j_mode j) (IZR (j_pumps j)) k2 -> alone j = [k1; k2] ->
  fits_pair j m1 kk1 -> fits_pair j m2 kk2 -> fits_pair j m3 kk3 -> paired j = [kk1; kk2; kk3] ->
  match search c3 c5 st (j_times j) (j_amps j) (j_thresh j) b k1 f1 k2 f2 m1 m2 m3 with
  | Ok o => ends c3 c5 j b o
  | Raise e => e = ValueError /\ bad_both b /\ exists q, found j (attempts2 c5 j) (good2 j) q
  end.
Proof using ACC.
  intros st b k1 f1 k2 f2 m1 m2 m3 kk1 kk2 kk3 RS O1 O2 AL F1 F2 F3 KK.
  pose proof (pairs_iff c5 j ACC st b m1 m2 m3 kk1 kk2 kk3 RS F1 F2 F3 KK) as PI.
  unfold search. destruct b as [b|].
  { destruct (pairs c5 st _ _ _ _ m1 m2 m3); [apply E_both|]; exact PI. }
  cbv zeta. change (choose _ _ _ _ (c3 (one f1) _ _ _ _ _) _) with (block1 f1 st). change (choose _ _ _ _ (c3 (one f2) _ _ _ _ _) _) with (block1 f2 st).
  assert (AT : attempts1 c3 j = tries1 k1 ++ tries1 k2). { unfold attempts1. rewrite AL. cbn [flat_map]. rewrite app_nil_r. reflexivity. }
  destruct (block1_cases f1 k1 st O1 RS) as [(B1 & X1)|(l1 & u1 & D1 & V1 & W1)].
  { rewrite B1. apply E_failed1. rewrite AT. apply failed_app. auto. }
  destruct (block1_cases f2 k2 st O2 RS) as [(B2 & X2)|(l2 & u2 & D2 & V2 & W2)].
  { assert (exists q, block1 f1 st = Some q) as ((r1 & c1) & B1).
    { destruct (classic_varied (j_amps j)) as [V|V]; [destruct (V1 V) as (c & E & _)|destruct (W1 V) as (r & c & E & _)]; eauto. }
    rewrite B1, B2. apply E_failed1. rewrite AT. rewrite !failed_app. auto. }
  assert (AD : all_done (attempts1 c3 j) ([(k1, u1); (k1, l1)] ++ [(k2, u2); (k2, l2)])).
  { rewrite AT. apply all_done_app; [exact D1|exact D2]. }
  assert (THEN : none_good j (attempts1 c3 j) (good1 j) ->
    match pairs c5 st (j_times j) (j_amps j) (j_thresh j) None m1 m2 m3 with
    | Ok o => ends c3 c5 j None o | Raise e => e = ValueError /\ bad_both None /\ exists q, found j (attempts2 c5 j) (good2 j) q end).
  { intros NG. destruct (pairs c5 st _ _ _ _ m1 m2 m3); [apply E_then|]; assumption. }
  destruct (classic_varied (j_amps j)) as [V|V].
  - destruct (V1 V) as (c1 & B1 & S1). destruct (V2 V) as (c2 & B2 & S2). rewrite B1, B2. clear V1 V2 W1 W2 B1 B2.
    set (g1 := good1 j (k1, c1)) in *. set (g2 := good1 j (k2, c2)) in *. rewrite !pymax_num. unfold reaches, req.
    pose proof (best_join _ _ _ _ _ S1 S2) as BB. fold g1 g2 in BB. pose proof (Rmax_l g1 g2). pose proof (Rmax_r g1 g2).
    destruct (Rle_dec (j_thresh j) (Rmax g1 g2)) as [L|L]; cbn [andb].
    + destruct (Req_EM_T (Rmax g1 g2) g1) as [E1|E1].
      * cbn [local bind]. rewrite single_eq. apply E_single. split; [assumption|]. eexists. split; [exact AD|]. split; [|fold g1; lra].
        destruct (Rle_dec g2 g1) as [Q|Q]; [exact BB|]. exfalso. lra.
      * destruct (Req_EM_T (Rmax g1 g2) g2) as [E2|E2].
        -- cbn [local bind]. rewrite single_eq. apply E_single. split; [assumption|]. eexists. split; [exact AD|]. split; [|fold g2; lra].
           destruct (Rle_dec g2 g1) as [Q|Q]; [|exact BB]. exfalso. lra.
        -- exfalso. unfold Rmax in E1, E2. destruct (Rle_dec g1 g2); congruence.
    + apply THEN. eexists. split; [exact AD|]. intros _. pose proof (best_max _ _ _ BB) as MX.
      eapply Forall_impl; [|exact MX]. cbn beta. intros q Hq. eapply Rle_lt_trans; [exact Hq|]. destruct (Rle_dec g2 g1); fold g1 g2; lra.
  - destruct (W1 V) as (r1 & c1 & B1 & S1). destruct (W2 V) as (r2 & c2 & B2 & S2). rewrite B1, B2.
    assert (reaches (pymax r1 r2) (j_thresh j) = false) as -> by (destruct S1 as [->| ->]; destruct S2 as [->| ->]; reflexivity).
    cbn [andb]. apply THEN. eexists. split; [exact AD|intros; contradiction].
Qed.
End ONE.

Lemma nudge_min : forall z b top, (if Req_EM_T z 0 then Rmin (z + b) top else z) = nudge z b top.
Proof using. intros. unfold nudge. destruct (Req_EM_T z 0) as [->|]; [rewrite Rplus_0_l|]; reflexivity. Qed.
Lemma off_eq : forall a b, offset_start a b = nudge ((a + b) / 2) 1 b.
Proof using. intros. unfold offset_start, nudge. cbv zeta. destruct (Req_EM_T ((a + b) / 2) 0) as [E|]; [rewrite E, Rplus_0_r|]; reflexivity. Qed.
Lemma tau_eq : forall a b, tau_low a b = nudge a (/ 10 ^ 7) b.
Proof using. intros. unfold tau_low. rewrite nudge_min. f_equal. f_equal. lra. Qed.
Lemma tauc_eq : forall a b, tauc_low a b = nudge a (/ 10 ^ 12) b.
Proof using. intros. unfold tauc_low. rewrite nudge_min. f_equal. f_equal. lra. Qed.
Lemma starts_timed : forall j, j_mode j = Timed -> right_starts j (fit_starts (fst (j_tau j)) (snd (j_tau j)) (fst (j_cap j)) (snd (j_cap j)) (fst (j_off j)) (snd (j_off j))).
Proof using.
  intros j M. unfold right_starts, fit_starts, lower1, upper1, lower2, upper2, start1, start2, off0, tau_lo. cbv zeta. rewrite M, off_eq, tau_eq, tauc_eq.
  cbn [s_lo1 s_hi1 s_p1l s_p1u s_lo2 s_hi2 s_p2l s_p2u]. repeat split.
Qed.
Lemma starts_const : forall j, j_mode j = Const -> right_starts j (const_starts (fst (j_tau j)) (snd (j_tau j)) (fst (j_cap j)) (snd (j_cap j)) (fst (j_off j)) (snd (j_off j))).
Proof using.
  intros j M. unfold right_starts, const_starts, lower1, upper1, lower2, upper2, start2, off0, tau_lo. cbv zeta. unfold start1, off0, tau_lo. rewrite M, off_eq, tau_eq.
  cbn [s_lo1 s_hi1 s_p1l s_p1u s_lo2 s_hi2 s_p2l s_p2u fst snd].
  assert (E : (if Rlt_dec 1 (fst (j_cap j)) then fst (j_cap j) else if Rlt_dec (snd (j_cap j)) 1 then fst (j_cap j) else 1) =
    (if Rle_dec (fst (j_cap j)) 1 then if Rle_dec 1 (snd (j_cap j)) then 1 else fst (j_cap j) else fst (j_cap j))).
  { destruct (Rlt_dec 1 (fst (j_cap j))); destruct (Rlt_dec (snd (j_cap j)) 1); destruct (Rle_dec (fst (j_cap j)) 1); destruct (Rle_dec 1 (snd (j_cap j))); try reflexivity; exfalso; lra. }
  rewrite E. repeat split.
Qed.

Definition ended (j : job) (x : result outcome) : Prop :=
  match x with
  | Ok o => accepted j /\ ends c3 c5 j (both_of j) o
  | Raise e => refused j e \/ accepted j /\ e = ValueError /\ bad_both (both_of j) /\ exists q, found j (attempts2 c5 j) (good2 j) q
  end.
Lemma run_ended : forall j, ended j (run c3 c5 j).
Proof using.
  intros j. unfold run. pose proof (checks_iff j) as CH. unfold checks_of in CH.
  assert (EARLY : accepted j -> (Z.eqb (j_scheme j) 1 || Z.eqb (j_scheme j) 2) = early j).
  { intros A. destruct (accepted_facts j A) as (S & _). unfold early. destruct (Z.eqb_spec (j_scheme j) 1); destruct (Z.eqb_spec (j_scheme j) 2); destruct (Z.leb_spec (j_scheme j) 2); cbn; lia. }
  destruct (j_mode j) eqn:M; unfold trap_fit, trap_fit_const; (destruct (checks _ _ _ _ _ _ _ _ _ _ _ _) as [b|e]; cbn [bind]; [destruct CH as (A & ->)|left; exact CH]); cbv zeta; rewrite (EARLY A).
  - destruct (early j) eqn:EA.
    + pose proof (search_iff j A (fit_starts (fst (j_tau j)) (snd (j_tau j)) (fst (j_cap j)) (snd (j_cap j)) (fst (j_off j)) (snd (j_off j))) (both_of j) 1 (P1 (IZR (j_pumps j))) 2 (P2 (IZR (j_pumps j)))
        (mkpair 1 1 (P1_P1 (IZR (j_pumps j))) (ln 2) (ln 2)) (mkpair 1 2 (P1_P2 (IZR (j_pumps j))) (ln 2) (ln (3 / 2))) (mkpair 2 2 (P2_P2 (IZR (j_pumps j))) (ln (3 / 2)) (ln (3 / 2)))
        (1, 1)%nat (1, 2)%nat (2, 2)%nat (starts_timed j M)) as SI.
      rewrite M in SI. specialize (SI (P1_eq _) (P2_eq _)). unfold alone, paired, fits_pair in SI. rewrite EA, M in SI. specialize (SI eq_refl).
      specialize (SI (conj (P11_eq _) (conj eq_refl (conj eq_refl (conj eq_refl eq_refl)))) (conj (P12_eq _) (conj eq_refl (conj eq_refl (conj eq_refl eq_refl)))) (conj (P22_eq _) (conj eq_refl (conj eq_refl (conj eq_refl eq_refl)))) eq_refl).
      unfold ended. destruct (search _ _ _ _ _ _ _ _ _ _ _ _ _); auto.
    + pose proof (search_iff j A (fit_starts (fst (j_tau j)) (snd (j_tau j)) (fst (j_cap j)) (snd (j_cap j)) (fst (j_off j)) (snd (j_off j))) (both_of j) 3 (P3 (IZR (j_pumps j))) 2 (P2 (IZR (j_pumps j)))
        (mkpair 3 3 (P3_P3 (IZR (j_pumps j))) (2 * ln 2 / 3) (2 * ln 2 / 3)) (mkpair 2 3 (P2_P3 (IZR (j_pumps j))) (ln (3 / 2)) (2 * ln 2 / 3)) (mkpair 2 2 (P2_P2 (IZR (j_pumps j))) (ln (3 / 2)) (ln (3 / 2)))
        (3, 3)%nat (2, 3)%nat (2, 2)%nat (starts_timed j M)) as SI.
      rewrite M in SI. specialize (SI (P3_eq _) (P2_eq _)). unfold alone, paired, fits_pair in SI. rewrite EA, M in SI. specialize (SI eq_refl).
      specialize (SI (conj (P33_eq _) (conj eq_refl (conj eq_refl (conj peak_3 peak_3)))) (conj (P23_eq _) (conj eq_refl (conj eq_refl (conj eq_refl peak_3)))) (conj (P22_eq _) (conj eq_refl (conj eq_refl (conj eq_refl eq_refl)))) eq_refl).
      unfold ended. destruct (search _ _ _ _ _ _ _ _ _ _ _ _ _); auto.
  - destruct (early j) eqn:EA.
    + pose proof (search_iff j A (const_starts (fst (j_tau j)) (snd (j_tau j)) (fst (j_cap j)) (snd (j_cap j)) (fst (j_off j)) (snd (j_off j))) (both_of j) 1 (c_P1 (IZR (j_pumps j))) 2 (c_P2 (IZR (j_pumps j)))
        (mkpair 1 1 (c_P1_P1 (IZR (j_pumps j))) (ln 2) (ln 2)) (mkpair 1 2 (c_P1_P2 (IZR (j_pumps j))) (ln 2) (ln (3 / 2))) (mkpair 2 2 (c_P2_P2 (IZR (j_pumps j))) (ln (3 / 2)) (ln (3 / 2)))
        (1, 1)%nat (1, 2)%nat (2, 2)%nat (starts_const j M)) as SI.
      rewrite M in SI. specialize (SI (cP1_eq _) (cP2_eq _)). unfold alone, paired, fits_pair in SI. rewrite EA, M in SI. specialize (SI eq_refl).
      specialize (SI (conj (cP11_eq _) (conj eq_refl (conj eq_refl (conj eq_refl eq_refl)))) (conj (cP12_eq _) (conj eq_refl (conj eq_refl (conj eq_refl eq_refl)))) (conj (cP22_eq _) (conj eq_refl (conj eq_refl (conj eq_refl eq_refl)))) eq_refl).
      unfold ended. destruct (search _ _ _ _ _ _ _ _ _ _ _ _ _); auto.
    + pose proof (search_iff j A (const_starts (fst (j_tau j)) (snd (j_tau j)) (fst (j_cap j)) (snd (j_cap j)) (fst (j_off j)) (snd (j_off j))) (both_of j) 3 (c_P3 (IZR (j_pumps j))) 2 (c_P2 (IZR (j_pumps j)))
        (mkpair 3 3 (c_P3_P3 (IZR (j_pumps j))) (2 * ln 2 / 3) (2 * ln 2 / 3)) (mkpair 2 3 (c_P2_P3 (IZR (j_pumps j))) (ln (3 / 2)) (2 * ln 2 / 3)) (mkpair 2 2 (c_P2_P2 (IZR (j_pumps j))) (ln (3 / 2)) (ln (3 / 2)))
        (3, 3)%nat (2, 3)%nat (2, 2)%nat (starts_const j M)) as SI.
      rewrite M in SI. specialize (SI (cP3_eq _) (cP2_eq _)). unfold alone, paired, fits_pair in SI. rewrite EA, M in SI. specialize (SI eq_refl).
      specialize (SI (conj (cP33_eq _) (conj eq_refl (conj eq_refl (conj peak_3 peak_3)))) (conj (cP23_eq _) (conj eq_refl (conj eq_refl (conj eq_refl peak_3)))) (conj (cP22_eq _) (conj eq_refl (conj eq_refl (conj eq_refl eq_refl)))) eq_refl).
      unfold ended. destruct (search _ _ _ _ _ _ _ _ _ _ _ _ _); auto.
Qed.

(** One ending only. *)
Lemma done_uniq : forall {K A} (att : list (K * option A)) d d', all_done att d -> all_done att d' -> d = d'.
Proof using.
  intros K A att d d'. unfold all_done. intros -> E. revert d' E. induction d as [|[k a] d IH]; intros [|[k' a'] d'] E; cbn in E; try discriminate; [reflexivity|].
  injection E as -> -> E. f_equal. auto.
Qed.
Lemma done_failed : forall {K A} (att : list (K * option A)) d, all_done att d -> some_failed att -> False.
Proof using. intros K A att d E (k & I). unfold all_done in E. rewrite E in I. apply in_map_iff in I. destruct I as (q & X & _). discriminate. Qed.
Lemma found_uniq : forall {K A} j (att : list (K * option A)) g q q', found j att g q -> found j att g q' -> q = q'.
Proof using.
  intros K A j att g q q' (_ & d & D & B & _) (_ & d' & D' & B' & _). rewrite (done_uniq att d d' D D') in B. exact (best_uniq _ _ _ _ B B').
Qed.
Lemma found_none : forall {K A} j (att : list (K * option A)) g q, found j att g q -> none_good j att g -> False.
Proof using.
  intros K A j att g q (V & d & D & B & T) (d' & D' & F). rewrite (done_uniq att d' d D' D) in F. specialize (F V). rewrite Forall_forall in F.
  specialize (F q (best_in _ _ _ B)). lra.
Qed.
Lemma found_failed : forall {K A} j (att : list (K * option A)) g q, found j att g q -> some_failed att -> False.
Proof using. intros K A j att g q (_ & d & D & _) F. exact (done_failed _ _ D F). Qed.
Lemma none_failed : forall {K A} j (att : list (K * option A)) g, none_good j att g -> some_failed att -> False.
Proof using. intros K A j att g (d & D & _) F. exact (done_failed _ _ D F). Qed.
Lemma brightest_uniq : forall a t x y, brightest a t x -> brightest a t y -> x = y.
Proof using. intros a t x y (u & B) (v & B'). pose proof (best_uniq _ _ _ _ B B') as E. inversion E. reflexivity. Qed.
Lemma answer2_uniq : forall b q o o', answer2 b q o -> answer2 b q o' -> o = o'.
Proof using.
  intros b [[k1 k2] [[[[[z c] u] c2] u2] [[[[v vc] vu] vc2] vu2]]] o o'. unfold answer2. destruct b as [[amp t]|]; [|congruence].
  intros (x & B & H) (x' & B' & H'). rewrite (brightest_uniq _ _ _ _ B B') in *. destruct H as [(? & ->)|(? & ->)]; destruct H' as [(? & ->)|(? & ->)]; try reflexivity; exfalso; lra.
Qed.
Lemma answer2_bad : forall b q o, answer2 b q o -> bad_both b -> False.
Proof using.
  intros b [[k1 k2] [[[[[z c] u] c2] u2] [[[[v vc] vu] vc2] vu2]]] o H (amp & t & -> & E). destruct H as (x & (a & l1 & l2 & E' & _) & _). rewrite E in E'. destruct l1; discriminate.
Qed.
Lemma ends2_uniq : forall j b o o', ends2 c5 j b o -> ends2 c5 j b o' -> o = o'.
Proof using.
  intros j b o o' H H'. destruct H as [F|q o F A|N X|N V X]; destruct H' as [F'|q' o' F' A'|N' X'|N' V' X']; try reflexivity;
    try (exfalso; eauto using found_failed, found_none, none_failed; fail); try (exfalso; tauto).
  rewrite (found_uniq j _ _ _ _ F F') in A. exact (answer2_uniq _ _ _ _ A A').
Qed.
Lemma ends_uniq : forall j b o o', ends c3 c5 j b o -> ends c3 c5 j b o' -> o = o'.
Proof using.
  intros j b o o' H H'. destruct H as [F|q F|o N E|b o E]; inversion H' as [F'|q' F'|o'' N' E'|b' o'' E']; subst; try reflexivity;
    try (exfalso; eauto using found_failed, found_none, none_failed; fail).
  - rewrite (found_uniq j _ _ _ _ F F'). reflexivity.
  - exact (ends2_uniq _ _ _ _ E E').
  - exact (ends2_uniq _ _ _ _ E E').
Qed.
Lemma ends2_bad : forall j b o, ends2 c5 j b o -> bad_both b -> (exists q, found j (attempts2 c5 j) (good2 j) q) -> False.
Proof using.
  intros j b o H B (q & F). destruct H as [F'|q' o F' A'|N' X'|N' V' X']; eauto using found_failed, found_none, answer2_bad.
Qed.
Lemma ends_bad : forall j b o, ends c3 c5 j b o -> bad_both b -> (exists q, found j (attempts2 c5 j) (good2 j) q) -> False.
Proof using.
  intros j b o H B F. destruct H as [F'|q' F'|o N' E'|b o E']; try (destruct B as (? & ? & ? & _); discriminate). eauto using ends2_bad.
Qed.
Theorem run_ok : forall j o, run c3 c5 j = Ok o <-> accepted j /\ ends c3 c5 j (both_of j) o.
Proof using.
  intros j o. pose proof (run_ended j) as H. split.
  - intros E. rewrite E in H. exact H.
  - intros (A & E). destruct (run c3 c5 j) as [o'|e]; cbn [ended] in H.
    + f_equal. destruct H as (_ & E'). exact (ends_uniq _ _ _ _ E' E).
    + exfalso. destruct H as [R|(_ & _ & B & F)]; [exact (accepted_not_refused _ _ A R)|exact (ends_bad _ _ _ E B F)].
Qed.
Lemma refused_uniq : forall l e e', refused_in l e -> refused_in l e' -> e = e'.
Proof using.
  induction l as [|[P x] l IH]; intros e e' H H'; [destruct (first_nil _ H)|]. apply first_ok in H. apply first_ok in H'.
  destruct H as [(? & ->)|(? & ?)]; destruct H' as [(? & ->)|(? & ?)]; auto; contradiction.
Qed.
Theorem run_raises : forall j e, run c3 c5 j = Raise e <->
  refused j e \/ accepted j /\ e = ValueError /\ (exists t, both_of j = Some ([], t)) /\ exists q, found j (attempts2 c5 j) (good2 j) q.
Proof using.
  intros j e. assert (BB : accepted j -> bad_both (both_of j) <-> exists t, both_of j = Some ([], t)).
  { intros A. unfold bad_both. split; [|intros (t & ->); exists [], t; auto].
    intros (amp & t & E & C). rewrite E. unfold both_of in E. destruct (j_both j) as [b|] eqn:Eb; [|discriminate]. destruct (ab_amp b) as [x|] eqn:Ex; [|discriminate]. destruct (ab_t b) as [y|] eqn:Ey; [|discriminate].
    injection E as -> ->. destruct amp as [|a amp]; [eauto|]. destruct t as [|z t]; [|discriminate].
    exfalso. unfold accepted in A. rewrite Forall_forall in A. apply (A (uneven (j_both j), ValueError)); [do 14 right; left; reflexivity|].
    cbn [fst]. rewrite Eb. exists (a :: amp), []. rewrite Ex, Ey. repeat split. discriminate. }
  pose proof (run_ended j) as H. split.
  - intros E. rewrite E in H. cbn [ended] in H. destruct H as [R|(A & -> & B & F)]; [left; exact R|]. right. rewrite <- (BB A). auto.
  - intros E. destruct (run c3 c5 j) as [o'|e'] eqn:RR; cbn [ended] in H.
    + exfalso. destruct H as (A & N). destruct E as [R|(_ & _ & B & F)]; [exact (accepted_not_refused _ _ A R)|]. apply (BB A) in B. exact (ends_bad _ _ _ N B F).
    + f_equal. destruct H as [R|(A & -> & B & F)]; destruct E as [R'|(A' & -> & B' & F')]; try reflexivity.
      * exact (refused_uniq _ _ _ R R').
      * exfalso. exact (accepted_not_refused _ _ A' R).
      * exfalso. exact (accepted_not_refused _ _ A R').
Qed.
End TOP.
