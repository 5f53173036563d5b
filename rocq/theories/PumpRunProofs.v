From Coq Require Import List Arith Bool Reals ZArith Lra Lia.
From Verif Require Import Base PumpModel PumpSpec PumpProofs.
Import ListNotations.
Local Open Scope R_scope.

Lemma first_ok : forall P e l x, refused_in ((P, e) :: l) x <-> (P /\ x = e) \/ (~ P /\ refused_in l x).
Proof.
  intros P e l x. unfold refused_in. split.
  - intros (l1 & Q & l2 & E & HQ & F). destruct l1 as [|q l1]; cbn [app] in E.
    + left. injection E. intros _ -> ->. auto.
    + right. injection E as E0 E1. subst q. inversion F; subst. split; [assumption|]. exists l1, Q, l2. auto.
  - intros [(HP & ->)|(NP & l1 & Q & l2 & -> & HQ & F)].
    + exists [], P, l. auto.
    + exists ((P, e) :: l1), Q, l2. split; [reflexivity|]. split; [assumption|]. constructor; assumption.
Qed.
Lemma first_nil : forall x, ~ refused_in [] x.
Proof. intros x (l1 & Q & l2 & E & _). destruct l1; discriminate. Qed.

Lemma few_iff : forall t : list R, (List.length (nodup Req_EM_T t) < 6)%nat <-> exists l, (List.length l <= 5)%nat /\ incl t l.
Proof.
  intros t. split.
  - intros H. exists (nodup Req_EM_T t). split; [lia|]. intros x Hx. apply nodup_In. assumption.
  - intros (l & L & I). enough (List.length (nodup Req_EM_T t) <= List.length l)%nat by lia.
    apply NoDup_incl_length; [apply NoDup_nodup|]. intros x Hx. apply I. apply nodup_In in Hx. assumption.
Qed.

Definition checks_of (j : job) : result (option (list R * list R)) :=
  checks (j_scheme j) (j_amps j) (j_times j) (j_pumps j) (j_thresh j) (fst (j_tau j)) (snd (j_tau j)) (fst (j_cap j)) (snd (j_cap j)) (fst (j_off j)) (snd (j_off j)) (j_both j).
Lemma checks_iff : forall j,
  match checks_of j with Ok b => accepted j /\ b = both_of j | Raise e => refused j e end.
Proof.
  intros [m sc a t n th [t1 t2] [p1 p2] [o1 o2] b]. unfold checks_of, checks, accepted, refused, refusals, both_of. cbn [j_scheme j_amps j_times j_pumps j_thresh j_tau j_cap j_off j_both fst snd].
  assert (HS : (negb (Z.eqb sc 1) && negb (Z.eqb sc 2) && negb (Z.eqb sc 3) && negb (Z.eqb sc 4) = true) <-> ~ (1 <= sc <= 4)%Z).
  { rewrite !andb_true_iff, !negb_true_iff, !Z.eqb_neq. lia. }
  destruct (negb (Z.eqb sc 1) && negb (Z.eqb sc 2) && negb (Z.eqb sc 3) && negb (Z.eqb sc 4)).
  { rewrite first_ok. left. split; [apply HS; reflexivity|reflexivity]. }
  assert (NS : ~ ~ (1 <= sc <= 4)%Z) by (intros X; apply HS in X; discriminate). clear HS.
  destruct (Nat.ltb_spec (List.length (nodup Req_EM_T t)) 6) as [X|X].
  { rewrite first_ok. right. split; [assumption|]. rewrite first_ok. left. split; [apply few_iff; assumption|reflexivity]. }
  assert (NT : ~ exists l, (List.length l <= 5)%nat /\ incl t l) by (intros Y; apply few_iff in Y; lia). clear X.
  destruct (Nat.eqb_spec (List.length a) (List.length t)) as [X|X]; cbn [negb].
  2: { do 2 (rewrite first_ok; right; split; [assumption|]). rewrite first_ok. left. auto. }
  assert (NL : ~ List.length a <> List.length t) by lia. clear X.
  destruct (Z.leb_spec n 0) as [X|X].
  { do 3 (rewrite first_ok; right; split; [assumption|]). rewrite first_ok. left. split; [lia|reflexivity]. }
  assert (NN : ~ ~ (0 < n)%Z) by lia. clear X.
  destruct (Rlt_dec th 0); [do 4 (rewrite first_ok; right; split; [assumption|]); rewrite first_ok; left; auto|].
  destruct (Rlt_dec 1 th); [do 5 (rewrite first_ok; right; split; [assumption|]); rewrite first_ok; left; auto|].
  destruct (Rlt_dec t1 0); [do 6 (rewrite first_ok; right; split; [assumption|]); rewrite first_ok; left; auto|].
  destruct (Rlt_dec t2 0); [do 7 (rewrite first_ok; right; split; [assumption|]); rewrite first_ok; left; auto|].
  destruct (Rle_dec t2 t1); [do 8 (rewrite first_ok; right; split; [assumption|]); rewrite first_ok; left; auto|].
  destruct (Rlt_dec p1 0); [do 9 (rewrite first_ok; right; split; [assumption|]); rewrite first_ok; left; auto|].
  destruct (Rlt_dec p2 0); [do 10 (rewrite first_ok; right; split; [assumption|]); rewrite first_ok; left; auto|].
  destruct (Rle_dec p2 p1); [do 11 (rewrite first_ok; right; split; [assumption|]); rewrite first_ok; left; auto|].
  destruct (Rle_dec o2 o1); [do 12 (rewrite first_ok; right; split; [assumption|]); rewrite first_ok; left; auto|].
  destruct b as [b|].
  2: { split; [|reflexivity]. repeat (apply Forall_cons; [cbn [fst lacks uneven]; tauto|]). constructor. }
  destruct b as [[x|] y0]; cbn [ab_amp ab_t].
  2: { do 13 (rewrite first_ok; right; split; [assumption|]). rewrite first_ok. left. split; [left; reflexivity|reflexivity]. }
  destruct y0 as [y|].
  2: { do 13 (rewrite first_ok; right; split; [assumption|]). rewrite first_ok. left. split; [right; reflexivity|reflexivity]. }
  assert (NK : ~ lacks (Some (mkabove (Some x) (Some y)))) by (cbn; intros [?|?]; discriminate).
  destruct (Nat.eqb_spec (List.length x) (List.length y)) as [X|X]; cbn [negb].
  - split; [|reflexivity]. repeat (apply Forall_cons; [cbn [fst]; try assumption|]); [|constructor].
    intros (x' & y' & E1 & E2 & D). inversion E1. inversion E2. subst. contradiction.
  - do 14 (rewrite first_ok; right; split; [assumption|]). rewrite first_ok. left. split; [exists x, y; auto|reflexivity].
Qed.
Lemma accepted_not_refused : forall j e, accepted j -> refused j e -> False.
Proof.
  intros j e A (l1 & P & l2 & E & HP & _). unfold accepted in A. rewrite E in A. rewrite Forall_forall in A. apply (A (P, e)); [apply in_elt|assumption].
Qed.
Lemma accepted_facts : forall j, accepted j -> (1 <= j_scheme j <= 4)%Z /\ (6 <= List.length (j_times j))%nat /\ List.length (j_amps j) = List.length (j_times j) /\
  (0 < j_pumps j)%Z /\ 0 <= j_thresh j <= 1 /\ 0 <= fst (j_tau j) < snd (j_tau j) /\ 0 <= fst (j_cap j) < snd (j_cap j) /\ fst (j_off j) < snd (j_off j).
Proof.
  intros j A. unfold accepted, refusals in A.
  repeat match type of A with Forall _ (_ :: _) => apply Forall_cons_iff in A; let B := fresh "B" in destruct A as (B & A); cbn [fst] in B end.
  assert (N : (6 <= List.length (j_times j))%nat).
  { rewrite <- few_iff in B0. enough (List.length (nodup Req_EM_T (j_times j)) <= List.length (j_times j))%nat by lia.
    apply NoDup_incl_length; [apply NoDup_nodup|]. intros x Hx. apply nodup_In in Hx. assumption. }
  repeat split; try lia; try lra.
Qed.

Lemma classic_varied : forall l, varied l \/ ~ varied l.
Proof.
  intros [|x l]; [right; intros (a & b & [] & _)|].
  destruct (Forall_Exists_dec (fun y => y = x) (fun y => Req_EM_T y x) l) as [F|E].
  - right. rewrite Forall_forall in F. intros (a & b & Ha & Hb & D). apply D. transitivity x; [|symmetry].
    + destruct Ha; [auto|apply F; assumption].
    + destruct Hb; [auto|apply F; assumption].
  - left. apply Exists_exists in E. destruct E as (y & Hy & D). exists y, x. cbn. auto.
Qed.
Section RUN.
Variable c3 : curve3_t.
Variable c5 : curve5_t.

Definition fits_pair (j : job) (m : pair_model) (kk : nat * nat) : Prop :=
  two (m_f m) = curve2 (j_mode j) (IZR (j_pumps j)) (fst kk) (snd kk) /\ m_k1 m = fst kk /\ m_k2 m = snd kk /\ m_w1 m = peak (fst kk) /\ m_w2 m = peak (snd kk).

Lemma double_iff : forall j b m kk c, fits_pair j m kk ->
  match double b m c with Ok o => answer2 b (kk, c) o | Raise e => e = ValueError /\ exists amp t, b = Some (amp, t) /\ combine amp t = [] end.
Proof using.
  intros j b m [k1 k2] [[[[[o cc] u] cc2] u2] [[[[v vc] vu] vc2] vu2]] (_ & E1 & E2 & W1 & W2). cbn [fst snd] in *.
  unfold double, answer2. rewrite E1, E2, W1, W2. destruct b as [[amp t]|].
  2: { reflexivity. }
  destruct (peak_time amp t) as [x|e] eqn:Ep; cbn [bind].
  - apply peak_time_iff in Ep. exists x. split; [assumption|].
    destruct (Rle_dec (Rabs (x / peak k1 - u)) (Rabs (x / peak k2 - u2))) as [L|L]; [left|right]; (split; [lra|reflexivity]).
  - apply peak_time_raises in Ep. destruct Ep as (-> & Ec). split; [reflexivity|]. exists amp, t. auto.
Qed.

Variable j : job.
Hypothesis ACC : accepted j.

Lemma n_facts : (6 <= List.length (j_times j))%nat /\ List.length (j_amps j) = List.length (j_times j) /\ j_amps j <> [].
Proof using ACC. destruct (accepted_facts j ACC) as (_ & N & L & _). repeat split; try assumption. intros E. rewrite E in L. cbn in L. lia. Qed.
Lemma good_eq : forall p f, (p < 6)%nat -> spread (j_amps j) <> 0 ->
  1 - (residue f (j_times j) (j_amps j) / total (j_amps j)) * (INR (List.length (j_times j)) - 1) / (INR (List.length (j_times j)) - INR p) = goodness p f (j_times j) (j_amps j).
Proof using ACC.
  intros p f Hp Hs. rewrite residue_eq, total_eq. unfold goodness. cbv zeta. destruct n_facts as (N & _).
  assert (INR (List.length (j_times j)) - INR p <> 0). { apply lt_INR in Hp. apply le_INR in N. replace (INR 6) with 6 in * by (cbn; lra). lra. }
  assert (INR (List.length (j_times j)) - 1 <> 0). { apply le_INR in N. replace (INR 6) with 6 in * by (cbn; lra). lra. }
  field. auto.
Qed.
Lemma varied_iff : varied (j_amps j) <-> total (j_amps j) <> 0.
Proof using ACC.
  destruct n_facts as (_ & _ & Ne). rewrite total_eq. pose proof (spread_zero _ Ne) as Z. split.
  - intros V E. apply Z in E. contradiction.
  - intros D. destruct (classic_varied (j_amps j)) as [V|V]; [assumption|]. exfalso. apply D. apply Z. assumption.
Qed.

(** The two attempts at a pair of kinds, and the block that chooses between them. *)
Definition tries2 (kk : nat * nat) : list ((nat * nat) * option (five * (err * err * err * err * err))) :=
  map (fun up : bool => (kk, c5 (curve2 (j_mode j) (IZR (j_pumps j)) (fst kk) (snd kk)) (j_times j) (j_amps j) (lower2 j) (upper2 j) (start2 j up))) [true; false].
Definition block2 (m : pair_model) (st : starts) : option (rsq * option (five * (err * err * err * err * err))) :=
  choose (List.length (j_times j)) 5 (total (j_amps j)) (fun p => residue (fun t => two (m_f m) t p) (j_times j) (j_amps j))
    (c5 (two (m_f m)) (j_times j) (j_amps j) (s_lo2 st) (s_hi2 st) (s_p2l st)) (c5 (two (m_f m)) (j_times j) (j_amps j) (s_lo2 st) (s_hi2 st) (s_p2u st)).
Definition right_starts (st : starts) : Prop :=
  s_lo1 st = lower1 j /\ s_hi1 st = upper1 j /\ s_p1l st = start1 j false /\ s_p1u st = start1 j true /\
  s_lo2 st = lower2 j /\ s_hi2 st = upper2 j /\ s_p2l st = start2 j false /\ s_p2u st = start2 j true.

Definition exact2 (kk : nat * nat) (p : five) : Prop := scatter (fun t => curve2 (j_mode j) (IZR (j_pumps j)) (fst kk) (snd kk) t p) (j_times j) (j_amps j) = 0.
Lemma block2_cases : forall m kk st, fits_pair j m kk -> right_starts st ->
  (block2 m st = None /\ some_failed (tries2 kk)) \/
  (exists l u, tries2 kk = [(kk, Some u); (kk, Some l)] /\
     (varied (j_amps j) -> exists c, block2 m st = Some (Num (good2 j (kk, c)), Some c) /\ first_best (good2 j) [(kk, u); (kk, l)] (kk, c)) /\
     (~ varied (j_amps j) -> exists r c, block2 m st = Some (r, c) /\ (exact2 kk (fst l) /\ r = NotNum \/ ~ exact2 kk (fst l) /\ r = NegInf))).
Proof using ACC.
  intros m kk st (Ef & _) (_ & _ & _ & _ & L & U & SL & SU). unfold block2, tries2. cbn [map]. rewrite L, U, SL, SU, Ef.
  destruct (c5 _ _ _ _ _ (start2 j false)) as [l|] eqn:El; [|left; split; [reflexivity|exists kk; cbn; auto]].
  destruct (c5 _ _ _ _ _ (start2 j true)) as [u|] eqn:Eu; [|left; split; [reflexivity|exists kk; cbn; auto]].
  right. exists l, u. split; [reflexivity|]. split.
  - intros V. apply varied_iff in V. apply (choose_varied _ _ _ _ kk (good2 j)); [assumption|].
    intros c. unfold gv, good2. cbn [fst snd]. apply good_eq; [lia|]. rewrite <- total_eq. assumption.
  - intros V. assert (T0 : total (j_amps j) = 0) by (destruct (Req_EM_T (total (j_amps j)) 0); [assumption|exfalso; apply V, varied_iff; assumption]).
    destruct (choose_equal (List.length (j_times j)) 5 (total (j_amps j)) (fun p => residue (fun t => curve2 (j_mode j) (IZR (j_pumps j)) (fst kk) (snd kk) t p) (j_times j) (j_amps j)) T0 l u) as (r & c & E & D).
    exists r, c. split; [exact E|]. unfold exact2. rewrite <- residue_eq. exact D.
Qed.

Lemma all_done_app : forall {K A} (a1 a2 : list (K * option A)) d1 d2, all_done a1 d1 -> all_done a2 d2 -> all_done (a1 ++ a2) (d1 ++ d2).
Proof using. intros K A a1 a2 d1 d2. unfold all_done. intros -> ->. rewrite map_app. reflexivity. Qed.
Lemma failed_app : forall {K A} (a1 a2 : list (K * option A)), some_failed (a1 ++ a2) <-> some_failed a1 \/ some_failed a2.
Proof using.
  intros K A a1 a2. unfold some_failed. split.
  - intros (k & I). apply in_app_iff in I. destruct I; eauto.
  - intros [(k & I)|(k & I)]; exists k; apply in_app_iff; auto.
Qed.

Lemma pairs_iff : forall st b m1 m2 m3 kk1 kk2 kk3, right_starts st ->
  fits_pair j m1 kk1 -> fits_pair j m2 kk2 -> fits_pair j m3 kk3 -> paired j = [kk1; kk2; kk3] ->
  match pairs c5 st (j_times j) (j_amps j) (j_thresh j) b m1 m2 m3 with
  | Ok o => ends2 c5 j b o
  | Raise e => e = ValueError /\ (exists amp t, b = Some (amp, t) /\ combine amp t = []) /\ exists q, found j (attempts2 c5 j) (good2 j) q
  end.
Proof using ACC.
  intros st b m1 m2 m3 kk1 kk2 kk3 RS F1 F2 F3 KK.
  assert (AT : attempts2 c5 j = tries2 kk1 ++ tries2 kk2 ++ tries2 kk3).
  { unfold attempts2. rewrite KK. cbn [flat_map]. rewrite app_nil_r. reflexivity. }
  unfold pairs. cbv zeta. change (choose _ _ _ _ (c5 (two (m_f m1)) _ _ _ _ _) _) with (block2 m1 st).
  change (choose _ _ _ _ (c5 (two (m_f m2)) _ _ _ _ _) _) with (block2 m2 st).
  change (choose _ _ _ _ (c5 (two (m_f m3)) _ _ _ _ _) _) with (block2 m3 st).
  destruct (block2_cases m1 kk1 st F1 RS) as [(B1 & X1)|(l1 & u1 & D1 & V1 & W1)].
  { rewrite B1. apply E_failed2. rewrite AT. apply failed_app. auto. }
  destruct (block2_cases m2 kk2 st F2 RS) as [(B2 & X2)|(l2 & u2 & D2 & V2 & W2)].
  { assert (exists q, block2 m1 st = Some q) as ((r1 & c1) & B1).
    { destruct (classic_varied (j_amps j)) as [V|V]; [destruct (V1 V) as (c & E & _)|destruct (W1 V) as (r & c & E & _)]; eauto. }
    rewrite B1, B2. apply E_failed2. rewrite AT. rewrite !failed_app. auto. }
  destruct (block2_cases m3 kk3 st F3 RS) as [(B3 & X3)|(l3 & u3 & D3 & V3 & W3)].
  { assert (exists q, block2 m1 st = Some q) as ((r1 & c1) & B1).
    { destruct (classic_varied (j_amps j)) as [V|V]; [destruct (V1 V) as (c & E & _)|destruct (W1 V) as (r & c & E & _)]; eauto. }
    assert (exists q, block2 m2 st = Some q) as ((r2 & c2) & B2).
    { destruct (classic_varied (j_amps j)) as [V|V]; [destruct (V2 V) as (c & E & _)|destruct (W2 V) as (r & c & E & _)]; eauto. }
    rewrite B1, B2, B3. apply E_failed2. rewrite AT. rewrite !failed_app. auto. }
  assert (AD : all_done (attempts2 c5 j) ([(kk1, u1); (kk1, l1)] ++ [(kk2, u2); (kk2, l2)] ++ [(kk3, u3); (kk3, l3)])).
  { rewrite AT. apply all_done_app; [exact D1|]. apply all_done_app; [exact D2|exact D3]. }
  destruct (classic_varied (j_amps j)) as [V|V].
  - destruct (V1 V) as (c1 & B1 & S1). destruct (V2 V) as (c2 & B2 & S2). destruct (V3 V) as (c3' & B3 & S3). rewrite B1, B2, B3. clear V1 V2 V3 W1 W2 W3 B1 B2 B3.
    set (g1 := good2 j (kk1, c1)) in *. set (g2 := good2 j (kk2, c2)) in *. set (g3 := good2 j (kk3, c3')) in *.
    rewrite !pymax_num. cbn [below].
    pose proof (best_join _ _ _ _ _ S1 (best_join _ _ _ _ _ S2 S3)) as BB. fold g2 g3 in BB.
    assert (DONE : forall m kk c, fits_pair j m kk -> first_best (good2 j) ([(kk1, u1); (kk1, l1)] ++ [(kk2, u2); (kk2, l2)] ++ [(kk3, u3); (kk3, l3)]) (kk, c) -> j_thresh j <= good2 j (kk, c) ->
      match double b m c with Ok o => ends2 c5 j b o | Raise e => e = ValueError /\ (exists amp t, b = Some (amp, t) /\ combine amp t = []) /\ exists q, found j (attempts2 c5 j) (good2 j) q end).
    { intros m kk c F BST TH. assert (FD : found j (attempts2 c5 j) (good2 j) (kk, c)) by (split; [assumption|]; eexists; split; [exact AD|auto]).
      pose proof (double_iff j b m kk c F) as DD. destruct (double b m c) as [o|e].
      - eapply E_pair; eassumption.
      - destruct DD as (-> & Q). split; [reflexivity|]. split; [assumption|]. eauto. }
    destruct (Rlt_dec (Rmax (Rmax g1 g2) g3) (j_thresh j)) as [L|L].
    { apply E_none; [|intros (X & _); contradiction]. eexists. split; [exact AD|]. intros _. pose proof (best_max _ _ _ BB) as MX.
      pose proof (Rmax_l (Rmax g1 g2) g3). pose proof (Rmax_r (Rmax g1 g2) g3). pose proof (Rmax_l g1 g2). pose proof (Rmax_r g1 g2).
      eapply Forall_impl; [|exact MX]. cbn beta. intros q Hq. eapply Rle_lt_trans; [exact Hq|].
      repeat match goal with |- context [Rle_dec ?a ?b] => destruct (Rle_dec a b) end; fold g1 g2 g3; lra. }
    unfold req.
    destruct (Req_EM_T (Rmax (Rmax g1 g2) g3) g1) as [E1|E1]; [|destruct (Req_EM_T (Rmax (Rmax g1 g2) g3) g2) as [E2|E2]; [|destruct (Req_EM_T (Rmax (Rmax g1 g2) g3) g3) as [E3|E3]]].
    + cbn [local bind]. apply (DONE m1 kk1); [assumption| |fold g1; lra]. replace (kk1, c1) with (if Rle_dec (good2 j (if Rle_dec g3 g2 then (kk2, c2) else (kk3, c3'))) (good2 j (kk1, c1)) then (kk1, c1) else if Rle_dec g3 g2 then (kk2, c2) else (kk3, c3')); [exact BB|].
      fold g1. pose proof (Rmax_l (Rmax g1 g2) g3). pose proof (Rmax_r (Rmax g1 g2) g3). pose proof (Rmax_l g1 g2). pose proof (Rmax_r g1 g2).
      destruct (Rle_dec g3 g2) as [Q|Q]; fold g2 g3; match goal with |- context [Rle_dec ?a ?b] => destruct (Rle_dec a b) end; try reflexivity; lra.
    + cbn [local bind]. apply (DONE m2 kk2); [assumption| |fold g2; lra]. replace (kk2, c2) with (if Rle_dec (good2 j (if Rle_dec g3 g2 then (kk2, c2) else (kk3, c3'))) (good2 j (kk1, c1)) then (kk1, c1) else if Rle_dec g3 g2 then (kk2, c2) else (kk3, c3')); [exact BB|].
      fold g1. pose proof (Rmax_l (Rmax g1 g2) g3). pose proof (Rmax_r (Rmax g1 g2) g3). pose proof (Rmax_l g1 g2). pose proof (Rmax_r g1 g2).
      destruct (Rle_dec g3 g2) as [Q|Q]; fold g2 g3; match goal with |- context [Rle_dec ?a ?b] => destruct (Rle_dec a b) end; try reflexivity; exfalso; lra.
    + cbn [local bind]. apply (DONE m3 kk3); [assumption| |fold g3; lra]. replace (kk3, c3') with (if Rle_dec (good2 j (if Rle_dec g3 g2 then (kk2, c2) else (kk3, c3'))) (good2 j (kk1, c1)) then (kk1, c1) else if Rle_dec g3 g2 then (kk2, c2) else (kk3, c3')); [exact BB|].
      fold g1. pose proof (Rmax_l (Rmax g1 g2) g3). pose proof (Rmax_r (Rmax g1 g2) g3). pose proof (Rmax_l g1 g2). pose proof (Rmax_r g1 g2).
      destruct (Rle_dec g3 g2) as [Q|Q]; fold g2 g3; match goal with |- context [Rle_dec ?a ?b] => destruct (Rle_dec a b) end; try reflexivity; exfalso; lra.
    + exfalso. unfold Rmax in E1, E2, E3. destruct (Rle_dec g1 g2); match goal with H : context [Rle_dec ?a g3] |- _ => destruct (Rle_dec a g3) end; congruence.
  - destruct (W1 V) as (r1 & c1 & B1 & S1). destruct (W2 V) as (r2 & c2 & B2 & S2). destruct (W3 V) as (r3 & c3' & B3 & S3). rewrite B1, B2, B3.
    assert (NG : none_good j (attempts2 c5 j) (good2 j)) by (eexists; split; [exact AD|intros; contradiction]).
    assert (EX : exact_first c5 j <-> exact2 kk1 (fst l1)).
    { unfold exact_first. rewrite KK. unfold tries2 in D1. cbn [map] in D1. injection D1 as Du Dl. rewrite Dl. unfold exact2, scatter.
      rewrite (sum_sq_zero (fun q : R * R => snd q - curve2 (j_mode j) (IZR (j_pumps j)) (fst kk1) (snd kk1) (fst q) (fst l1))). split.
      - intros (p & v & E & F). injection E as E. subst l1. cbn [fst]. eapply Forall_impl; [|exact F]. cbn beta. intros q Hq. lra.
      - intros F. exists (fst l1), (snd l1). split; [destruct l1; reflexivity|]. eapply Forall_impl; [|exact F]. cbn beta. intros q Hq. lra. }
    destruct S1 as [(X1 & ->)|(X1 & ->)].
    + destruct S2 as [(_ & ->)|(_ & ->)]; destruct S3 as [(_ & ->)|(_ & ->)]; cbn; (apply E_silent; [assumption|assumption|apply EX; assumption]).
    + destruct S2 as [(_ & ->)|(_ & ->)]; destruct S3 as [(_ & ->)|(_ & ->)]; cbn; (apply E_none; [assumption|intros (_ & Y); apply X1, EX; assumption]).
Qed.
End RUN.
