From Coq Require Import List Arith Bool QArith ZArith String Lia.
From Verif Require Import Base BaseProofs DqModel DqProofs SelectModel SelectSpec.
Import ListNotations.
Local Open Scope nat_scope.

Lemma ldiff_pos : forall a d, (0 <= d)%Z -> (Z.ltb 0 (Z.land d (Z.lnot a)) = true <-> has_disallowed a d).
Proof.
  intros a d Hd. rewrite Z.ltb_lt.
  assert (P : (0 <= Z.land d (Z.lnot a))%Z) by (apply Z.land_nonneg; left; exact Hd).
  split.
  - intros H.
    destruct (Z.eq_dec (Z.land d (Z.lnot a)) 0) as [E|E]; [lia|].
    exists (Z.log2 (Z.land d (Z.lnot a))).
    assert (B := Z.bit_log2 (Z.land d (Z.lnot a)) H).
    assert (L := Z.log2_nonneg (Z.land d (Z.lnot a))).
    rewrite Z.land_spec, Z.lnot_spec in B by exact L.
    apply andb_prop in B. destruct B as [B1 B2]. apply negb_true_iff in B2. auto.
  - intros (b & Hb & B1 & B2).
    destruct (Z.eq_dec (Z.land d (Z.lnot a)) 0) as [E|E]; [|lia].
    assert (F : Z.testbit (Z.land d (Z.lnot a)) b = true)
      by (rewrite Z.land_spec, Z.lnot_spec, B1, B2 by exact Hb; reflexivity).
    rewrite E, Z.bits_0 in F. discriminate.
Qed.

Lemma count_of_filter : forall A (P : A -> Prop) (p : A -> bool) l,
  (forall x, In x l -> (p x = true <-> P x)) -> count_of P l (List.length (filter p l)).
Proof.
  induction l as [|x t IH]; intros H; [constructor|].
  cbn [filter]. destruct (p x) eqn:E.
  - cbn [List.length]. apply count_yes; [apply (H x); [left; reflexivity|exact E]|].
    apply IH. intros y Hy. apply H. right. exact Hy.
  - apply count_no; [intros F; apply (H x) in F; [congruence|left; reflexivity]|].
    apply IH. intros y Hy. apply H. right. exact Hy.
Qed.

Lemma count_of_unique : forall A (P : A -> Prop) l n m, count_of P l n -> count_of P l m -> n = m.
Proof.
  intros A P l n m H; revert m; induction H; intros m Hm; inversion Hm; subst; auto; contradiction.
Qed.

Lemma bad_count_spec : forall a dq, Forall (fun d => (0 <= d)%Z) dq -> count_of (has_disallowed a) dq (bad_count a dq).
Proof.
  intros a dq H. unfold bad_count. apply count_of_filter.
  intros x Hx. apply ldiff_pos. exact (proj1 (Forall_forall _ _) H x Hx).
Qed.

Lemma frac_gt : forall n m q, m <> 0 ->
  (negb (Qle_bool (inQ n / inQ m) q) = true <-> (q * inject_Z (Z.of_nat m) < inject_Z (Z.of_nat n))%Q).
Proof.
  intros n m q Hm. unfold inQ.
  assert (P : (0 < inject_Z (Z.of_nat m))%Q) by (change 0%Q with (inject_Z 0); rewrite <- Zlt_Qlt; lia).
  rewrite negb_true_iff. split.
  - intros H. destruct (Qlt_le_dec (q * inject_Z (Z.of_nat m)) (inject_Z (Z.of_nat n))) as [L|L]; [exact L|].
    exfalso. rewrite (proj2 (Qle_bool_iff _ _)) in H; [discriminate|].
    apply Qle_shift_div_r; assumption.
  - intros H. destruct (Qle_bool (inject_Z (Z.of_nat n) / inject_Z (Z.of_nat m)) q) eqn:E; [|reflexivity].
    exfalso. apply Qle_bool_iff in E.
    assert (F : (inject_Z (Z.of_nat n) <= q * inject_Z (Z.of_nat m))%Q).
    { setoid_replace (inject_Z (Z.of_nat n)) with ((inject_Z (Z.of_nat n) / inject_Z (Z.of_nat m)) * inject_Z (Z.of_nat m))%Q
        by (field; intros Z0; rewrite Z0 in P; exact (Qlt_irrefl 0 P)).
      apply Qmult_le_compat_r; [exact E|apply Qlt_le_weak; exact P]. }
    exact (Qlt_not_le _ _ H F).
Qed.

Lemma nle_lt : forall a b, negb (Qle_bool a b) = true <-> (b < a)%Q.
Proof.
  intros a b. rewrite negb_true_iff. split; intros H.
  - destruct (Qlt_le_dec b a) as [L|L]; [exact L|]. rewrite (proj2 (Qle_bool_iff _ _) L) in H. discriminate.
  - destruct (Qle_bool a b) eqn:E; [|reflexivity]. apply Qle_bool_iff in E. exfalso. exact (Qlt_not_le _ _ H E).
Qed.

Section P.
Context {X : Type}.
Implicit Types f : sframe X.

Lemma crit_pix_spec : forall s f, dq_nonneg f ->
  (exists b : bool, crit_pix s f = Ok (if b then [BadPix] else []) /\ (b = true <-> violates s f BadPix)
     /\ ((s_frac s < 1)%Q -> f_dq f <> []))
  \/ (exists e, crit_pix s f = Raise e /\ e <> ValueError /\ (s_frac s < 1)%Q /\ f_dq f = []).
Proof.
  intros s f H. unfold crit_pix. destruct (negb (Qle_bool 1 (s_frac s))) eqn:E.
  - apply nle_lt in E. destruct (f_dq f) as [|d0 dt] eqn:D.
    + right. exists PyException. split; [reflexivity|]. split; [discriminate|]. auto.
    + left. rewrite <- D.
      exists (negb (Qle_bool (inQ (bad_count (s_allowed s) (f_dq f)) / inQ (List.length (f_dq f))) (s_frac s))).
      assert (L : List.length (f_dq f) <> 0) by (rewrite D; discriminate).
      split; [destruct (negb _); reflexivity|]. split; [|intros _; rewrite D; discriminate].
      rewrite frac_gt by exact L. cbn [violates]. split.
      * intros F. split; [exact E|]. exists (bad_count (s_allowed s) (f_dq f)). split; [|exact F].
        apply bad_count_spec. exact H.
      * intros [_ (n & C & F)]. rewrite (count_of_unique _ _ _ _ _ (bad_count_spec (s_allowed s) (f_dq f) H) C). exact F.
  - left. exists false. split; [reflexivity|]. split.
    + split; [discriminate|]. intros [F _]. apply nle_lt in F. congruence.
    + intros F. apply nle_lt in F. congruence.
Qed.

Lemma crit_over_spec : forall s f,
  (exists b : bool, crit_over s f = Ok (if b then [OverExp] else []) /\ (b = true <-> violates s f OverExp)
     /\ (s_overexp s = true -> f_over f <> None))
  \/ (exists e, crit_over s f = Raise e /\ e <> ValueError /\ s_overexp s = true /\ f_over f = None).
Proof.
  intros s f. unfold crit_over. cbn [violates]. destruct (s_overexp s).
  - destruct (f_over f) as [o|]; cbn [getkey bind].
    + left. exists o. split; [reflexivity|]. split; [|discriminate]. split; [intros ->; auto|intros [_ F]; congruence].
    + right. exists KeyError. split; [reflexivity|]. split; [discriminate|]. auto.
  - left. exists false. split; [reflexivity|]. split; [|discriminate]. split; [discriminate|intros [F _]; discriminate].
Qed.

Lemma crit_thr_spec : forall thr r card,
  (exists b : bool, crit_thr thr r card = Ok (if b then [r] else [])
     /\ (b = true <-> exists t v, thr = Some t /\ card = Some v /\ (t < v)%Q)
     /\ (thr <> None -> card <> None))
  \/ (exists e, crit_thr thr r card = Raise e /\ e <> ValueError /\ thr <> None /\ card = None).
Proof.
  intros thr r card. unfold crit_thr. destruct thr as [t|].
  - destruct card as [v|]; cbn [getkey bind].
    + left. exists (negb (Qle_bool v t)). split; [reflexivity|]. split; [|discriminate]. rewrite nle_lt. split.
      * intros F. exists t, v. auto.
      * intros (t' & v' & E1 & E2 & F). injection E1 as <-. injection E2 as <-. exact F.
    + right. exists KeyError. split; [reflexivity|]. split; [discriminate|]. split; [discriminate|reflexivity].
  - left. exists false. split; [reflexivity|]. split; [|intros F; contradiction F; reflexivity].
    split; [discriminate|intros (t & v & F & _); discriminate].
Qed.

Lemma reasons_spec : forall s f, dq_nonneg f ->
  (exists l, reasons s f = Ok l /\ (forall r, In r l <-> violates s f r) /\ canonical l /\ has_cards s f)
  \/ (exists e, reasons s f = Raise e /\ e <> ValueError /\ ~ has_cards s f).
Proof.
  intros s f H. unfold reasons.
  destruct (crit_pix_spec s f H) as [(b1 & E1 & V1 & K1)|(e & E1 & N1 & K1 & K1')]; rewrite E1; cbn [bind];
    [|right; exists e; split; [reflexivity|]; split; [exact N1|]; intros (A & _); exact (A K1 K1')].
  destruct (crit_over_spec s f) as [(b2 & E2 & V2 & K2)|(e & E2 & N2 & K2 & K2')]; rewrite E2; cbn [bind];
    [|right; exists e; split; [reflexivity|]; split; [exact N2|]; intros (_ & A & _); exact (A K2 K2')].
  destruct (crit_thr_spec (s_rms s) TipRms (f_z2v f)) as [(b3 & E3 & V3 & K3)|(e & E3 & N3 & K3 & K3')]; rewrite E3; cbn [bind];
    [|right; exists e; split; [reflexivity|]; split; [exact N3|]; intros (_ & _ & A & _); exact (proj1 (A K3) K3')].
  destruct (crit_thr_spec (s_rms s) TiltRms (f_z3v f)) as [(b4 & E4 & V4 & K4)|(e & E4 & N4 & K4 & K4')]; rewrite E4; cbn [bind];
    [|right; exists e; split; [reflexivity|]; split; [exact N4|]; intros (_ & _ & A & _); exact (proj2 (A K4) K4')].
  destruct (crit_thr_spec (s_bias s) TipBias (f_z2r f)) as [(b5 & E5 & V5 & K5)|(e & E5 & N5 & K5 & K5')]; rewrite E5; cbn [bind];
    [|right; exists e; split; [reflexivity|]; split; [exact N5|]; intros (_ & _ & _ & A); exact (proj1 (A K5) K5')].
  destruct (crit_thr_spec (s_bias s) TiltBias (f_z3r f)) as [(b6 & E6 & V6 & K6)|(e & E6 & N6 & K6 & K6')]; rewrite E6; cbn [bind];
    [|right; exists e; split; [reflexivity|]; split; [exact N6|]; intros (_ & _ & _ & A); exact (proj2 (A K6) K6')].
  left. eexists. split; [reflexivity|].
  split; [|split].
  - intros r. rewrite !in_app_iff.
    change (exists t v, s_rms s = Some t /\ f_z2v f = Some v /\ (t < v)%Q) with (violates s f TipRms) in V3.
    change (exists t v, s_rms s = Some t /\ f_z3v f = Some v /\ (t < v)%Q) with (violates s f TiltRms) in V4.
    change (exists t v, s_bias s = Some t /\ f_z2r f = Some v /\ (t < v)%Q) with (violates s f TipBias) in V5.
    change (exists t v, s_bias s = Some t /\ f_z3r f = Some v /\ (t < v)%Q) with (violates s f TiltBias) in V6.
    assert (I : forall (b : bool) q, In r (if b then [q] else []) <-> (b = true /\ q = r)).
    { intros b q. destruct b; cbn [In]; intuition congruence. }
    rewrite !I. rewrite V1, V2, V3, V4, V5, V6. clear.
    split.
    + intuition (subst; assumption).
    + destruct r; intuition.
  - exists (fun r => match r with BadPix => b1 | OverExp => b2 | TipRms => b3 | TiltRms => b4 | TipBias => b5 | TiltBias => b6 end).
    cbn [filter]. destruct b1, b2, b3, b4, b5, b6; reflexivity.
  - unfold has_cards. split; [exact K1|]. split; [exact K2|]. split; intros T; split; auto.
Qed.

Lemma flags_acc : forall l a, fold_left (fun acc r => (acc + code r)%N) l a = (a + flags l)%N.
Proof.
  induction l as [|x t IH]; intros a; cbn [fold_left]; [unfold flags; cbn [fold_left]; lia|].
  unfold flags. cbn [fold_left]. rewrite !IH. lia.
Qed.
Lemma flags_cons : forall x l, flags (x :: l) = (code x + flags l)%N.
Proof. intros x l. unfold flags at 1. cbn [fold_left]. rewrite flags_acc. lia. Qed.
Lemma flags_zero : forall l, flags l = 0%N <-> l = [].
Proof.
  intros [|x t]; split; intros H; try reflexivity; try discriminate.
  rewrite flags_cons in H. destruct x; cbn [code] in H; lia.
Qed.

(** The bits of the reject code. *)
Lemma flags_bits : forall l r, canonical l -> (N.testbit (flags l) (N.log2 (code r)) = true <-> In r l).
Proof.
  intros l r [P ->]. cbn [filter].
  destruct (P BadPix), (P OverExp), (P TipRms), (P TiltRms), (P TipBias), (P TiltBias); destruct r; cbn;
    intuition (try reflexivity; try discriminate).
Qed.

Lemma rejected_reasons : forall s f l, (forall r, In r l <-> violates s f r) -> (rejected s f <-> l <> []).
Proof.
  intros s f l H. split.
  - intros [r R] E. subst l. apply (proj2 (H r)) in R. exact R.
  - destruct l as [|r t]; intros N; [contradiction N; reflexivity|]. exists r. apply H. left. reflexivity.
Qed.

Lemma mapR_reasons : forall s fs, Forall dq_nonneg fs ->
  (exists rs, mapR (reasons s) fs = Ok rs
     /\ Forall2 (fun f l => (forall r, In r l <-> violates s f r) /\ canonical l /\ has_cards s f) fs rs)
  \/ (exists e, mapR (reasons s) fs = Raise e /\ e <> ValueError /\ ~ Forall (has_cards s) fs).
Proof.
  intros s fs H. induction H as [|f t Hf Ht IH]; cbn [mapR].
  - left. exists []. split; [reflexivity|constructor].
  - destruct (reasons_spec s f Hf) as [(l & E & A & B & C)|(e & E & N & C)]; rewrite E; cbn [bind].
    + destruct IH as [(rs & E' & F)|(e & E' & N & C')]; rewrite E'; cbn [bind].
      * left. exists (l :: rs). split; [reflexivity|]. constructor; [auto|exact F].
      * right. exists e. split; [reflexivity|]. split; [exact N|]. intros K. inversion K; subst. contradiction.
    + right. exists e. split; [reflexivity|]. split; [exact N|]. intros K. inversion K; subst. contradiction.
Qed.

Definition RR s := fun f (l : list reason) => (forall r, In r l <-> violates s f r) /\ canonical l /\ has_cards s f.

Lemma flags_pos_rejected : forall s f l, RR s f l -> (N.ltb 0 (flags l) = true <-> rejected s f).
Proof.
  intros s f l [A _]. rewrite (rejected_reasons s f l A), N.ltb_lt. rewrite <- flags_zero. lia.
Qed.
Lemma flags_zero_rejected : forall s f l, RR s f l -> (N.eqb (flags l) 0 = true <-> ~ rejected s f).
Proof.
  intros s f l H. rewrite <- (flags_pos_rejected s f l H), N.eqb_eq, N.ltb_lt. lia.
Qed.

Lemma bad_list_of : forall s fs rs, Forall2 (RR s) fs rs ->
  bad_list s fs (map (fun p => (f_name (fst p), snd p)) (filter (fun p => N.ltb 0 (flags (snd p))) (combine fs rs))).
Proof.
  intros s fs rs H. induction H as [|f l fs rs Hf H IH]; [constructor|].
  cbn [combine filter snd]. destruct (N.ltb 0 (flags l)) eqn:E; cbn [map fst snd].
  - apply (flags_pos_rejected s f l Hf) in E. destruct Hf as (A & B & _). apply bl_bad; auto.
  - apply bl_good; [|exact IH]. intros R. apply (flags_pos_rejected s f l Hf) in R. congruence.
Qed.

Lemma out_of : forall s n f l, RR s f l -> out_frame s n f (add_note n (mark s f l)).
Proof.
  intros s n f l H. unfold out_frame, add_note, mark, same_content, records.
  cbn [f_name f_dq f_over f_z2v f_z3v f_z2r f_z3r f_isbad f_sel f_hist f_rest].
  split; [repeat split|]. split; [reflexivity|]. split; [reflexivity|].
  split; intros R.
  - rewrite (proj2 (flags_pos_rejected s f l H) R). reflexivity.
  - destruct (N.ltb 0 (flags l)) eqn:E; [|reflexivity]. apply (flags_pos_rejected s f l H) in E. contradiction.
Qed.

Lemma kept_of : forall s n fs rs, Forall2 (RR s) fs rs -> exists sel, kept s fs sel
  /\ Forall2 (out_frame s n) sel
       (map (fun p => add_note n (mark s (fst p) (snd p))) (filter (fun p => N.eqb (flags (snd p)) 0) (combine fs rs))).
Proof.
  intros s n fs rs H. induction H as [|f l fs rs Hf H (sel & K & F)]; [exists []; split; constructor|].
  cbn [combine filter snd]. destruct (N.eqb (flags l) 0) eqn:E; cbn [map fst snd].
  - exists (f :: sel). apply (flags_zero_rejected s f l Hf) in E. split; [apply k_good; assumption|].
    constructor; [apply out_of; exact Hf|exact F].
  - exists sel. split; [|exact F]. apply k_bad; [|exact K].
    apply (flags_pos_rejected s f l Hf). apply N.ltb_lt. apply N.eqb_neq in E. lia.
Qed.

Lemma all_of : forall s n fs rs, Forall2 (RR s) fs rs ->
  Forall2 (out_frame s n) fs (map (fun p => add_note n (mark s (fst p) (snd p))) (combine fs rs)).
Proof.
  intros s n fs rs H. induction H as [|f l fs rs Hf H IH]; [constructor|].
  cbn [combine map fst snd]. constructor; [apply out_of; exact Hf|exact IH].
Qed.

Lemma good_nil : forall s fs rs, Forall2 (RR s) fs rs ->
  filter (fun p => N.eqb (flags (snd p)) 0) (combine fs rs) = [] -> Forall (rejected s) fs.
Proof.
  intros s fs rs H. induction H as [|f l fs rs Hf H IH]; intros E; [constructor|].
  cbn [combine filter snd] in E. destruct (N.eqb (flags l) 0) eqn:Z0; [discriminate|].
  constructor; [|apply IH; exact E].
  apply (flags_pos_rejected s f l Hf). apply N.ltb_lt. apply N.eqb_neq in Z0. lia.
Qed.
Lemma good_cons : forall s fs rs p t, Forall2 (RR s) fs rs ->
  filter (fun p => N.eqb (flags (snd p)) 0) (combine fs rs) = p :: t -> exists f, In f fs /\ ~ rejected s f.
Proof.
  intros s fs rs p t H. revert p t. induction H as [|f l fs rs Hf H IH]; intros p t E; [discriminate|].
  cbn [combine filter snd] in E. destruct (N.eqb (flags l) 0) eqn:Z0.
  - exists f. split; [left; reflexivity|]. apply (flags_zero_rejected s f l Hf). exact Z0.
  - destruct (IH _ _ E) as (g & I & R). exists g. split; [right; exact I|exact R].
Qed.
Lemma cards_of : forall s fs rs, Forall2 (RR s) fs rs -> Forall (has_cards s) fs.
Proof. intros s fs rs H. induction H as [|f l fs rs (_ & _ & C) H IH]; constructor; assumption. Qed.

Lemma frame_select_spec : forall s (fs : list (sframe X)), Forall dq_nonneg fs -> select_spec s fs (frame_select s fs).
Proof.
  intros s fs H. unfold frame_select.
  destruct (mapR_reasons s fs H) as [(rs & E & F)|(e & E & N & C)]; rewrite E; cbn [bind].
  - change (Forall2 (RR s) fs rs) in F.
    destruct (filter (fun p => N.eqb (flags (snd p)) 0) (combine fs rs)) as [|p t] eqn:G.
    + cbn [select_spec]. split; [exact (cards_of _ _ _ F)|exact (good_nil _ _ _ F G)].
    + rewrite <- G. cbn [select_spec]. split; [exact (cards_of _ _ _ F)|].
      split; [exact (good_cons _ _ _ _ _ F G)|].
      set (n := mknote (s_discard s) _).
      exists n. destruct (s_discard s) eqn:D.
      * destruct (kept_of s n fs rs F) as (sel & K & O). exists sel.
        split; [reflexivity|]. split; [apply bad_list_of; exact F|]. split; [exact K|exact O].
      * exists fs. split; [reflexivity|]. split; [apply bad_list_of; exact F|].
        split; [reflexivity|apply all_of; exact F].
  - cbn [select_spec]. destruct e; try exact C. contradiction N; reflexivity.
Qed.
End P.

Lemma reasons_of : forall X s (f : sframe X) l, dq_nonneg f -> reasons s f = Ok l -> forall r, In r l -> violates s f r.
Proof.
  intros X s f l H E r I. destruct (reasons_spec s f H) as [(l' & E' & A & _)|(e & E' & _)]; rewrite E' in E; [|discriminate].
  injection E as <-. apply A. exact I.
Qed.
Lemma code_bits : forall X s (f : sframe X) l r, dq_nonneg f -> reasons s f = Ok l ->
  (N.testbit (flags l) (N.log2 (code r)) = true <-> violates s f r).
Proof.
  intros X s f l r H E. destruct (reasons_spec s f H) as [(l' & E' & A & B & _)|(e & E' & _)]; rewrite E' in E; [|discriminate].
  injection E as <-. rewrite flags_bits by exact B. apply A.
Qed.
Lemma codes_distinct : forall r r', code r = code r' -> r = r'.
Proof. intros [] []; cbn [code]; intros H; try reflexivity; discriminate H. Qed.
Lemma sign_bit : forall a d, (d < 0)%Z -> (0 <= a)%Z -> bad_count a [d] = 0 /\ has_disallowed a d.
Proof.
  intros a d Hd Ha. split.
  - unfold bad_count. cbn [filter].
    assert (L : (Z.land d (Z.lnot a) < 0)%Z) by (apply Z.land_neg; split; [exact Hd|unfold Z.lnot; lia]).
    rewrite (proj2 (Z.ltb_ge _ _)) by lia. reflexivity.
  - (* above all bits of both, d has ones and a zeros *)
    exists (Z.max (Z.log2 a + 1) (Z.log2 (Z.pred (- d)) + 1)).
    assert (L1 := Z.log2_nonneg a). assert (L2 := Z.log2_nonneg (Z.pred (- d))).
    split; [lia|]. split.
    + apply Z.bits_above_log2_neg; lia.
    + apply Z.bits_above_log2; lia.
Qed.
