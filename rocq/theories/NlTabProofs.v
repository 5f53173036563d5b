(** Proofs: settings, regions, mask and signals. *)
From Coq Require Import List Arith Bool Reals ZArith String Lia Lra.
From Verif Require Import Base DqModel CombineModel ComboSpec ComboProofs FindModel FlatModel FlatSpec CtModel CtSpec CtProofs CropModel NlTabModel NlTabSpec.
Import ListNotations.
Local Open Scope R_scope.

(** ** Settings *)
Lemma num_iff : forall n, is_num n = true <-> numeric n.
Proof. intros [z|v|]; cbn; (split; [intros Q|intros Q; try reflexivity]); try discriminate; [eexists; constructor|eexists; constructor|]. destruct Q as (v & Q). inversion Q. Qed.
Lemma worth_as : forall n v, counts_as n v -> worth n = v.
Proof. intros n v Q. destruct Q; reflexivity. Qed.
Lemma as_worth : forall n, is_num n = true -> counts_as n (worth n).
Proof. intros [z|v|] Q; [constructor|constructor|discriminate]. Qed.
Lemma under_iff : forall a b, under a b = true <-> less a b.
Proof.
  intros [x|] [y|]; cbn; try (split; [discriminate|intros (p & q & A & B & _); discriminate]). destruct (Rlt_dec x y) as [L|N]; split; try discriminate; try reflexivity.
  - intros _. exists x, y. auto.
  - intros (p & q & A & B & L). injection A as ->. injection B as ->. contradiction.
Qed.
Lemma upto_iff : forall a b, upto a b = true <-> atmost a b.
Proof.
  intros [x|] [y|]; cbn; try (split; [discriminate|intros (p & q & A & B & _); discriminate]). destruct (Rle_dec x y) as [L|N]; split; try discriminate; try reflexivity.
  - intros _. exists x, y. auto.
  - intros (p & q & A & B & L). injection A as ->. injection B as ->. contradiction.
Qed.
Lemma under_no : forall a b, under a b = false <-> ~ less a b.
Proof. intros a b. rewrite <- under_iff. destruct (under a b); split; congruence. Qed.
Lemma upto_no : forall a b, upto a b = false <-> ~ atmost a b.
Proof. intros a b. rewrite <- upto_iff. destruct (upto a b); split; congruence. Qed.
Lemma named_in : forall k, named k <-> In k param_names.
Proof. intros k. reflexivity. Qed.
Lemma params_iff : forall d, check_nonlin_params d = Ok tt <-> all_named d /\ all_numeric d.
Proof.
  intros d. unfold check_nonlin_params. destruct (forallb (fun k => match d k with Some _ => true | None => false end) param_names) eqn:A; cbn [negb].
  - rewrite forallb_forall in A. assert (N : all_named d) by (intros k K; specialize (A k K); destruct (d k) as [v|]; [eauto|discriminate]). destruct (forallb (fun k => match d k with Some v => is_num v | None => false end) param_names) eqn:B; cbn [negb].
    + rewrite forallb_forall in B. split; [|reflexivity]. intros _. split; [assumption|]. intros k v K E. specialize (B k K). rewrite E in B. apply num_iff. assumption.
    + split; [discriminate|]. intros (_ & H). exfalso. apply Bool.not_true_iff_false in B. apply B. apply forallb_forall. intros k K. destruct (N k K) as (v & E). rewrite E. apply num_iff. eapply H; eassumption.
  - split; [discriminate|]. intros (H & _). exfalso. apply Bool.not_true_iff_false in A. apply A. apply forallb_forall. intros k K. destruct (H k K) as (v & ->). reflexivity.
Qed.
Lemma params_fail : forall d e, check_nonlin_params d = Raise e <-> (~ all_named d /\ e = ValueError) \/ (all_named d /\ ~ all_numeric d /\ e = TypeError).
Proof.
  intros d e. pose proof (params_iff d) as P. unfold check_nonlin_params in *. destruct (forallb (fun k => match d k with Some _ => true | None => false end) param_names) eqn:A; cbn [negb] in *.
  - rewrite forallb_forall in A. assert (N : all_named d) by (intros k K; specialize (A k K); destruct (d k) as [v|]; [eauto|discriminate]). destruct (forallb (fun k => match d k with Some v => is_num v | None => false end) param_names) eqn:B; cbn [negb] in *.
    + split; [discriminate|]. destruct P as (P & _). destruct (P eq_refl) as (_ & M). tauto.
    + split; [|intros [(H & _)|(_ & _ & ->)]; [contradiction|reflexivity]]. intros Q. injection Q as <-. right. split; [assumption|]. split; [|reflexivity]. intros M. destruct P as (_ & P). specialize (P (conj N M)). discriminate.
  - assert (N : ~ all_named d) by (intros H; apply Bool.not_true_iff_false in A; apply A; apply forallb_forall; intros k K; destruct (H k K) as (v & ->); reflexivity). split; [intros Q; injection Q as <-; auto|]. intros [(_ & ->)|(H & _)]; [reflexivity|contradiction].
Qed.
Lemma positive_iff : forall n, positive n = Ok tt <-> above_zero n.
Proof.
  intros n. unfold positive, above_zero. destruct (is_num n) eqn:N; cbn [negb].
  - destruct (upto (worth n) (Some 0)) eqn:U; split; try discriminate; try reflexivity.
    + intros (v & V & H). apply upto_iff in U. rewrite (worth_as _ _ V) in U. contradiction.
    + intros _. exists (worth n). split; [apply as_worth; assumption|]. apply upto_no. assumption.
  - split; [discriminate|]. intros (v & V & _). assert (Q : numeric n) by (exists v; assumption). apply num_iff in Q. congruence.
Qed.
Lemma positive_or : forall n, positive n = Ok tt \/ positive n = Raise TypeError.
Proof. intros n. unfold positive. destruct (negb _); [auto|]. destruct (upto _ _); auto. Qed.
Lemma nonnegative_iff : forall n, nonnegative n = Ok tt <-> not_negative n.
Proof.
  intros n. unfold nonnegative, not_negative. destruct (is_num n) eqn:N; cbn [negb].
  - destruct (under (worth n) (Some 0)) eqn:U; split; try discriminate; try reflexivity.
    + intros (v & V & H). apply under_iff in U. rewrite (worth_as _ _ V) in U. contradiction.
    + intros _. exists (worth n). split; [apply as_worth; assumption|]. apply under_no. assumption.
  - split; [discriminate|]. intros (v & V & _). assert (Q : numeric n) by (exists v; assumption). apply num_iff in Q. congruence.
Qed.
Lemma nonnegative_or : forall n, nonnegative n = Ok tt \/ nonnegative n = Raise TypeError.
Proof. intros n. unfold nonnegative. destruct (negb _); [auto|]. destruct (under _ _); auto. Qed.
Lemma int_iff : forall o z, positive_int (n_norm o) = Ok z <-> norm_ok o z.
Proof.
  intros o z. unfold positive_int, norm_ok. destruct (n_norm o) as [y|v|]; try (split; [discriminate|intros (Q & _); discriminate]). destruct (Z.leb_spec y 0); split; try discriminate.
  - intros (Q & L). injection Q as ->. lia.
  - intros Q. injection Q as ->. auto.
  - intros (Q & _). injection Q as ->. reflexivity.
Qed.
Lemma int_or : forall n, (exists z, positive_int n = Ok z) \/ positive_int n = Raise TypeError.
Proof. intros [z|v|]; cbn; auto. destruct (z <=? 0)%Z; eauto. Qed.
Lemma step_iff : forall z, (z mod 20 =? 0)%Z = true <-> step_ok z.
Proof. intros z. unfold step_ok. rewrite Z.eqb_eq. split; [intros M; exists (z / 20)%Z; pose proof (Z.div_mod z 20); lia|intros (k & ->); rewrite Z.mul_comm; apply Z.mod_mul; lia]. Qed.
Lemma above_num : forall n, above_zero n -> is_num n = true.
Proof. intros n (v & V & _). apply num_iff. exists v. assumption. Qed.
Lemma notneg_num : forall n, not_negative n -> is_num n = true.
Proof. intros n (v & V & _). apply num_iff. exists v. assumption. Qed.
Lemma between_iff : forall o z, limits_ok o -> (upto (worth (n_max o)) (worth (n_min o)) || (under (Some (IZR z)) (worth (n_min o)) || under (worth (n_max o)) (Some (IZR z))) = false <-> between_ok o z).
Proof.
  intros o z (A & B). apply above_num, as_worth in A. apply above_num, as_worth in B. unfold between_ok. rewrite !orb_false_iff, upto_no, !under_no. split.
  - intros (P & Q & S) a b CA CB. rewrite (worth_as _ _ CA) in *. rewrite (worth_as _ _ CB) in *. auto.
  - intros H. destruct (H _ _ A B) as (P & Q & S). auto.
Qed.
Lemma ordered_iff : forall o, errors_ok o -> (upto (worth (n_upp o)) (worth (n_low o)) = false <-> ordered_ok o).
Proof.
  intros o (A & B). apply notneg_num, as_worth in A. apply notneg_num, as_worth in B. unfold ordered_ok. rewrite upto_no. split; [intros P a b CA CB; rewrite (worth_as _ _ CA), (worth_as _ _ CB) in P; assumption|intros H; apply (H _ _ A B)].
Qed.
Lemma rest_iff : forall o, errors_ok o -> (forallb is_num [n_frac o; n_low o; n_upp o; n_up1 o; n_up2 o; n_lo1 o; n_lo2 o] = true <-> rest_ok o).
Proof.
  intros o (A & B). apply notneg_num in A. apply notneg_num in B. unfold rest_ok. cbn [forallb]. rewrite A, B. cbn [andb]. rewrite !andb_true_iff, !num_iff. split; [intros (P & Q & S & T & U & _); repeat constructor; assumption|]. intros F. inversion F as [|x1 l1 P F1]; inversion F1 as [|x2 l2 Q F2]; inversion F2 as [|x3 l3 S F3]; inversion F3 as [|x4 l4 T F4]; inversion F4; subst. auto 10.
Qed.
Lemma checks_spec : forall o, (forall z, checks o = Ok z -> valid o z) /\ (forall e, checks o = Raise e -> invalid o e).
Proof.
  intros o. unfold checks. destruct (positive_int (n_norm o)) as [z|e0] eqn:EN; cbn [bind].
  2: { split; [discriminate|]. intros e Q. injection Q as <-. left. split; [intros z Z0; apply int_iff in Z0; congruence|]. destruct (int_or (n_norm o)) as [(z & Q)|Q]; congruence. }
  apply int_iff in EN. destruct (z mod 20 =? 0)%Z eqn:ES; cbn [negb].
  2: { split; [discriminate|]. intros e Q. injection Q as <-. right. exists z. split; [assumption|]. left. split; [|reflexivity]. rewrite <- step_iff. congruence. }
  apply step_iff in ES. destruct (positive_or (n_min o)) as [P1|P1]; rewrite P1; cbn [bind].
  2: { split; [discriminate|]. intros e Q. injection Q as <-. right. exists z. split; [assumption|]. right. left. split; [assumption|]. split; [|reflexivity]. intros (A & _). apply positive_iff in A. congruence. }
  destruct (positive_or (n_max o)) as [P2|P2]; rewrite P2; cbn [bind].
  2: { split; [discriminate|]. intros e Q. injection Q as <-. right. exists z. split; [assumption|]. right. left. split; [assumption|]. split; [|reflexivity]. intros (_ & A). apply positive_iff in A. congruence. }
  assert (L : limits_ok o) by (split; apply positive_iff; assumption). pose proof (between_iff o z L) as BI. destruct (upto (worth (n_max o)) (worth (n_min o))); cbn [orb] in BI.
  { split; [discriminate|]. intros e Q. injection Q as <-. right. exists z. split; [assumption|]. right. right. left. split; [assumption|]. split; [assumption|]. split; [|reflexivity]. rewrite <- BI. congruence. }
  destruct (under (Some (IZR z)) (worth (n_min o)) || under (worth (n_max o)) (Some (IZR z))).
  { split; [discriminate|]. intros e Q. injection Q as <-. right. exists z. split; [assumption|]. right. right. left. split; [assumption|]. split; [assumption|]. split; [|reflexivity]. rewrite <- BI. congruence. }
  assert (B : between_ok o z) by (apply BI; reflexivity). destruct (nonnegative_or (n_low o)) as [P3|P3]; rewrite P3; cbn [bind].
  2: { split; [discriminate|]. intros e Q. injection Q as <-. right. exists z. split; [assumption|]. do 3 right. left. do 3 (split; [assumption|]). split; [|reflexivity]. intros (A & _). apply nonnegative_iff in A. congruence. }
  destruct (nonnegative_or (n_upp o)) as [P4|P4]; rewrite P4; cbn [bind].
  2: { split; [discriminate|]. intros e Q. injection Q as <-. right. exists z. split; [assumption|]. do 3 right. left. do 3 (split; [assumption|]). split; [|reflexivity]. intros (_ & A). apply nonnegative_iff in A. congruence. }
  assert (E : errors_ok o) by (split; apply nonnegative_iff; assumption). pose proof (ordered_iff o E) as OI. destruct (upto (worth (n_upp o)) (worth (n_low o))).
  { split; [discriminate|]. intros e Q. injection Q as <-. right. exists z. split; [assumption|]. do 4 right. left. do 4 (split; [assumption|]). split; [|reflexivity]. rewrite <- OI. congruence. }
  assert (O : ordered_ok o) by (apply OI; reflexivity). pose proof (rest_iff o E) as RI. destruct (forallb is_num _); cbn [negb].
  - split; [|discriminate]. intros z' Q. injection Q as <-. unfold valid. assert (rest_ok o) by (apply RI; reflexivity). auto 10.
  - split; [discriminate|]. intros e Q. injection Q as <-. right. exists z. split; [assumption|]. do 5 right. do 5 (split; [assumption|]). split; [|reflexivity]. rewrite <- RI. congruence.
Qed.
Lemma valid_one : forall o z z', valid o z -> valid o z' -> z' = z.
Proof. intros o z z' ((A & _) & _) ((B & _) & _). rewrite A in B. injection B as ->. reflexivity. Qed.
Lemma norm_one : forall o z z', norm_ok o z -> norm_ok o z' -> z' = z.
Proof. intros o z z' (A & _) (B & _). rewrite A in B. injection B as ->. reflexivity. Qed.
Lemma invalid_not : forall o z e, valid o z -> invalid o e -> False.
Proof.
  intros o z e (N & S & L & B & E & O & X) [(H & _)|(z' & N' & H)]; [apply (H z N)|]. pose proof (norm_one _ _ _ N N') as ->. repeat (destruct H as [H|H]; [tauto|]). tauto.
Qed.
Lemma invalid_one : forall o e e', invalid o e -> invalid o e' -> e' = e.
Proof.
  intros o e e' [(H & ->)|(z & N & H)] [(H' & ->)|(z' & N' & H')]; [reflexivity|destruct (H _ N')|destruct (H' _ N)|]. pose proof (norm_one _ _ _ N N') as ->. repeat (destruct H as [H|H]; [repeat (destruct H' as [H'|H']; [intuition congruence|]); intuition congruence|]). repeat (destruct H' as [H'|H']; [intuition congruence|]); intuition congruence.
Qed.
Lemma checks_iff : forall o z, checks o = Ok z <-> valid o z.
Proof.
  intros o z. destruct (checks_spec o) as (A & B). split; [apply A|]. intros V. destruct (checks o) as [z'|e] eqn:E; [rewrite (valid_one _ _ _ V (A z' eq_refl)); reflexivity|]. destruct (invalid_not _ _ _ V (B e eq_refl)).
Qed.
Lemma checks_fail : forall o e, checks o = Raise e <-> invalid o e.
Proof.
  intros o e. destruct (checks_spec o) as (A & B). split; [apply B|]. intros V. destruct (checks o) as [z'|e'] eqn:E; [destruct (invalid_not _ _ _ (A z' eq_refl) V)|]. rewrite (invalid_one _ _ _ V (B e' eq_refl)). reflexivity.
Qed.

(** ** Regions *)
Lemma span_iff : forall d a b r, (forall z, d a = Some (NInt z) -> (0 <= z)%Z) -> (forall z, d b = Some (NInt z) -> (0 <= z)%Z) -> (span (setting d a) (setting d b) = Ok r <-> bounds d a b r).
Proof.
  intros d a b r A B. unfold span, setting, bounds. destruct (d a) as [[x|v|]|]; try (split; [discriminate|intros (Q & _); discriminate]). destruct (d b) as [[y|v|]|]; try (split; [discriminate|intros (_ & Q); discriminate]). specialize (A x eq_refl). specialize (B y eq_refl). split.
  - intros Q. injection Q as <-. cbn [fst snd]. rewrite !Z2Nat.id by lia. auto.
  - intros (P & Q). injection P as ->. injection Q as ->. rewrite !Nat2Z.id. destruct r; reflexivity.
Qed.
Lemma span_or : forall d a b, span (setting d a) (setting d b) = Raise TypeError /\ ((forall z, d a <> Some (NInt z)) \/ forall z, d b <> Some (NInt z)) \/ exists r, span (setting d a) (setting d b) = Ok r /\ (exists x, d a = Some (NInt x)) /\ exists y, d b = Some (NInt y).
Proof.
  intros d a b. unfold span, setting. destruct (d a) as [[x|v|]|]; try (left; split; [reflexivity|left; discriminate]). destruct (d b) as [[y|v|]|]; try (left; split; [reflexivity|right; discriminate]). right. eexists. split; [reflexivity|eauto].
Qed.
Lemma regions_iff : forall d g, no_negative d -> (regions d = Ok g <-> set_out d g).
Proof.
  intros d g N. assert (E : forall k, edge k -> forall z, d k = Some (NInt z) -> (0 <= z)%Z) by (intros k K z; apply N; assumption). unfold regions, set_out.
  assert (S1 : forall r, span (setting d "rowroi1") (setting d "rowroi2") = Ok r <-> bounds d "rowroi1" "rowroi2" r) by (intros r; apply span_iff; apply E; cbn; tauto).
  assert (S2 : forall r, span (setting d "colroi1") (setting d "colroi2") = Ok r <-> bounds d "colroi1" "colroi2" r) by (intros r; apply span_iff; apply E; cbn; tauto).
  assert (S3 : forall r, span (setting d "rowback11") (setting d "rowback12") = Ok r <-> bounds d "rowback11" "rowback12" r) by (intros r; apply span_iff; apply E; cbn; tauto).
  assert (S4 : forall r, span (setting d "rowback21") (setting d "rowback22") = Ok r <-> bounds d "rowback21" "rowback22" r) by (intros r; apply span_iff; apply E; cbn; tauto).
  assert (S5 : forall r, span (setting d "colback11") (setting d "colback12") = Ok r <-> bounds d "colback11" "colback12" r) by (intros r; apply span_iff; apply E; cbn; tauto).
  assert (S6 : forall r, span (setting d "colback21") (setting d "colback22") = Ok r <-> bounds d "colback21" "colback22" r) by (intros r; apply span_iff; apply E; cbn; tauto).
  clear E N.
  rewrite <- (S1 (g_row g)), <- (S2 (g_col g)), <- (S3 (g_row1 g)), <- (S4 (g_row2 g)), <- (S5 (g_col1 g)), <- (S6 (g_col2 g)). clear S1 S2 S3 S4 S5 S6.
  destruct (span (setting d "rowroi1") _); cbn [bind]; [|split; [discriminate|intros (Q & _); discriminate]]. destruct (span (setting d "colroi1") _); cbn [bind]; [|split; [discriminate|intros (_ & Q & _); discriminate]]. destruct (span (setting d "rowback11") _); cbn [bind]; [|split; [discriminate|intros (_ & _ & Q & _); discriminate]].
  destruct (span (setting d "rowback21") _); cbn [bind]; [|split; [discriminate|intros (_ & _ & _ & Q & _); discriminate]]. destruct (span (setting d "colback11") _); cbn [bind]; [|split; [discriminate|intros (_ & _ & _ & _ & Q & _); discriminate]]. destruct (span (setting d "colback21") _); cbn [bind]; [|split; [discriminate|intros (_ & _ & _ & _ & _ & Q); discriminate]].
  split; [intros Q; injection Q as <-; cbn; auto 10|]. destruct g as [x1 x2 x3 x4 x5 x6]. cbn [g_row g_col g_row1 g_row2 g_col1 g_col2]. intros (Q1 & Q2 & Q3 & Q4 & Q5 & Q6). congruence.
Qed.
Lemma regions_fail : forall d e, regions d = Raise e <-> not_whole d /\ e = TypeError.
Proof.
  intros d e. unfold regions, not_whole. assert (NW : forall a b, edge a -> edge b -> (forall z, d a <> Some (NInt z)) \/ (forall z, d b <> Some (NInt z)) -> exists k, edge k /\ forall z, d k <> Some (NInt z)) by (intros a b A B [H|H]; eauto).
  destruct (span_or d "rowroi1" "rowroi2") as [(-> & H)|(r1 & -> & A1 & B1)]; cbn [bind]; [split; [intros Q; injection Q as <-; split; [revert H; apply NW; cbn; tauto|reflexivity]|intros (_ & ->); reflexivity]|].
  destruct (span_or d "colroi1" "colroi2") as [(-> & H)|(r2 & -> & A2 & B2)]; cbn [bind]; [split; [intros Q; injection Q as <-; split; [revert H; apply NW; cbn; tauto|reflexivity]|intros (_ & ->); reflexivity]|].
  destruct (span_or d "rowback11" "rowback12") as [(-> & H)|(r3 & -> & A3 & B3)]; cbn [bind]; [split; [intros Q; injection Q as <-; split; [revert H; apply NW; cbn; tauto|reflexivity]|intros (_ & ->); reflexivity]|].
  destruct (span_or d "rowback21" "rowback22") as [(-> & H)|(r4 & -> & A4 & B4)]; cbn [bind]; [split; [intros Q; injection Q as <-; split; [revert H; apply NW; cbn; tauto|reflexivity]|intros (_ & ->); reflexivity]|].
  destruct (span_or d "colback11" "colback12") as [(-> & H)|(r5 & -> & A5 & B5)]; cbn [bind]; [split; [intros Q; injection Q as <-; split; [revert H; apply NW; cbn; tauto|reflexivity]|intros (_ & ->); reflexivity]|].
  destruct (span_or d "colback21" "colback22") as [(-> & H)|(r6 & -> & A6 & B6)]; cbn [bind]; [split; [intros Q; injection Q as <-; split; [revert H; apply NW; cbn; tauto|reflexivity]|intros (_ & ->); reflexivity]|].
  split; [discriminate|]. intros ((k & K & H) & _). exfalso. cbn in K. repeat (destruct K as [<-|K]; [match goal with X : exists x, d ?s = Some (NInt x), Y : forall z, d ?s <> _ |- _ => destruct X as (x & X); apply (Y x X) end|]). destruct K.
Qed.

(** ** Cells of a region *)
Lemma seq_between : forall n a b, filter (fun k => (a <=? k)%nat && (k <? b)%nat) (seq 0 n) = seq a (Nat.min b n - a).
Proof.
  intros n a b. induction n as [|n IH]; [replace (Nat.min b 0 - a)%nat with 0%nat by lia; reflexivity|]. rewrite seq_S, filter_app, IH. cbn [plus filter Nat.add]. destruct (Nat.leb_spec a n), (Nat.ltb_spec n b); cbn [andb].
  - replace (Nat.min b (S n) - a)%nat with (S (Nat.min b n - a)) by lia. rewrite seq_S. do 2 f_equal. lia.
  - rewrite app_nil_r. f_equal. lia.
  - rewrite app_nil_r. f_equal. lia.
  - rewrite app_nil_r. f_equal. lia.
Qed.
Lemma filter_row : forall (p q : nat -> bool) a m, filter (fun x => p (fst x) && q (snd x)) (map (fun y => (a, y)) m) = if p a then map (fun y => (a, y)) (filter q m) else [].
Proof. intros p q a m. induction m as [|b m IH]; cbn [map filter]; [destruct (p a); reflexivity|]. cbn [fst snd]. rewrite IH. destruct (p a), (q b); reflexivity. Qed.
Lemma filter_prod : forall (p q : nat -> bool) l m, filter (fun x => p (fst x) && q (snd x)) (list_prod l m) = list_prod (filter p l) (filter q m).
Proof. intros p q l m. induction l as [|a l IH]; [reflexivity|]. cbn [list_prod]. rewrite filter_app, IH, filter_row. cbn [filter]. destruct (p a); reflexivity. Qed.
Lemma cells_iff : forall f r c ps, sieve (lies_in r c) (places f) ps <-> ps = cells (fst r, Nat.min (snd r) (rows f)) (fst c, Nat.min (snd c) (cols f)).
Proof.
  intros f r c ps. unfold cells. cbn [fst snd]. rewrite <- !seq_between, <- filter_prod. change (list_prod (seq 0 (rows f)) (seq 0 (cols f))) with (places f). apply sieve_filter. intros p. unfold lies_in. rewrite !andb_true_iff, !Nat.leb_le, !Nat.ltb_lt. reflexivity.
Qed.
Lemma average_iff : forall l v, average l v <-> v = vmean l.
Proof. intros l v. unfold average, vmean. rewrite quot_vdiv. split; [intros (s & T & ->); apply total_iff in T; subst; reflexivity|intros ->; exists (vsum l); split; [apply total_iff; reflexivity|reflexivity]]. Qed.

(** ** Mean and threshold *)
Lemma mean_iff : forall l f, mean_frame l = Ok f -> mean_image l f.
Proof. intros [|g t] f Q; [discriminate|]. injection Q as <-. exists g, t. split; [reflexivity|]. split; [reflexivity|]. split; [reflexivity|]. intros i j. apply average_iff. reflexivity. Qed.
Lemma mean_one : forall l f, mean_image l f -> exists g, mean_frame l = Ok g /\ rows g = rows f /\ cols g = cols f /\ forall i j, pix g i j = pix f i j.
Proof. intros l f (g & t & -> & R1 & C1 & A). cbn [mean_frame]. eexists. split; [reflexivity|]. cbn [rows cols pix]. split; [congruence|]. split; [congruence|]. intros i j. specialize (A i j). apply average_iff in A. symmetry. exact A. Qed.
Lemma top_spec : forall l b, In (top b l) (b :: l) /\ forall P : R * nat -> Prop, (forall x, In x (b :: l) -> P x) -> first_most P (b :: l) (top b l).
Proof.
  induction l as [|x l IH]; intros b.
  - split; [left; reflexivity|]. intros P H. exists [], []. cbn. split; [reflexivity|]. split; [apply H; left; reflexivity|]. split; intros y [].
  - cbn [top]. destruct (Nat.ltb_spec (snd b) (snd x)) as [L|L].
    + destruct (IH x) as (I & F). split; [right; assumption|]. intros P H. destruct (F P) as (u & w & E & PB & U & W); [intros y Y; apply H; right; assumption|]. exists (b :: u), w. rewrite E. split; [reflexivity|]. split; [assumption|]. split; [|assumption]. intros y [<-|Y] PY; [|apply U; assumption]. destruct u as [|z u]; cbn [app] in E; injection E as E1 E2; [rewrite <- E1; assumption|]. assert (Q : (snd x < snd (top x l))%nat) by (subst z; apply U; [left; reflexivity|apply H; right; left; reflexivity]). lia.
    + destruct (IH b) as (I & F). split; [destruct I as [I|I]; [left; assumption|right; right; assumption]|]. intros P H. destruct (F P) as (u & w & E & PB & U & W); [intros y [Y|Y]; apply H; [left; assumption|right; right; assumption]|]. destruct u as [|z u]; cbn [app] in E; injection E as E1 E2.
      * exists [], (x :: l). cbn [app]. rewrite <- E1. split; [reflexivity|]. split; [rewrite E1; assumption|]. split; [intros y []|]. intros y [<-|Y] PY; [assumption|]. rewrite E1. apply W; [rewrite <- E2; assumption|assumption].
      * exists (z :: x :: u), w. split; [cbn [app]; rewrite <- E1; do 2 f_equal; exact E2|]. split; [assumption|]. split; [|assumption]. subst z. assert (Q : (snd b < snd (top b l))%nat) by (apply U; [left; reflexivity|apply H; left; reflexivity]). intros y [<-|[<-|Y]] PY; [assumption|lia|apply U; [right; assumption|assumption]].
Qed.
Lemma low_spec : forall l b, In (low b l) (b :: l) /\ forall P : R * nat -> Prop, (forall x, In x (b :: l) -> P x) -> first_least P (b :: l) (low b l).
Proof.
  induction l as [|x l IH]; intros b.
  - split; [left; reflexivity|]. intros P H. exists [], []. cbn. split; [reflexivity|]. split; [apply H; left; reflexivity|]. split; intros y [].
  - cbn [low]. destruct (Nat.ltb_spec (snd x) (snd b)) as [L|L].
    + destruct (IH x) as (I & F). split; [right; assumption|]. intros P H. destruct (F P) as (u & w & E & PB & U & W); [intros y Y; apply H; right; assumption|]. exists (b :: u), w. rewrite E. split; [reflexivity|]. split; [assumption|]. split; [|assumption]. intros y [<-|Y] PY; [|apply U; assumption]. destruct u as [|z u]; cbn [app] in E; injection E as E1 E2; [rewrite <- E1; assumption|]. assert (Q : (snd (low x l) < snd x)%nat) by (subst z; apply U; [left; reflexivity|apply H; right; left; reflexivity]). lia.
    + destruct (IH b) as (I & F). split; [destruct I as [I|I]; [left; assumption|right; right; assumption]|]. intros P H. destruct (F P) as (u & w & E & PB & U & W); [intros y [Y|Y]; apply H; [left; assumption|right; right; assumption]|]. destruct u as [|z u]; cbn [app] in E; injection E as E1 E2.
      * exists [], (x :: l). cbn [app]. rewrite <- E1. split; [reflexivity|]. split; [rewrite E1; assumption|]. split; [intros y []|]. intros y [<-|Y] PY; [assumption|]. rewrite E1. apply W; [rewrite <- E2; assumption|assumption].
      * exists (z :: x :: u), w. split; [cbn [app]; rewrite <- E1; do 2 f_equal; exact E2|]. split; [assumption|]. split; [|assumption]. subst z. assert (Q : (snd (low b l) < snd b)%nat) by (apply U; [left; reflexivity|apply H; left; reflexivity]). intros y [<-|[<-|Y]] PY; [assumption|lia|apply U; [right; assumption|assumption]].
Qed.

Lemma filter_split : forall A (p : A -> bool) l u b w, filter p l = u ++ b :: w -> exists u' w', l = u' ++ b :: w' /\ filter p u' = u /\ filter p w' = w /\ p b = true.
Proof.
  intros A p l. induction l as [|x l IH]; intros u b w E; [destruct u; discriminate|]. cbn [filter] in E. destruct (p x) eqn:P.
  - destruct u as [|y u]; cbn [app] in E; injection E as E1 E2.
    + subst x. exists [], l. auto.
    + subst y. destruct (IH _ _ _ E2) as (u' & w' & -> & <- & <- & PB). exists (x :: u'), w'. cbn [filter app]. rewrite P. auto.
  - destruct (IH _ _ _ E) as (u' & w' & -> & <- & <- & PB). exists (x :: u'), w'. cbn [filter app]. rewrite P. auto.
Qed.
Lemma most_filter : forall (p : R * nat -> bool) (P : R * nat -> Prop) l b, (forall x, p x = true <-> P x) -> first_most (fun _ => True) (filter p l) b -> first_most P l b.
Proof.
  intros p P l b H (u & w & E & _ & U & W). destruct (filter_split _ _ _ _ _ _ E) as (u' & w' & -> & <- & <- & PB). exists u', w'. split; [reflexivity|]. split; [apply H; assumption|]. split; intros x X PX; [apply U|apply W]; try exact I; apply filter_In; (split; [assumption|apply H; assumption]).
Qed.
Lemma least_filter : forall (p : R * nat -> bool) (P : R * nat -> Prop) l b, (forall x, p x = true <-> P x) -> first_least (fun _ => True) (filter p l) b -> first_least P l b.
Proof.
  intros p P l b H (u & w & E & _ & U & W). destruct (filter_split _ _ _ _ _ _ E) as (u' & w' & -> & <- & <- & PB). exists u', w'. split; [reflexivity|]. split; [apply H; assumption|]. split; intros x X PX; [apply U|apply W]; try exact I; apply filter_In; (split; [assumption|apply H; assumption]).
Qed.
Lemma split_eq : forall A (u u' : list A) b b' w w', u ++ b :: w = u' ++ b' :: w' -> (u = u' /\ b = b' /\ w = w') \/ (In b u' /\ In b' w) \/ (In b' u /\ In b w').
Proof.
  intros A u. induction u as [|x u IH]; intros [|y u'] b b' w w' E; cbn [app] in E; injection E as E1 E2.
  - subst. auto.
  - subst y. right. left. split; [left; reflexivity|]. rewrite E2. apply in_or_app. right. left. reflexivity.
  - subst x. right. right. split; [left; reflexivity|]. rewrite <- E2. apply in_or_app. right. left. reflexivity.
  - subst y. destruct (IH _ _ _ _ _ E2) as [(-> & -> & ->)|[(P & Q)|(P & Q)]]; [auto|right; left; split; [right; assumption|assumption]|right; right; split; [right; assumption|assumption]].
Qed.
Lemma most_one : forall P l b b', first_most P l b -> first_most P l b' -> b' = b.
Proof.
  intros P l b b' (u & w & E & PB & U & W) (u' & w' & E' & PB' & U' & W'). rewrite E in E'. destruct (split_eq _ _ _ _ _ _ _ E') as [(_ & -> & _)|[(I1 & I2)|(I1 & I2)]]; [reflexivity| |].
  - specialize (U' _ I1 PB). specialize (W _ I2 PB'). lia.
  - specialize (U _ I1 PB'). specialize (W' _ I2 PB). lia.
Qed.
Lemma least_one : forall P l b b', first_least P l b -> first_least P l b' -> b' = b.
Proof.
  intros P l b b' (u & w & E & PB & U & W) (u' & w' & E' & PB' & U' & W'). rewrite E in E'. destruct (split_eq _ _ _ _ _ _ _ E') as [(_ & -> & _)|[(I1 & I2)|(I1 & I2)]]; [reflexivity| |].
  - specialize (U' _ I1 PB). specialize (W _ I2 PB'). lia.
  - specialize (U _ I1 PB'). specialize (W' _ I2 PB). lia.
Qed.
Lemma threshold_spec : forall bins least factor, (exists t, threshold bins least factor = Ok t /\ valley bins least factor t) \/ (threshold bins least factor = Raise ValueError /\ forall b, In b bins -> ~ atmost least (Some (fst b))).
Proof.
  intros bins least factor. unfold threshold. destruct (filter (fun b => upto least (Some (fst b))) bins) as [|b t] eqn:F.
  - right. split; [reflexivity|]. intros b I A. apply upto_iff in A. assert (Q : In b []) by (rewrite <- F; apply filter_In; auto). destruct Q.
  - left. destruct (top_spec t b) as (_ & T). specialize (T (fun _ => True) (fun _ _ => I)). rewrite <- F in T. assert (T' : first_most (fun x => atmost least (Some (fst x))) bins (top b t)) by (revert T; apply most_filter; intros x; apply upto_iff). set (m := top b t) in *.
    destruct (filter (fun b0 => upto least (Some (fst b0)) && upto (Some (fst b0)) (Some (fst m))) bins) as [|b2 t2] eqn:F2.
    + exfalso. destruct T' as (u & w & E & PM & _). assert (Q : In m []) by (rewrite <- F2; apply filter_In; split; [rewrite E; apply in_or_app; right; left; reflexivity|]; apply andb_true_iff; split; apply upto_iff; [assumption|exists (fst m), (fst m); repeat split; lra]). destruct Q.
    + eexists. split; [reflexivity|]. exists m, (low b2 t2). split; [assumption|]. split; [|apply prod_vmul]. destruct (low_spec t2 b2) as (_ & L). specialize (L (fun _ => True) (fun _ _ => I)). rewrite <- F2 in L. revert L. apply least_filter. intros x. rewrite andb_true_iff, !upto_iff. split; intros (A & B); (split; [assumption|]); [destruct B as (p & q & P & Q & B); injection P as ->; injection Q as ->; assumption|exists (fst x), (fst m); auto].
Qed.
Lemma valley_one : forall bins least factor t t', valley bins least factor t -> valley bins least factor t' -> t' = t.
Proof. intros bins least factor t t' (m & b & M & L & ->) (m' & b' & M' & L' & ->). rewrite (most_one _ _ _ _ M M') in L'. rewrite (least_one _ _ _ _ L L'). reflexivity. Qed.
Lemma threshold_iff : forall bins least factor t, threshold bins least factor = Ok t <-> valley bins least factor t.
Proof.
  intros bins least factor t. destruct (threshold_spec bins least factor) as [(t' & E & V)|(E & N)]; rewrite E; split.
  - intros Q. injection Q as <-. assumption.
  - intros V'. rewrite (valley_one _ _ _ _ _ V' V). reflexivity.
  - discriminate.
  - intros (m & b & (u & w & -> & PM & _) & _). destruct (N m); [apply in_or_app; right; left; reflexivity|assumption].
Qed.
Lemma threshold_fails : forall bins least factor e, threshold bins least factor = Raise e <-> (forall b, In b bins -> ~ atmost least (Some (fst b))) /\ e = ValueError.
Proof.
  intros bins least factor e. destruct (threshold_spec bins least factor) as [(t' & E & (m & b & (u & w & -> & PM & _) & _))|(E & N)]; rewrite E; split.
  - discriminate.
  - intros (N & _). destruct (N m); [apply in_or_app; right; left; reflexivity|assumption].
  - intros Q. injection Q as <-. auto.
  - intros (_ & ->). reflexivity.
Qed.

(** ** The mask *)
Lemma roi_or : forall g f, (inside_roi g f /\ roi_values f (g_row g) (g_col g) = Ok (map (value_of f) (cells (g_row g) (g_col g)))) \/ (~ inside_roi g f /\ roi_values f (g_row g) (g_col g) = Raise IndexError).
Proof.
  intros g f. unfold roi_values, inside_roi, empty. destruct (Nat.leb_spec (snd (g_row g)) (fst (g_row g))), (Nat.leb_spec (snd (g_col g)) (fst (g_col g))), (Nat.ltb_spec (rows f) (snd (g_row g))), (Nat.ltb_spec (cols f) (snd (g_col g))); cbn [orb]; try (right; split; [lia|reflexivity]). left. split; [lia|reflexivity].
Qed.
Lemma roi_cells : forall g f ps, inside_roi g f -> (sieve (lies_in (g_row g) (g_col g)) (places f) ps <-> ps = cells (g_row g) (g_col g)).
Proof. intros g f ps (_ & _ & A & B). rewrite cells_iff. rewrite !Nat.min_l by assumption. destruct (g_row g), (g_col g). reflexivity. Qed.
Lemma same_values : forall f g ps, (forall i j, pix g i j = pix f i j) -> map (value_of g) ps = map (value_of f) ps.
Proof. intros f g ps H. apply map_ext. intros p. apply H. Qed.
Lemma lit_iff : forall f t i j, lit f t i j = true <-> ~ less (pix f i j) t.
Proof. intros f t i j. unfold lit. rewrite negb_true_iff. apply under_no. Qed.
Section Masks.
  Variable hist : list val -> num -> result (list (R * nat)).
  Lemma named_all : forall d k, all_named d -> all_numeric d -> named k -> exists v, d k = Some v /\ setting d k = v /\ counts_as v (worth v).
  Proof using. intros d k N M K. destruct (N k K) as (v & E). exists v. split; [assumption|]. unfold setting. rewrite E. split; [reflexivity|]. apply as_worth. apply num_iff. eapply M; eassumption. Qed.
  Lemma mask_sound : forall d g l m, all_named d -> all_numeric d -> mask_of hist d g l = Ok m -> masked hist d g l m.
  Proof using.
    intros d g l m N M E. destruct (named_all d "num_bins" N M ltac:(cbn; tauto)) as (nb & E1 & S1 & W1). destruct (named_all d "min_bin" N M ltac:(cbn; tauto)) as (mb & E2 & S2 & W2). destruct (named_all d "min_mask_factor" N M ltac:(cbn; tauto)) as (fa & E3 & S3 & W3).
    unfold mask_of in E. rewrite S1, S2, S3 in E. destruct (mean_frame l) as [f|] eqn:EM; cbn [bind] in E; [|discriminate]. destruct (roi_or g f) as [(I1 & ER)|(_ & ER)]; rewrite ER in E; cbn [bind] in E; [|discriminate]. destruct (hist _ nb) as [bins|] eqn:EH; cbn [bind] in E; [|discriminate]. destruct (threshold bins (worth mb) (worth fa)) as [t|] eqn:ET; cbn [bind] in E; [|discriminate]. injection E as <-.
    exists f, (cells (g_row g) (g_col g)), nb, mb, fa, (worth mb), (worth fa), bins, t. split; [apply mean_iff; assumption|]. split; [assumption|]. split; [apply roi_cells; [assumption|reflexivity]|]. split; [auto|]. split; [assumption|]. split; [assumption|]. split; [assumption|]. split; [apply threshold_iff; assumption|]. intros i j. apply lit_iff.
  Qed.
  Lemma mask_complete : forall d g l m, masked hist d g l m -> exists m', mask_of hist d g l = Ok m' /\ forall i j, m' i j = m i j.
  Proof using.
    intros d g l m (f & ps & nb & mb & fa & vb & vf & bins & t & MI & IR & SV & (E1 & E2 & E3) & C1 & C2 & EH & V & L). destruct (mean_one _ _ MI) as (f' & EM & RR & CC & PP). unfold mask_of, setting. rewrite EM, E1, E2, E3. cbn [bind]. assert (IR' : inside_roi g f') by (unfold inside_roi in *; rewrite RR, CC; assumption). destruct (roi_or g f') as [(_ & ER)|(X & _)]; [|contradiction]. rewrite ER. cbn [bind]. apply (roi_cells g f ps IR) in SV. subst ps. rewrite (same_values f f' _ PP), EH. cbn [bind]. rewrite (worth_as _ _ C1), (worth_as _ _ C2). apply threshold_iff in V. rewrite V. cbn [bind]. eexists. split; [reflexivity|]. intros i j. apply Bool.eq_true_iff_eq. rewrite lit_iff, L, PP. reflexivity.
  Qed.
  Lemma mask_fails : forall d g l e, all_named d -> all_numeric d -> (mask_of hist d g l = Raise e <-> unmasked hist d g l e).
  Proof using.
    intros d g l e N M. destruct (named_all d "num_bins" N M ltac:(cbn; tauto)) as (nb & E1 & S1 & W1). destruct (named_all d "min_bin" N M ltac:(cbn; tauto)) as (mb & E2 & S2 & W2). destruct (named_all d "min_mask_factor" N M ltac:(cbn; tauto)) as (fa & E3 & S3 & W3).
    unfold mask_of, unmasked. rewrite S1, S2, S3. destruct l as [|f0 l].
    { cbn [mean_frame bind]. split; [intros Q; injection Q as <-; auto|]. intros [(_ & ->)|(f & (g0 & t & Q & _) & _)]; [reflexivity|discriminate]. }
    destruct (mean_frame (f0 :: l)) as [f|] eqn:EM; [|discriminate]. cbn [bind]. pose proof (mean_iff _ _ EM) as MI. destruct (roi_or g f) as [(I1 & ER)|(I1 & ER)]; rewrite ER; cbn [bind].
    - assert (X : forall f', mean_image (f0 :: l) f' -> inside_roi g f' /\ map (value_of f') (cells (g_row g) (g_col g)) = map (value_of f) (cells (g_row g) (g_col g))).
      { intros f' MI'. destruct (mean_one _ _ MI') as (f2 & EM2 & RR & CC & PP). rewrite EM in EM2. injection EM2 as <-. split; [unfold inside_roi in *; rewrite <- RR, <- CC; assumption|]. symmetry. apply same_values. assumption. }
      destruct (hist _ nb) as [bins|e'] eqn:EH; cbn [bind].
      + destruct (threshold bins (worth mb) (worth fa)) as [t|e'] eqn:ET; cbn [bind].
        * split; [discriminate|]. intros [(Q & _)|(f' & MI' & [(Q & _)|(_ & ps & nb' & SV & Q1 & H)])]; [discriminate|destruct (X f' MI'); contradiction|]. destruct (X f' MI') as (I2 & EV). apply (roi_cells g f' ps I2) in SV. subst ps. rewrite E1 in Q1. injection Q1 as <-. rewrite EV, EH in H. destruct H as [H|(bins' & mb' & vb & Q2 & Q3 & W & NB & _)]; [discriminate|]. injection Q2 as <-. rewrite E2 in Q3. injection Q3 as <-. exfalso. rewrite (worth_as _ _ W) in ET. assert (TF : threshold bins vb (worth fa) = Raise ValueError) by (apply threshold_fails; auto). congruence.
        * apply threshold_fails in ET. destruct ET as (NB & ->). split.
          -- intros Q. injection Q as <-. right. exists f. split; [assumption|]. right. split; [assumption|]. exists (cells (g_row g) (g_col g)), nb. split; [apply roi_cells; [assumption|reflexivity]|]. split; [assumption|]. right. exists bins, mb, (worth mb). auto 10.
          -- intros [(Q & _)|(f' & MI' & [(Q & _)|(_ & ps & nb' & SV & Q1 & H)])]; [discriminate|destruct (X f' MI'); contradiction|]. destruct (X f' MI') as (I2 & EV). apply (roi_cells g f' ps I2) in SV. subst ps. rewrite E1 in Q1. injection Q1 as <-. rewrite EV, EH in H. destruct H as [H|(bins' & mb' & vb & Q2 & Q3 & W & _ & ->)]; [discriminate|reflexivity].
      + split.
        * intros Q. injection Q as <-. right. exists f. split; [assumption|]. right. split; [assumption|]. exists (cells (g_row g) (g_col g)), nb. split; [apply roi_cells; [assumption|reflexivity]|]. split; [assumption|]. left. assumption.
        * intros [(Q & _)|(f' & MI' & [(Q & _)|(_ & ps & nb' & SV & Q1 & H)])]; [discriminate|destruct (X f' MI'); contradiction|]. destruct (X f' MI') as (I2 & EV). apply (roi_cells g f' ps I2) in SV. subst ps. rewrite E1 in Q1. injection Q1 as <-. rewrite EV, EH in H. destruct H as [H|(bins' & mb' & vb & Q2 & _)]; [injection H as ->; reflexivity|discriminate].
    - split; [intros Q; injection Q as <-; right; exists f; auto|]. intros [(Q & _)|(f' & MI' & H)]; [discriminate|]. destruct (mean_one _ _ MI') as (f2 & EM2 & RR & CC & PP). rewrite EM in EM2. injection EM2 as <-. destruct H as [(_ & ->)|(I2 & _)]; [reflexivity|]. exfalso. apply I1. unfold inside_roi in *. rewrite RR, CC. assumption.
  Qed.
End Masks.

(** ** The signal of a frame *)
Lemma patch_iff : forall f r c v, patch f r c = Ok v <-> (~ empty r /\ ~ empty c) /\ region_mean f r c v.
Proof.
  intros f r c v. unfold patch, region_mean, empty. destruct (Nat.leb_spec (snd r) (fst r)), (Nat.leb_spec (snd c) (fst c)); cbn [orb]; try (split; [discriminate|intros ((A & B) & _); lia]). split.
  - intros Q. injection Q as <-. split; [lia|]. eexists. split; [apply cells_iff; reflexivity|]. apply average_iff. reflexivity.
  - intros (_ & ps & SV & A). apply cells_iff in SV. apply average_iff in A. subst. reflexivity.
Qed.
Lemma patch_fails : forall f r c e, patch f r c = Raise e <-> (empty r \/ empty c) /\ e = IndexError.
Proof. intros f r c e. unfold patch, empty. destruct (Nat.leb_spec (snd r) (fst r)), (Nat.leb_spec (snd c) (fst c)); cbn [orb]; split; try discriminate; try (intros Q; injection Q as <-; split; [lia|reflexivity]); intros (A & ->); try reflexivity. lia. Qed.
Lemma positive_pixels : forall (m : nat -> nat -> bool) f b l, positives (map (fun p => vmul (vsub (pix f (fst p) (snd p)) b) (Some (if m (fst p) (snd p) then 1 else 0))) l) =
  map (fun p => minus (value_of f p) b) (filter (fun p => m (fst p) (snd p) && under b (value_of f p)) l).
Proof.
  intros m f b l. unfold positives. induction l as [|p l IH]; [reflexivity|]. cbn [map filter]. rewrite IH. assert (EV : value_of f p = pix f (fst p) (snd p)) by reflexivity. rewrite EV. destruct (pix f (fst p) (snd p)) as [x|] eqn:EX, b as [y|], (m (fst p) (snd p)); cbn [vsub vmul under andb]; try reflexivity.
  - destruct (Rlt_dec 0 ((x - y) * 1)), (Rlt_dec y x); try lra; [|reflexivity]. cbn [map]. rewrite EV. cbn [minus]. do 2 f_equal. ring.
  - destruct (Rlt_dec 0 ((x - y) * 0)); [lra|]. reflexivity.
Qed.
Lemma signal_iff : forall m r1 c1 r2 c2 f v, signal m r1 c1 r2 c2 f = Ok v <-> ~ some_empty r1 c1 r2 c2 /\ lit_signal m r1 c1 r2 c2 f v.
Proof.
  intros m r1 c1 r2 c2 f v. unfold signal, lit_signal, some_empty. destruct (patch f r1 c1) as [b1|e] eqn:P1; cbn [bind].
  2: { apply patch_fails in P1. destruct P1 as (P1 & _). split; [discriminate|]. tauto. }
  destruct (patch f r2 c2) as [b2|e] eqn:P2; cbn [bind].
  2: { apply patch_fails in P2. destruct P2 as (P2 & _). split; [discriminate|]. tauto. }
  pose proof P1 as P1'. pose proof P2 as P2'. apply patch_iff in P1. apply patch_iff in P2. destruct P1 as ((A1 & B1) & M1), P2 as ((A2 & B2) & M2). rewrite positive_pixels. set (b := vdiv (vadd b1 b2) (Some 2)).
  assert (EB : b = quot (plus b1 b2) (Some 2)) by (unfold b; rewrite quot_vdiv; reflexivity).
  assert (SV : forall ps, sieve (fun p => m (fst p) (snd p) = true /\ less b (value_of f p)) (places f) ps <-> ps = filter (fun p => m (fst p) (snd p) && under b (value_of f p)) (spots f)) by (intros ps; apply sieve_filter; intros p; rewrite andb_true_iff, under_iff; reflexivity).
  set (qs := filter (fun p => m (fst p) (snd p) && under b (value_of f p)) (spots f)) in *. split.
  - intros Q. split; [tauto|]. exists b1, b2, b, qs. split; [assumption|]. split; [assumption|]. split; [assumption|]. split; [apply SV; reflexivity|]. destruct qs as [|q qs]; cbn [map] in Q; injection Q as <-; [left; auto|right]. split; [discriminate|]. apply average_iff. reflexivity.
  - intros (_ & b1' & b2' & b' & ps & N1 & N2 & EB' & SV' & H). assert (X1 : Ok b1' = Ok b1) by (rewrite <- P1'; symmetry; apply patch_iff; auto). assert (X2 : Ok b2' = Ok b2) by (rewrite <- P2'; symmetry; apply patch_iff; auto). injection X1 as ->. injection X2 as ->. rewrite <- EB in EB'. subst b'. apply SV in SV'. subst ps. destruct H as [(E & ->)|(NE & A)]; [rewrite E; reflexivity|]. apply average_iff in A. subst v. destruct qs as [|q qs]; [contradiction|reflexivity].
Qed.
Lemma signal_fails : forall m r1 c1 r2 c2 f e, signal m r1 c1 r2 c2 f = Raise e <-> some_empty r1 c1 r2 c2 /\ e = IndexError.
Proof.
  intros m r1 c1 r2 c2 f e. unfold signal, some_empty. destruct (patch f r1 c1) as [b1|e1] eqn:P1; cbn [bind].
  2: { apply patch_fails in P1. destruct P1 as (P1 & ->). split; [intros Q; injection Q as <-; tauto|]. intros (_ & ->). reflexivity. }
  destruct (patch f r2 c2) as [b2|e2] eqn:P2; cbn [bind].
  2: { apply patch_fails in P2. destruct P2 as (P2 & ->). split; [intros Q; injection Q as <-; tauto|]. intros (_ & ->). reflexivity. }
  apply patch_iff in P1. apply patch_iff in P2. split; [destruct (positives _); discriminate|]. tauto.
Qed.
