(** Proofs about calibration stacks: grouping and nonlin_dataset_2_stack. *)
From Coq Require Import List Arith Bool QArith String Sorted Lia Lqa.
From Verif Require Import Base CosmicModel CosmicSpec DqModel DqProofs StackModel StackSpec.
Import ListNotations.
Local Open Scope list_scope.
Local Open Scope nat_scope.

(** * Distinct sorted values *)
Lemma Qle_bool_false : forall a b, Qle_bool a b = false <-> (b < a)%Q.
Proof.
  intros a b. split; intros H.
  - apply Qnot_le_lt. intros L. apply Qle_bool_iff in L. rewrite L in H. discriminate.
  - destruct (Qle_bool a b) eqn:E; [apply Qle_bool_iff in E; exfalso; Lqa.lra|reflexivity].
Qed.
Lemma Qeq_bool_false : forall a b, Qeq_bool a b = false <-> ~ (a == b)%Q.
Proof.
  intros a b. split; intros H.
  - intros E. apply Qeq_bool_iff in E. rewrite E in H. discriminate.
  - destruct (Qeq_bool a b) eqn:E; [apply Qeq_bool_iff in E; contradiction|reflexivity].
Qed.

Definition inq (q : Q) (l : list Q) : Prop := exists k, In k l /\ (k == q)%Q.
Lemma qinsert_in : forall x l q, inq q (qinsert x l) <-> (x == q)%Q \/ inq q l.
Proof.
  intros x l q. induction l as [|y t IH]; cbn [qinsert].
  - split; [intros (k & [<-|[]] & E); left; exact E|intros [E|(k & [] & _)]; exists x; split; [left; reflexivity|exact E]].
  - destruct (Qeq_bool x y) eqn:E1; [|destruct (Qle_bool x y) eqn:E2].
    + apply Qeq_bool_iff in E1. split; [intros H; right; exact H|intros [H|H]; [|exact H]]. exists y. split; [left; reflexivity|]. rewrite <- E1. exact H.
    + split.
      * intros (k & [<-|I] & E); [left; exact E|right; exists k; split; assumption].
      * intros [H|(k & I & E)]; [exists x; split; [left; reflexivity|exact H]|exists k; split; [right; exact I|exact E]].
    + split.
      * intros (k & [<-|I] & E); [right; exists y; split; [left; reflexivity|exact E]|].
        destruct (proj1 IH (ex_intro _ k (conj I E))) as [H|(k' & I' & E')]; [left; exact H|right; exists k'; split; [right; exact I'|exact E']].
      * intros [H|(k & [<-|I] & E)].
        -- destruct (proj2 IH (or_introl H)) as (k' & I' & E'). exists k'. split; [right; exact I'|exact E'].
        -- exists y. split; [left; reflexivity|exact E].
        -- destruct (proj2 IH (or_intror (ex_intro _ k (conj I E)))) as (k' & I' & E'). exists k'. split; [right; exact I'|exact E'].
Qed.
Lemma qinsert_sorted : forall x l, StronglySorted Qlt l -> StronglySorted Qlt (qinsert x l).
Proof.
  intros x l H. induction H as [|y t St IH F]; cbn [qinsert]; [repeat constructor|].
  destruct (Qeq_bool x y) eqn:E1; [constructor; assumption|]. apply Qeq_bool_false in E1. destruct (Qle_bool x y) eqn:E2.
  - apply Qle_bool_iff in E2. assert (L : (x < y)%Q) by (apply Qle_lteq in E2; destruct E2; [assumption|contradiction]).
    constructor; [constructor; assumption|]. constructor; [exact L|]. apply Forall_forall. intros z I. assert (G := proj1 (Forall_forall _ _) F z I). cbn in G. Lqa.lra.
  - apply Qle_bool_false in E2. constructor; [exact IH|]. apply Forall_forall. intros z I.
    destruct (proj1 (qinsert_in x t z)) as [H|(k & Ik & Ek)]; [exists z; split; [exact I|reflexivity]|Lqa.lra|].
    assert (G := proj1 (Forall_forall _ _) F k Ik). cbn in G. Lqa.lra.
Qed.
Lemma quniq_sorted : forall l, StronglySorted Qlt (quniq l).
Proof. induction l as [|x t IH]; [constructor|]. cbn. apply qinsert_sorted. exact IH. Qed.
Lemma quniq_in : forall l q, inq q (quniq l) <-> inq q l.
Proof.
  intros l q. induction l as [|x t IH]; [reflexivity|]. cbn [quniq fold_right]. rewrite qinsert_in. fold (quniq t). rewrite IH. split.
  - intros [H|(k & I & E)]; [exists x; split; [left; reflexivity|exact H]|exists k; split; [right; exact I|exact E]].
  - intros (k & [<-|I] & E); [left; exact E|right; exists k; split; assumption].
Qed.

Lemma sorted_unique : forall l m, StronglySorted Qlt l -> StronglySorted Qlt m -> (forall q, inq q l <-> inq q m) -> Forall2 Qeq l m.
Proof.
  intros l. induction l as [|x t IH]; intros m Hl Hm E.
  - destruct m as [|y u]; [constructor|]. destruct (proj2 (E y)) as (k & [] & _). exists y. split; [left; reflexivity|reflexivity].
  - destruct m as [|y u]; [destruct (proj1 (E x)) as (k & [] & _); exists x; split; [left; reflexivity|reflexivity]|].
    inversion Hl as [|x' t' St Fx]; subst. inversion Hm as [|y' u' Su Fy]; subst.
    assert (LE : forall a l0 b, Forall (Qlt a) l0 -> inq b (a :: l0) -> (a <= b)%Q).
    { intros a l0 b F (k & [<-|I] & Ek); [Lqa.lra|]. assert (G := proj1 (Forall_forall _ _) F k I). cbn in G. Lqa.lra. }
    assert (XY : (x == y)%Q).
    { assert (H1 := LE y u x Fy (proj1 (E x) (ex_intro _ x (conj (or_introl eq_refl) (Qeq_refl x))))).
      assert (H2 := LE x t y Fx (proj2 (E y) (ex_intro _ y (conj (or_introl eq_refl) (Qeq_refl y))))). Lqa.lra. }
    constructor; [exact XY|]. apply IH; [exact St|exact Su|]. intros q. split; intros (k & I & Ek).
    + destruct (proj1 (E q)) as (k' & [<-|I'] & E'); [exists k; split; [right; exact I|exact Ek]| |exists k'; split; assumption].
      assert (G := proj1 (Forall_forall _ _) Fx k I). cbn in G. exfalso. Lqa.lra.
    + destruct (proj2 (E q)) as (k' & [<-|I'] & E'); [exists k; split; [right; exact I|exact Ek]| |exists k'; split; assumption].
      assert (G := proj1 (Forall_forall _ _) Fy k I). cbn in G. exfalso. Lqa.lra.
Qed.

(** * Groups *)
Section Groups.
Context {F : Type} (key : F -> option Q).
Definition pick (u : Q) (f : F) : bool := match key f with Some q => Qeq_bool q u | None => false end.

Lemma mapR_key : forall fs ks, mapR (fun f => getkey (key f)) fs = Ok ks <-> Forall2 (fun f k => key f = Some k) fs ks.
Proof.
  induction fs as [|f t IH]; intros ks; cbn [mapR].
  - split; [intros E; injection E as <-; constructor|intros H; inversion H; reflexivity].
  - destruct (key f) as [k|] eqn:Ek; cbn [getkey bind].
    + destruct (mapR _ t) as [r|e] eqn:Er; cbn [bind].
      * split; [intros E; injection E as <-; constructor; [exact Ek|apply IH; reflexivity]|].
        intros H. inversion H as [|f' k' t' ks' E1 E2]; subst. apply IH in E2. injection E2 as ->. rewrite Ek in E1. injection E1 as ->. reflexivity.
      * split; [discriminate|]. intros H. inversion H as [|f' k' t' ks' E1 E2]; subst. apply IH in E2. discriminate.
    + split; [discriminate|]. intros H. inversion H; subst. congruence.
Qed.

Lemma qgroups_fwd : forall fs ks gs, qgroups key fs = Ok (ks, gs) -> grouped key fs ks gs.
Proof.
  intros fs ks gs H. unfold qgroups in H. destruct (mapR _ fs) as [qs|] eqn:E; cbn [bind] in H; [|discriminate]. injection H as <- <-.
  apply mapR_key in E. split; [apply quniq_sorted|].
  assert (IN : forall f, In f fs -> exists q, key f = Some q /\ In q qs).
  { clear - E. induction E as [|f q t u H E IH]; [intros f []|]. intros g [<-|I]; [exists q; split; [exact H|left; reflexivity]|].
    destruct (IH g I) as (q' & Hq & Iq). exists q'. split; [exact Hq|right; exact Iq]. }
  assert (NI : forall q, In q qs -> exists f, In f fs /\ key f = Some q).
  { clear - E. induction E as [|f q t u H E IH]; [intros q []|]. intros g [<-|I]; [exists f; split; [left; reflexivity|exact H]|].
    destruct (IH g I) as (f' & If & Hf). exists f'. split; [right; exact If|exact Hf]. }
  split.
  - intros f I. destruct (IN f I) as (q & Hq & Iq). exists q. split; [exact Hq|]. apply (proj2 (quniq_in qs q)). exists q. split; [exact Iq|reflexivity].
  - assert (FA : Forall (fun u => inq u qs) (quniq qs)).
    { apply Forall_forall. intros u I. apply (proj1 (quniq_in qs u)). exists u. split; [exact I|reflexivity]. }
    induction FA as [|u us Hu FA IH]; [constructor|]. cbn [map]. constructor; [|exact IH]. split; [|reflexivity].
    destruct Hu as (q & Iq & Eq). destruct (NI q Iq) as (f & If & Hf). intros N.
    assert (I2 : In f (filter (pick u) fs)) by (apply filter_In; split; [exact If|unfold pick; rewrite Hf; apply Qeq_bool_iff; exact Eq]).
    unfold pick in I2. rewrite N in I2. exact I2.
Qed.
Lemma qgroups_total : forall fs, (forall f, In f fs -> exists q, key f = Some q) -> exists r, qgroups key fs = Ok r.
Proof.
  intros fs H. destruct (mapR_total (fun f => getkey (key f)) fs) as [r E].
  - intros f I. destruct (H f I) as [q Hq]. exists q. rewrite Hq. reflexivity.
  - unfold qgroups. rewrite E. cbn. eexists. reflexivity.
Qed.
Lemma Qeq_bool_ext : forall a b c, (b == c)%Q -> Qeq_bool a b = Qeq_bool a c.
Proof. intros a b c H. destruct (Qeq_bool a b) eqn:E1, (Qeq_bool a c) eqn:E2; try reflexivity; exfalso; rewrite ?Qeq_bool_iff, ?Qeq_bool_false in *; Lqa.lra. Qed.
Lemma grouped_unique : forall fs ks gs ks' gs', grouped key fs ks gs -> grouped key fs ks' gs' -> Forall2 Qeq ks ks' /\ gs = gs'.
Proof.
  intros fs ks gs ks' gs' (S1 & I1 & G1) (S2 & I2 & G2).
  assert (NI : forall ks gs, Forall2 (fun k g => g <> [] /\ g = filter (pick k) fs) ks gs -> forall k, In k ks -> exists f q, In f fs /\ key f = Some q /\ (q == k)%Q).
  { clear. intros ks gs G. induction G as [|k g ks gs [N E] G IH]; [intros k []|]. intros k' [<-|I]; [|exact (IH k' I)].
    destruct g as [|f t]; [contradiction|]. assert (If : In f (filter (pick k) fs)) by (rewrite <- E; left; reflexivity).
    apply filter_In in If. destruct If as [If P]. unfold pick in P. destruct (key f) as [q|] eqn:Ek; [|discriminate]. exists f, q. split; [exact If|]. split; [exact Ek|].
    apply Qeq_bool_iff. exact P. }
  assert (SUB : forall ks gs ks' gs', Forall2 (fun k g => g <> [] /\ g = filter (pick k) fs) ks gs ->
     (forall f, In f fs -> exists q, key f = Some q /\ inq q ks') -> Forall2 (fun k g => g <> [] /\ g = filter (pick k) fs) ks' gs' -> forall q, inq q ks -> inq q ks').
  { intros k1 g1 k2 g2 G HI _ q (k & I & E). destruct (NI _ _ G k I) as (f & q' & If & Hf & Eq). destruct (HI f If) as (q'' & Hq & k'' & Ik & Ek).
    rewrite Hf in Hq. injection Hq as <-. exists k''. split; [exact Ik|]. Lqa.lra. }
  assert (FE : Forall2 Qeq ks ks').
  { apply sorted_unique; [exact S1|exact S2|]. intros q. split; [exact (SUB _ _ _ _ G1 I2 G2 q)|exact (SUB _ _ _ _ G2 I1 G1 q)]. }
  split; [exact FE|]. clear - G1 G2 FE. revert gs gs' G1 G2. induction FE as [|k k' ks ks' E FE IH]; intros gs gs' G1 G2.
  - inversion G1; inversion G2; reflexivity.
  - inversion G1 as [|? g ? gs1 [_ E1] G1']; inversion G2 as [|? g' ? gs2 [_ E2] G2']; subst. f_equal; [|exact (IH gs1 gs2 G1' G2')].
    apply filter_ext. intros f. destruct (key f) as [q|]; [|reflexivity]. apply Qeq_bool_ext. exact E.
Qed.
Lemma grouped_in : forall fs ks gs f, grouped key fs ks gs -> In f (List.concat gs) <-> In f fs.
Proof.
  intros fs ks gs f (_ & HI & G). split.
  - intros I. apply in_concat in I. destruct I as (g & Ig & If). clear HI. induction G as [|k g' ks gs [_ E] G IH]; [contradiction|].
    destruct Ig as [->|Ig]; [|exact (IH Ig)]. rewrite E in If. apply filter_In in If. exact (proj1 If).
  - intros I. destruct (HI f I) as (q & Hq & k & Ik & Ek). apply in_concat. clear HI. induction G as [|k' g ks gs [_ E] G IH]; [contradiction|].
    destruct Ik as [->|Ik].
    + exists g. split; [left; reflexivity|]. rewrite E. apply filter_In. split; [exact I|]. rewrite Hq. apply Qeq_bool_iff. symmetry. exact Ek.
    + destruct (IH Ik) as (g2 & I2 & J2). exists g2. split; [right; exact I2|exact J2].
Qed.
End Groups.

(** * Loops *)
Lemma foldR_app : forall S F (step : S -> F -> result S) l m s, foldR step s (l ++ m) = (do s' <- foldR step s l; foldR step s' m).
Proof. intros S F step. induction l as [|x t IH]; intros m s; [reflexivity|]. cbn. destruct (step s x); cbn; [apply IH|reflexivity]. Qed.

Lemma filter_concat : forall A (p : A -> bool) ls, filter p (List.concat ls) = List.concat (map (filter p) ls).
Proof. intros A p. induction ls as [|l t IH]; [reflexivity|]. cbn. rewrite filter_app, IH. reflexivity. Qed.

Section Frames.
Context {A : Type}.
Notation sframe := (sframe A).

Inductive recf : bool -> list sframe -> list Q -> bool -> Prop :=
| rf_off : forall l, recf false l [] false
| rf_nil : recf true [] [] true
| rf_meas : forall f t g l b, h_gm (sf_h f) = Some g -> recf true t l b -> recf true (f :: t) (g :: l) b
| rf_last : forall f t g, h_gm (sf_h f) = None -> gain_of (sf_h f) g -> recf true (f :: t) [g] false.

Lemma recf_recorded : forall l gl b, recf true l gl b -> recorded l gl.
Proof.
  intros l gl b H. remember true as x eqn:E. induction H; try discriminate; [constructor|constructor; [assumption|apply IHrecf; assumption]|constructor; assumption].
Qed.
Lemma recorded_recf : forall (l : list sframe) gl, recorded l gl -> exists b, recf true l gl b.
Proof.
  intros l gl H. induction H as [|f t g l E H [b IH]|f t g E G]; [exists true; constructor|exists b; constructor; assumption|exists false; constructor; assumption].
Qed.
Lemma recorded_unique : forall (l : list sframe) gl gl', recorded l gl -> recorded l gl' -> gl = gl'.
Proof.
  intros l gl gl' H. revert gl'. induction H as [|f t g l E H IH|f t g E G]; intros gl' H'.
  - inversion H'. reflexivity.
  - inversion H' as [|f' t' g' l' E' H2|f' t' g' E' G']; subst; [|congruence]. rewrite E in E'. injection E' as ->. f_equal. apply IH. exact H2.
  - inversion H' as [|f' t' g' l' E' H2|f' t' g' E' G']; subst; [congruence|]. f_equal. exact (gain_of_unique _ _ _ G G').
Qed.

Lemma record_fwd : forall gains b (f : sframe) gains' b' , record gains b f = Ok (gains', b') ->
  exists gl, gains' = gains ++ gl /\ forall t gl' b'', recf b' t gl' b'' -> recf b (f :: t) (gl ++ gl') b''.
Proof.
  intros gains b f gains' b' H. unfold record in H. destruct b.
  - assert (E := em_gain_spec (sf_h f)). unfold em_gain in E. destruct (h_gm (sf_h f)) as [g|] eqn:Eg.
    + injection H as <- <-. exists [g]. split; [reflexivity|]. intros t gl' b'' R. constructor; assumption.
    + destruct (h_ga (sf_h f)) as [a|]; cbn [getkey bind] in *; [|discriminate]. destruct (negb (Qle_bool a 0)) eqn:N.
      * injection H as <- <-. exists [a]. split; [reflexivity|]. intros t gl' b'' R. inversion R; subst. constructor; assumption.
      * destruct (h_gc (sf_h f)) as [c|]; cbn [getkey bind] in *; [|discriminate]. injection H as <- <-. exists [c]. split; [reflexivity|].
        intros t gl' b'' R. inversion R; subst. constructor; assumption.
  - injection H as <- <-. exists []. split; [symmetry; apply app_nil_r|]. intros t gl' b'' R. inversion R; subst. constructor.
Qed.
Lemma record_total : forall gains b (f : sframe) t gl b2, recf b (f :: t) gl b2 -> exists gains' b' gl', record gains b f = Ok (gains', b') /\ recf b' t gl' b2.
Proof.
  intros gains b f t gl b2 R. unfold record. inversion R as [l0| |f0 t0 g l b0 E R'|f0 t0 g E G]; subst.
  - exists gains, false, []. split; [reflexivity|constructor].
  - rewrite E. exists (gains ++ [g]), true, l. split; [reflexivity|exact R'].
  - rewrite E. destruct G as [G|(_ & a & Ea & [[P ->]|[P Ec]])]; [congruence| |]; rewrite Ea; cbn [getkey bind].
    + rewrite (proj2 (Qle_bool_false a 0) P). cbn. exists (gains ++ [a]), false, []. split; [reflexivity|constructor].
    + rewrite (proj2 (Qle_bool_iff a 0) P). cbn [negb]. rewrite Ec. cbn. exists (gains ++ [g]), false, []. split; [reflexivity|constructor].
Qed.

Lemma time_of_iff : forall (f : sframe) t, time_of f = Ok t <-> has_time f t.
Proof.
  intros f t. unfold time_of, has_time. destruct (sf_t f) as [[b q]|]; cbn [getkey bind fst snd]; [|split; [discriminate|intros [E _]; discriminate]].
  destruct b; cbn [negb]; [|split; [discriminate|intros [E _]; discriminate]]. destruct (Qle_bool q 0) eqn:E.
  - apply Qle_bool_iff in E. split; [discriminate|]. intros [H P]. injection H as <-. exfalso. Lqa.lra.
  - apply Qle_bool_false in E. split; [intros H; injection H as <-; split; [reflexivity|exact E]|intros [H _]; injection H as <-; reflexivity].
Qed.
Lemma date_of_iff : forall (f : sframe) d, date_of f = Ok d <-> has_date f d.
Proof.
  intros f d. unfold date_of, has_date. destruct (sf_dt f) as [[s|]|]; cbn; split; intros H; try discriminate; injection H as <-; reflexivity.
Qed.

Definition isM := @obs_is A ["MNFRAME"%string].
Definition isC := @obs_is A ["KGAIN"%string; "NONLIN"%string].
Lemma isM_not_isC : forall f, isM f = true -> isC f = false.
Proof.
  intros f. unfold isM, isC, obs_is. destruct (sf_obs f) as [o|]; [|discriminate]. cbn. rewrite !orb_false_r. intros E. apply String.eqb_eq in E. subst o. reflexivity.
Qed.

Fixpoint times_ok (m : option Q) (l : list sframe) : Prop :=
  match l with
  | [] => True
  | f :: t => exists q, sf_time f = Some q /\ (match m with Some x => (q == x)%Q | None => True end)
               /\ times_ok (Some (match m with Some x => x | None => q end)) t
  end.
Definition nextrec (m : option Q) (l : list sframe) : option Q :=
  match m with Some _ => m | None => match l with [] => None | f :: _ => sf_time f end end.
Definition unit_gain (f : sframe) : Prop := exists c, h_gc (sf_h f) = Some c /\ (c == 1)%Q.
Lemma times_ok_app : forall l1 m l2, times_ok m (l1 ++ l2) <-> times_ok m l1 /\ times_ok (nextrec m l1) l2.
Proof.
  induction l1 as [|f t IH]; intros m l2; cbn [app times_ok].
  - unfold nextrec. destruct m; tauto.
  - split.
    + intros (q & E & H & T). apply IH in T. destruct T as [T1 T2]. split; [exists q; split; [exact E|split; assumption]|].
      unfold nextrec in *. destruct m; [exact T2|]. rewrite E. exact T2.
    + intros [(q & E & H & T1) T2]. exists q. split; [exact E|]. split; [exact H|]. apply IH. split; [exact T1|]. unfold nextrec in *. destruct m; [exact T2|]. rewrite E in T2. exact T2.
Qed.
Lemma nextrec_app : forall m l1 l2, times_ok m l1 -> nextrec m (l1 ++ l2) = nextrec (nextrec m l1) l2.
Proof.
  intros [x|] l1 l2 H; [reflexivity|]. destruct l1 as [|f t]; [reflexivity|]. cbn [app nextrec]. destruct H as (q & E & _). rewrite E. reflexivity.
Qed.
Lemma times_ok_iff : forall l, times_ok None l <-> exists m, forall f, In f l -> exists t, sf_time f = Some t /\ (t == m)%Q.
Proof.
  assert (SOME : forall l x, times_ok (Some x) l <-> forall f, In f l -> exists t, sf_time f = Some t /\ (t == x)%Q).
  { induction l as [|f t IH]; intros x; cbn [times_ok]; [split; [intros _ f []|tauto]|]. split.
    - intros (q & E & H & T) g [<-|I]; [exists q; split; assumption|exact (proj1 (IH x) T g I)].
    - intros H. destruct (H f (or_introl eq_refl)) as (q & E & Hq). exists q. split; [exact E|]. split; [exact Hq|]. apply IH. intros g I. exact (H g (or_intror I)). }
  intros l. destruct l as [|f t]; [split; [intros _; exists 0%Q; intros f []|intros _; exact I]|]. cbn [times_ok]. split.
  - intros (q & E & _ & T). exists q. intros g [<-|I]; [exists q; split; [exact E|reflexivity]|]. exact (proj1 (SOME t q) T g I).
  - intros [m H]. destruct (H f (or_introl eq_refl)) as (q & E & Hq). exists q. split; [exact E|]. split; [exact I|]. apply SOME. intros g J.
    destruct (H g (or_intror J)) as (t' & Et & Ht). exists t'. split; [exact Et|]. Lqa.lra.
Qed.

Lemma nl_frames_fwd : forall g (s s' : nst A), foldR nl_frame s g = Ok s' ->
  (forall f, In f g -> isM f = true \/ isC f = true) /\ times_ok (x_rec s) (means g) /\ (forall f, In f (means g) -> unit_gain f)
  /\ exists ts ds gl, Forall2 has_time (cals g) ts /\ Forall2 has_date (cals g) ds /\ recf (x_flag s) (cals g) gl (x_flag s')
     /\ x_cal s' = x_cal s /\ x_mean s' = x_mean s ++ map sf_px (means g) /\ x_rec s' = nextrec (x_rec s) (means g)
     /\ x_times s' = x_times s ++ ts /\ x_dts s' = x_dts s ++ ds /\ x_gains s' = x_gains s ++ gl /\ x_sub s' = x_sub s ++ map sf_px (cals g).
Proof.
  induction g as [|f t IH]; intros s s' H; cbn [foldR] in H.
  - injection H as <-. split; [intros f []|]. split; [exact I|]. split; [intros f []|]. exists [], [], []. cbn. rewrite !app_nil_r.
    split; [constructor|]. split; [constructor|]. split; [destruct (x_flag s); constructor|]. repeat (split; [reflexivity|]). split; [destruct (x_rec s); reflexivity|]. repeat (split; [reflexivity|]). reflexivity.
  - destruct (nl_frame s f) as [s1|] eqn:E; cbn [bind] in H; [|discriminate]. destruct (IH s1 s' H) as (K & T & U & ts & ds & gl & F1 & F2 & R & C1 & C2 & C3 & C4 & C5 & C6 & C7). clear IH H.
    unfold nl_frame in E. destruct (sf_obs f) as [obs|] eqn:Eo; cbn [getkey bind] in E; [|discriminate].
    assert (EM : isM f = String.eqb obs "MNFRAME") by (unfold isM, obs_is; rewrite Eo; cbn; rewrite orb_false_r; reflexivity).
    assert (EC : isC f = String.eqb obs "KGAIN" || String.eqb obs "NONLIN") by (unfold isC, obs_is; rewrite Eo; cbn; rewrite orb_false_r; reflexivity).
    rewrite <- EM in E. rewrite <- EC in E. destruct (isM f) eqn:Mf.
    + assert (Cf := isM_not_isC f Mf). destruct (sf_time f) as [q|] eqn:Et; cbn [getkey bind] in E; [|discriminate]. cbv zeta in E.
      destruct (negb (Qeq_bool q _)) eqn:Eq; [discriminate|]. apply negb_false_iff, Qeq_bool_iff in Eq.
      destruct (h_gc (sf_h f)) as [c|] eqn:Ec; cbn [getkey bind] in E; [|discriminate]. destruct (negb (Qeq_bool c 1)) eqn:E1; [discriminate|]. apply negb_false_iff, Qeq_bool_iff in E1.
      injection E as <-. cbn [x_cal x_mean x_rec x_times x_dts x_gains x_sub x_flag] in *.
      assert (Mt : means (f :: t) = f :: means t) by (unfold means; cbn; fold isM; rewrite Mf; reflexivity).
      assert (Ct : cals (f :: t) = cals t) by (unfold cals; cbn; fold isC; rewrite Cf; reflexivity). rewrite Mt, Ct.
      split; [intros g [<-|I]; [left; exact Mf|exact (K g I)]|]. split; [exists q; split; [exact Et|split; [destruct (x_rec s); [exact Eq|exact I]|exact T]]|].
      split; [intros g [<-|I]; [exists c; split; assumption|exact (U g I)]|]. exists ts, ds, gl. split; [exact F1|]. split; [exact F2|]. split; [exact R|].
      split; [exact C1|]. split; [rewrite C2, <- app_assoc; reflexivity|]. split; [rewrite C3; unfold nextrec; destruct (x_rec s); [reflexivity|symmetry; exact Et]|].
      repeat (split; [assumption|]). exact C7.
    + destruct (isC f) eqn:Cf; [|discriminate].
      destruct (time_of f) as [q|] eqn:Et; cbn [bind] in E; [|discriminate]. apply time_of_iff in Et.
      destruct (date_of f) as [d|] eqn:Ed; cbn [bind] in E; [|discriminate]. apply date_of_iff in Ed.
      destruct (record (x_gains s) (x_flag s) f) as [[gs b]|] eqn:Er; cbn [bind] in E; [|discriminate]. apply record_fwd in Er. destruct Er as (g1 & -> & RR).
      injection E as <-. cbn [x_cal x_mean x_rec x_times x_dts x_gains x_sub x_flag fst snd] in *.
      assert (Mt : means (f :: t) = means t) by (unfold means; cbn; fold isM; rewrite Mf; reflexivity).
      assert (Ct : cals (f :: t) = f :: cals t) by (unfold cals; cbn; fold isC; rewrite Cf; reflexivity). rewrite Mt, Ct.
      split; [intros g [<-|I]; [right; exact Cf|exact (K g I)]|]. split; [exact T|]. split; [exact U|].
      exists (q :: ts), (d :: ds), (g1 ++ gl). split; [constructor; assumption|]. split; [constructor; assumption|]. split; [exact (RR _ _ _ R)|].
      split; [exact C1|]. split; [exact C2|]. split; [exact C3|]. split; [rewrite C4, <- app_assoc; reflexivity|]. split; [rewrite C5, <- app_assoc; reflexivity|].
      split; [rewrite C6, <- app_assoc; reflexivity|]. rewrite C7, <- app_assoc. reflexivity.
Qed.
Lemma nl_frames_total : forall g (s : nst A), (forall f, In f g -> isM f = true \/ isC f = true) -> times_ok (x_rec s) (means g) -> (forall f, In f (means g) -> unit_gain f) ->
  (exists ts, Forall2 has_time (cals g) ts) -> (exists ds, Forall2 has_date (cals g) ds) -> (exists gl b, recf (x_flag s) (cals g) gl b) -> exists s', foldR nl_frame s g = Ok s'.
Proof.
  induction g as [|f t IH]; intros s K T U [ts F1] [ds F2] (gl & b & R); [exists s; reflexivity|]. cbn [foldR].
  assert (Kf := K f (or_introl eq_refl)). destruct (isM f) eqn:Mf.
  - assert (Cf := isM_not_isC f Mf).
    assert (Mt : means (f :: t) = f :: means t) by (unfold means; cbn; fold isM; rewrite Mf; reflexivity).
    assert (Ct : cals (f :: t) = cals t) by (unfold cals; cbn; fold isC; rewrite Cf; reflexivity). rewrite Mt in *. rewrite Ct in *.
    unfold nl_frame. unfold isM, obs_is in Mf. destruct (sf_obs f) as [o|] eqn:Eo; [|discriminate]. cbn in Mf. rewrite orb_false_r in Mf. cbn [getkey bind]. rewrite Mf.
    destruct T as (q & Et & Hq & T). rewrite Et. cbn [getkey bind]. cbv zeta.
    assert (E1 : Qeq_bool q match x_rec s with Some m => m | None => q end = true) by (apply Qeq_bool_iff; destruct (x_rec s); [exact Hq|reflexivity]).
    rewrite E1. cbn [negb]. destruct (U f (or_introl eq_refl)) as (c & Ec & Hc). rewrite Ec. cbn [getkey bind]. rewrite (proj2 (Qeq_bool_iff c 1) Hc). cbn [negb bind].
    apply IH; cbn [x_rec x_flag]; [intros g I; exact (K g (or_intror I))|exact T|intros g I; exact (U g (or_intror I))|exists ts; exact F1|exists ds; exact F2|exists gl, b; exact R].
  - destruct Kf as [Kf|Cf]; [discriminate|].
    assert (Mt : means (f :: t) = means t) by (unfold means; cbn; fold isM; rewrite Mf; reflexivity).
    assert (Ct : cals (f :: t) = f :: cals t) by (unfold cals; cbn; fold isC; rewrite Cf; reflexivity). rewrite Mt in *. rewrite Ct in *.
    inversion F1 as [|f1 q t1 ts' Hq F1']; subst. inversion F2 as [|f2 d t2 ds' Hd F2']; subst.
    destruct (record_total (x_gains s) _ _ _ _ _ R) as (gs & b' & gl' & Er & R').
    unfold nl_frame. unfold isM, isC, obs_is in Mf, Cf. destruct (sf_obs f) as [o|] eqn:Eo; [|discriminate]. cbn in Mf, Cf. rewrite orb_false_r in Mf, Cf. cbn [getkey bind]. rewrite Mf, Cf.
    rewrite (proj2 (time_of_iff f q) Hq). cbn [bind]. rewrite (proj2 (date_of_iff f d) Hd). cbn [bind]. rewrite Er. cbn [bind fst snd].
    apply IH; cbn [x_rec x_flag]; [intros g I; exact (K g (or_intror I))|exact T|exact U|exists ts'; exact F1'|exists ds'; exact F2'|exists gl', b; exact R'].
Qed.

(** ** Sets *)
Definition nonempty {X} (l : list X) : bool := negb (Nat.eqb (List.length l) 0).
Lemma Forall2_app2 : forall X Y (P : X -> Y -> Prop) a b c d, Forall2 P a b -> Forall2 P c d -> Forall2 P (a ++ c) (b ++ d).
Proof. intros. apply Forall2_app; assumption. Qed.

Lemma nl_sets_fwd : forall gs (s s' : nst A), foldR nl_set s gs = Ok s' ->
  (forall f, In f (List.concat gs) -> isM f = true \/ isC f = true) /\ times_ok (x_rec s) (List.concat (map means gs)) /\ (forall f, In f (List.concat (map means gs)) -> unit_gain f)
  /\ exists ts ds gl, Forall2 has_time (List.concat (map cals gs)) ts /\ Forall2 has_date (List.concat (map cals gs)) ds /\ Forall2 recorded (map cals gs) gl
     /\ x_cal s' = x_cal s ++ map (map sf_px) (filter nonempty (map cals gs)) /\ x_mean s' = x_mean s ++ map sf_px (List.concat (map means gs))
     /\ x_times s' = x_times s ++ ts /\ x_dts s' = x_dts s ++ ds /\ x_gains s' = x_gains s ++ List.concat gl.
Proof.
  induction gs as [|g t IH]; intros s s' H; cbn [foldR] in H.
  - injection H as <-. split; [intros f []|]. split; [exact I|]. split; [intros f []|]. exists [], [], []. cbn. rewrite !app_nil_r.
    repeat (split; [constructor|]). repeat (split; [reflexivity|]). reflexivity.
  - destruct (nl_set s g) as [s2|] eqn:E; cbn [bind] in H; [|discriminate]. destruct (IH s2 s' H) as (K & T & U & ts & ds & gl & F1 & F2 & R & C1 & C2 & C4 & C5 & C6). clear IH H.
    unfold nl_set in E. destruct (foldR nl_frame _ g) as [s1|] eqn:Ef; cbn [bind] in E; [|discriminate]. apply nl_frames_fwd in Ef.
    cbn [x_cal x_mean x_rec x_times x_dts x_gains x_sub x_flag] in Ef. destruct Ef as (K1 & T1 & U1 & ts1 & ds1 & gl1 & A1 & A2 & A3 & B1 & B2 & B3 & B4 & B5 & B6 & B7).
    assert (ES : x_cal s2 = x_cal s1 ++ map (map sf_px) (filter nonempty [cals g]) /\ x_mean s2 = x_mean s1 /\ x_rec s2 = x_rec s1 /\ x_times s2 = x_times s1 /\ x_dts s2 = x_dts s1 /\ x_gains s2 = x_gains s1).
    { injection E as <-. cbn [app] in B7. destruct (cals g) as [|c0 cs] eqn:Ecs; cbn [map] in B7; rewrite B7; cbn; rewrite ?app_nil_r; repeat (split; [reflexivity|]); reflexivity. }
    clear E. destruct ES as (D1 & D2 & D3 & D4 & D5 & D6). rewrite D3, B3 in T.
    cbn [map List.concat]. split; [intros f I; apply in_app_or in I; destruct I as [I|I]; [exact (K1 f I)|exact (K f I)]|].
    split; [apply times_ok_app; split; assumption|]. split; [intros f I; apply in_app_or in I; destruct I as [I|I]; [exact (U1 f I)|exact (U f I)]|].
    exists (ts1 ++ ts), (ds1 ++ ds), (gl1 :: gl). split; [apply Forall2_app; assumption|]. split; [apply Forall2_app; assumption|].
    split; [constructor; [exact (recf_recorded _ _ _ A3)|exact R]|].
    split; [rewrite C1, D1, B1; cbn [filter]; destruct (nonempty (cals g)); cbn; rewrite <- ?app_assoc; reflexivity|].
    split; [rewrite C2, D2, B2, map_app, <- app_assoc; reflexivity|]. split; [rewrite C4, D4, B4, <- app_assoc; reflexivity|].
    split; [rewrite C5, D5, B5, <- app_assoc; reflexivity|]. rewrite C6, D6, B6. cbn [List.concat]. rewrite <- app_assoc. reflexivity.
Qed.
Lemma Forall2_split : forall X Y (P : X -> Y -> Prop) a b c, Forall2 P (a ++ b) c -> (exists c1, Forall2 P a c1) /\ (exists c2, Forall2 P b c2).
Proof. intros X Y P a b c H. apply Forall2_app_inv_l in H. destruct H as (c1 & c2 & H1 & H2 & _). split; [exists c1; exact H1|exists c2; exact H2]. Qed.
Lemma nl_sets_total : forall gs (s : nst A), (forall f, In f (List.concat gs) -> isM f = true \/ isC f = true) -> times_ok (x_rec s) (List.concat (map means gs)) ->
  (forall f, In f (List.concat (map means gs)) -> unit_gain f) -> (exists ts, Forall2 has_time (List.concat (map cals gs)) ts) ->
  (exists ds, Forall2 has_date (List.concat (map cals gs)) ds) -> (exists gl, Forall2 recorded (map cals gs) gl) -> exists s', foldR nl_set s gs = Ok s'.
Proof.
  induction gs as [|g t IH]; intros s K T U [ts F1] [ds F2] (gl & R); [exists s; reflexivity|]. cbn [foldR]. cbn [map List.concat] in *.
  apply times_ok_app in T. destruct T as [T1 T2]. apply Forall2_split in F1. destruct F1 as [F1a F1b]. apply Forall2_split in F2. destruct F2 as [F2a F2b].
  inversion R as [|? ? ? ? R1 R2]; subst. destruct (recorded_recf _ _ R1) as [b Rb].
  destruct (nl_frames_total g (mkn (x_cal s) (x_mean s) (x_rec s) (x_times s) (x_dts s) (x_gains s) [] true)) as [s1 E1].
  - intros f I. apply K. apply in_or_app. left. exact I.
  - exact T1.
  - intros f I. apply U. apply in_or_app. left. exact I.
  - exact F1a.
  - exact F2a.
  - exists y, b. exact Rb.
  - unfold nl_set at 1. rewrite E1. cbn [bind]. assert (W := nl_frames_fwd _ _ _ E1). destruct W as (_ & _ & _ & ? & ? & ? & _ & _ & _ & _ & _ & B3 & _). cbn [x_rec] in B3.
    apply IH; [intros f I; apply K; apply in_or_app; right; exact I| |intros f I; apply U; apply in_or_app; right; exact I|exact F1b|exact F2b|exists l'; exact R2].
    destruct (x_sub s1); cbn [x_rec]; rewrite B3; exact T2.
Qed.
End Frames.

Lemma nodupb_iff : forall l, nodupb l = true <-> NoDup l.
Proof.
  induction l as [|x t IH]; cbn [nodupb]; [split; [constructor|reflexivity]|]. rewrite andb_true_iff, negb_true_iff, IH. split.
  - intros [E N]. constructor; [|exact N]. intros I. assert (T : existsb (String.eqb x) t = true) by (apply existsb_exists; exists x; split; [exact I|apply String.eqb_refl]). congruence.
  - intros H. inversion H as [|? ? N1 N2]; subst. split; [|exact N2]. destruct (existsb (String.eqb x) t) eqn:E; [|reflexivity].
    apply existsb_exists in E. destruct E as (y & I & E). apply String.eqb_eq in E. subst y. contradiction.
Qed.
Lemma below_one : forall l, existsb (fun q => negb (Qle_bool 1 q)) l = false <-> Forall (fun q => (1 <= q)%Q) l.
Proof.
  induction l as [|x t IH]; cbn [existsb]; [split; [constructor|reflexivity]|]. rewrite orb_false_iff, negb_false_iff, Qle_bool_iff, IH. split.
  - intros [H1 H2]. constructor; assumption.
  - intros H. inversion H; subst. split; assumption.
Qed.

Section Nonlin.
Context {A : Type}.
Notation sframe := (sframe A).

Lemma means_concat : forall gs : list (list sframe), List.concat (map means gs) = means (List.concat gs).
Proof. intros gs. symmetry. apply filter_concat. Qed.
Lemma cals_concat : forall gs : list (list sframe), List.concat (map cals gs) = cals (List.concat gs).
Proof. intros gs. symmetry. apply filter_concat. Qed.
Lemma in_filter_grouped : forall key (p : sframe -> bool) fs ks gs f, grouped key fs ks gs -> In f (filter p (List.concat gs)) <-> In f (filter p fs).
Proof. intros key p fs ks gs f G. rewrite !filter_In, (grouped_in key fs ks gs f G). reflexivity. Qed.
Lemma nonempty_in : forall X (l m : list X), (forall x, In x l <-> In x m) -> l <> [] -> m <> [].
Proof. intros X l m H N E. subst m. destruct l as [|x t]; [contradiction|]. exact (proj1 (H x) (or_introl eq_refl)). Qed.
Lemma concat_nonempty : forall X (ls : list (list X)), List.concat (filter nonempty ls) = List.concat ls.
Proof. intros X. induction ls as [|l t IH]; [reflexivity|]. cbn [filter List.concat]. destruct l; cbn; rewrite IH; reflexivity. Qed.

Lemma nl_fwd : forall (fs : list sframe) o, nonlin_dataset_2_stack fs = Ok o -> nl_result fs o.
Proof.
  intros fs o H. unfold nonlin_dataset_2_stack in H. destruct (qgroups _ fs) as [[ks gs]|] eqn:Eg; cbn [bind] in H; [|discriminate].
  apply qgroups_fwd in Eg. cbn [fst snd] in H. destruct (foldR nl_set n0 gs) as [s|] eqn:Es; cbn [bind] in H; [|discriminate].
  apply nl_sets_fwd in Es. cbn [n0 x_cal x_mean x_rec x_times x_dts x_gains x_sub x_flag app] in Es.
  destruct Es as (K & T & U & ts & ds & gl & F1 & F2 & R & C1 & C2 & C4 & C5 & C6).
  destruct (negb (nodupb (x_dts s))) eqn:En; [discriminate|]. apply negb_false_iff, nodupb_iff in En.
  destruct (x_cal s) as [|c0 cs] eqn:Ec; [discriminate|]. destruct (existsb _ ks) eqn:E1; [discriminate|]. apply below_one in E1.
  destruct (existsb _ (x_gains s)) eqn:E2; [discriminate|]. apply below_one in E2. destruct (x_mean s) as [|m0 ms] eqn:Em; [discriminate|].
  injection H as <-. exists ks, gs. cbn [o_cal o_mean o_times o_dts o_len o_gains]. split; [exact Eg|].
  split. { intros f I. destruct (K f (proj2 (grouped_in _ _ _ _ f Eg) I)) as [M|C]; [left|right]; apply filter_In; split; assumption. }
  assert (MI : forall f, In f (means fs) -> In f (List.concat (map means gs))).
  { intros f I. rewrite means_concat. apply (in_filter_grouped _ _ _ _ _ f Eg). exact I. }
  split. { apply times_ok_iff in T. destruct T as [m T]. exists m. intros f I. split; [exact (T f (MI f I))|exact (U f (MI f I))]. }
  split. { apply (nonempty_in _ (List.concat (map means gs))); [intros f; rewrite means_concat; apply (in_filter_grouped _ _ _ _ _ f Eg)|]. intros E. rewrite E in C2. discriminate. }
  split; [exact C2|].
  split. { apply (nonempty_in _ (List.concat (map cals gs))); [intros f; rewrite cals_concat; apply (in_filter_grouped _ _ _ _ _ f Eg)|]. intros E.
    rewrite <- (concat_nonempty _ (map cals gs)) in E. destruct (filter nonempty (map cals gs)) as [|l ls] eqn:El; [discriminate|]. 
    assert (I : In l (filter nonempty (map cals gs))) by (rewrite El; left; reflexivity). apply filter_In in I. destruct I as [_ I]. destruct l; [discriminate|discriminate]. }
  split. { transitivity (List.concat (c0 :: cs)); [reflexivity|]. rewrite C1, <- concat_map, concat_nonempty. reflexivity. }
  split; [rewrite C4; exact F1|]. rewrite C5 in En |- *. split; [exact F2|]. split; [exact En|].
  split. { transitivity (map (@List.length A) (c0 :: cs)); [reflexivity|]. rewrite C1, map_map. apply map_ext. intros l. apply map_length. }
  split; [exact E1|]. exists gl. split; [exact R|]. split; [exact C6|exact E2].
Qed.

Lemma nl_total : forall (fs : list sframe) o, nl_result fs o -> exists o', nonlin_dataset_2_stack fs = Ok o'.
Proof.
  intros fs o (ks0 & gs0 & G0 & K & (m & TM) & NM & _ & NC & EC & F1 & F2 & ND & _ & E1 & gl & R & EG & E2).
  destruct (qgroups_total (fun f : sframe => h_gc (sf_h f)) fs) as [[ks gs] Eg].
  { intros f I. destruct G0 as (_ & H & _). destruct (H f I) as (q & Hq & _). exists q. exact Hq. }
  assert (G := qgroups_fwd _ _ _ _ Eg). destruct (grouped_unique _ _ _ _ _ _ G0 G) as [FQ <-].
  unfold nonlin_dataset_2_stack. rewrite Eg. cbn [bind fst snd].
  assert (MI : forall f, In f (List.concat (map means gs0)) -> In f (means fs)).
  { intros f I. rewrite means_concat in I. apply (in_filter_grouped _ _ _ _ _ f G). exact I. }
  destruct (nl_sets_total gs0 n0) as [s Es].
  - intros f I. apply (grouped_in _ _ _ _ f G) in I. destruct (K f I) as [H|H]; apply filter_In in H; [left|right]; exact (proj2 H).
  - cbn [n0 x_rec]. apply times_ok_iff. exists m. intros f I. exact (proj1 (TM f (MI f I))).
  - intros f I. exact (proj2 (TM f (MI f I))).
  - exists (o_times o). exact F1.
  - exists (o_dts o). exact F2.
  - exists gl. exact R.
  - rewrite Es. cbn [bind]. apply nl_sets_fwd in Es. cbn [n0 x_cal x_mean x_rec x_times x_dts x_gains x_sub x_flag app] in Es.
    destruct Es as (_ & _ & _ & ts & ds & gl' & A1 & A2 & A3 & C1 & C2 & C4 & C5 & C6).
    assert (DS : ds = o_dts o).
    { clear - A2 F2. revert A2 F2. generalize (List.concat (map cals gs0)) as l. generalize (o_dts o) as d2. induction ds as [|d t IH]; intros d2 l A2 F2; inversion A2; subst; inversion F2; subst; [reflexivity|].
      unfold has_date in *. f_equal; [congruence|]. eapply IH; eassumption. }
    assert (GL : gl' = gl).
    { clear - A3 R. revert A3 R. generalize (map cals gs0) as l. revert gl. induction gl' as [|d t IH]; intros d2 l A2 F2; inversion A2; subst; inversion F2; subst; [reflexivity|].
      f_equal; [eapply recorded_unique; eassumption|]. eapply IH; eassumption. }
    rewrite C5, DS, (proj2 (nodupb_iff _) ND). cbn [negb]. rewrite C6, GL, <- EG.
    assert (E1' : Forall (fun k => (1 <= k)%Q) ks). { clear - FQ E1. induction FQ; [constructor|]. inversion E1; subst. constructor; [Lqa.lra|auto]. }
    rewrite (proj2 (below_one _) E1'), (proj2 (below_one _) E2).
    destruct (x_cal s) as [|c0 cs] eqn:Ec.
    + exfalso. apply NC. destruct (filter nonempty (map cals gs0)) as [|l ls] eqn:El; [|discriminate].
      assert (W : List.concat (map cals gs0) = []) by (rewrite <- concat_nonempty, El; reflexivity). rewrite cals_concat in W.
      destruct (cals fs) as [|f t] eqn:Ef; [reflexivity|]. assert (I : In f (cals (List.concat gs0))) by (apply (in_filter_grouped _ _ _ _ _ f G); unfold cals in Ef; rewrite Ef; left; reflexivity).
      rewrite W in I. contradiction.
    + destruct (x_mean s) as [|m0 ms] eqn:Em; [|eexists; reflexivity]. exfalso. apply NM. 
      destruct (means fs) as [|f t] eqn:Ef; [reflexivity|]. assert (I : In f (List.concat (map means gs0))).
      { rewrite means_concat. apply (in_filter_grouped _ _ _ _ _ f G). unfold means in Ef. rewrite Ef. left. reflexivity. }
      destruct (List.concat (map means gs0)); [contradiction|discriminate].
Qed.
Lemma Forall2_fun : forall X Y (P : X -> Y -> Prop) l m m', (forall x y y', P x y -> P x y' -> y = y') -> Forall2 P l m -> Forall2 P l m' -> m = m'.
Proof. intros X Y P l m m' H F. revert m'. induction F as [|x y l m Hxy F IH]; intros m' F'; inversion F'; subst; [reflexivity|]. f_equal; [eapply H; eassumption|apply IH; assumption]. Qed.
Lemma nl_fun : forall (fs : list sframe) o o', nl_result fs o -> nl_result fs o' -> o = o'.
Proof.
  intros fs [c m t d n g] [c' m' t' d' n' g'] (ks & gs & G & _ & _ & _ & H1 & _ & H2 & H3 & H4 & _ & H5 & _ & gl & H6 & H7 & _)
    (ks' & gs' & G' & _ & _ & _ & H1' & _ & H2' & H3' & H4' & _ & H5' & _ & gl' & H6' & H7' & _).
  destruct (grouped_unique _ _ _ _ _ _ G G') as [_ <-]. cbn [o_cal o_mean o_times o_dts o_len o_gains] in *.
  assert (gl = gl') by (apply (Forall2_fun _ _ recorded (map cals gs)); [exact recorded_unique|exact H6|exact H6']). subst gl'.
  assert (t = t') by (eapply Forall2_fun; [|exact H3|exact H3']; unfold has_time; intros x y y' [E _] [E' _]; congruence).
  assert (d = d') by (eapply Forall2_fun; [|exact H4|exact H4']; unfold has_date; congruence).
  subst. reflexivity.
Qed.
Lemma nl_iff : forall (fs : list sframe) o, nonlin_dataset_2_stack fs = Ok o <-> nl_result fs o.
Proof.
  intros fs o. split; [apply nl_fwd|]. intros H. destruct (nl_total fs o H) as [o' E]. rewrite E. f_equal. exact (nl_fun fs o' o (nl_fwd _ _ E) H).
Qed.
End Nonlin.
