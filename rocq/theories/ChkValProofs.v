(** Proofs: numbers and arrays. *)
From Coq Require Import List Arith Bool ZArith QArith String Lia.
From Verif Require Import ChkValModel ChkValSpec.
Import ListNotations.

(** ** Numbers *)
Lemma pyval_rec : forall P : pyval -> Prop, (forall v, (forall l, v <> PSeq l) -> P v) -> (forall l, Forall P l -> P (PSeq l)) -> forall v, P v.
Proof.
  intros P H1 H2. fix IH 1. intros v. destruct v as [ | | | | | | | | | | | | | | |l| ]; try (apply H1; intros l' Q; discriminate). apply H2. induction l as [|x l IHl]; constructor; [apply IH|exact IHl].
Qed.
Lemma float_le : forall x, f_le0 x = true <-> float_at x Below \/ float_at x Zero.
Proof.
  intros x. split.
  - destruct x as [q| | |]; cbn; intros E; try discriminate; [|left; constructor]. apply Qle_bool_iff in E. apply Qle_lteq in E. destruct E as [E|E]; [left|right]; constructor; assumption.
  - intros [H|H]; inversion H; subst; cbn; try reflexivity; apply Qle_bool_iff; [apply Qlt_le_weak; assumption|]. rewrite H0. apply Qle_refl.
Qed.
Lemma float_lt : forall x, f_lt0 x = true <-> float_at x Below.
Proof.
  intros x. split.
  - destruct x as [q| | |]; cbn; intros E; try discriminate; [|constructor]. apply negb_true_iff in E. constructor. apply Qnot_le_lt. intros L. apply Qle_bool_iff in L. congruence.
  - intros H; inversion H; subst; cbn; [|reflexivity]. apply negb_true_iff. destruct (Qle_bool 0 q) eqn:E; [|reflexivity]. apply Qle_bool_iff in E. apply Qle_not_lt in E. contradiction.
Qed.
Lemma float_some : forall x, exists p, float_at x p.
Proof.
  intros [q| | |]; [|eexists; constructor ..]. destruct (Qlt_le_dec q 0) as [L|L]; [eexists; constructor; exact L|]. apply Qle_lteq in L. destruct L as [L|L]; [eexists; apply at_above; exact L|]. exists Zero. constructor. symmetry. exact L.
Qed.
Lemma float_one : forall x p p', float_at x p -> float_at x p' -> p' = p.
Proof.
  assert (A : forall q, (q < 0)%Q -> (q == 0)%Q -> False) by (intros q L E; rewrite E in L; apply (Qlt_irrefl 0); assumption). assert (B : forall q, (0 < q)%Q -> (q == 0)%Q -> False) by (intros q L E; rewrite E in L; apply (Qlt_irrefl 0); assumption). assert (C : forall q, (q < 0)%Q -> (0 < q)%Q -> False) by (intros q L M; apply (Qlt_irrefl 0); apply (Qlt_trans _ q); assumption).
  intros x p p' H H'. destruct H; inversion H'; subst; try reflexivity; exfalso; eauto.
Qed.
Lemma int_some : forall z, exists p, int_at z p.
Proof. intros z. unfold int_at. destruct (Z.lt_trichotomy z 0) as [L|[L|L]]; [exists Below|exists Zero|exists Above]; tauto. Qed.
Lemma int_one : forall z p p', int_at z p -> int_at z p' -> p' = p.
Proof. intros z p p' H H'. unfold int_at in *. intuition (subst; try reflexivity; exfalso; lia). Qed.
Lemma whole_some : forall v, is_int v = true <-> exists p, whole v p.
Proof.
  intros v. split; [|intros (p & H); destruct H; reflexivity]. destruct v as [|b|z| | | | |z| | | | | | | | | ]; try discriminate; intros _; [destruct b; eexists; constructor| |]; destruct (int_some z) as (p & H); exists p; constructor; assumption.
Qed.
Lemma whole_one : forall v p p', whole v p -> whole v p' -> p' = p.
Proof. intros v p p' H H'. destruct H; inversion H'; subst; try reflexivity; eapply int_one; eassumption. Qed.
Lemma real_some : forall v, is_number v && is_real v = true <-> exists p, real v p.
Proof.
  intros v. split.
  - destruct v as [|b|z|x| |q| |z|x| | | | | | | | ]; try discriminate; intros _.
    + destruct (proj1 (whole_some (PBool b)) eq_refl) as (p & H). exists p. constructor; assumption.
    + destruct (proj1 (whole_some (PInt z)) eq_refl) as (p & H). exists p. constructor; assumption.
    + destruct (float_some x) as (p & H). exists p. constructor; assumption.
    + destruct (float_some (Fin q)) as (p & H). exists p. constructor; assumption.
    + destruct (proj1 (whole_some (PNpInt z)) eq_refl) as (p & H). exists p. constructor; assumption.
    + destruct (float_some x) as (p & H). exists p. constructor; assumption.
  - intros (p & H). destruct H as [v p H| | |]; [destruct H; reflexivity|reflexivity ..].
Qed.
Lemma real_one : forall v p p', real v p -> real v p' -> p' = p.
Proof.
  intros v p p' H H'. destruct H as [v p W|x p F|x p F|q p F]; inversion H' as [v2 p2 W2|x2 p2 F2|x2 p2 F2|q2 p2 F2]; subst; try (eapply float_one; eassumption); try (eapply whole_one; eassumption); try (inversion W2; fail); inversion W.
Qed.
Lemma complex_iff : forall v, is_number v && negb (is_real v) = true <-> complex v.
Proof. intros v. split; [destruct v; try discriminate; intros _; constructor|intros H; destruct H; reflexivity]. Qed.
Lemma number_iff : forall v, is_number v = true <-> number v.
Proof.
  intros v. unfold number. rewrite <- real_some, <- complex_iff. destruct (is_number v), (is_real v); cbn; intuition congruence.
Qed.
Lemma le0_iff : forall v, le0 v = true <-> real v Below \/ real v Zero.
Proof.
  intros v. split.
  - destruct v as [|b|z|x| |q| |z|x| | | | | | | | ]; try discriminate; cbn [le0]; intros E.
    + destruct b; [discriminate|]. right. do 2 constructor.
    + apply Z.leb_le in E. destruct (Z.lt_trichotomy z 0) as [L|[L|L]]; [left|right|lia]; do 2 constructor; unfold int_at; tauto.
    + apply float_le in E. destruct E; [left|right]; constructor; assumption.
    + assert (F : f_le0 (Fin q) = true) by exact E. apply float_le in F. destruct F; [left|right]; constructor; assumption.
    + apply Z.leb_le in E. destruct (Z.lt_trichotomy z 0) as [L|[L|L]]; [left|right|lia]; do 2 constructor; unfold int_at; tauto.
    + apply float_le in E. destruct E; [left|right]; constructor; assumption.
  - assert (FL : forall x p, float_at x p -> p = Below \/ p = Zero -> f_le0 x = true) by (intros x p F [-> | ->]; apply float_le; auto). assert (IL : forall z p, int_at z p -> p = Below \/ p = Zero -> (z <=? 0)%Z = true) by (intros z p X [-> | ->]; apply Z.leb_le; unfold int_at in X; intuition (try discriminate; lia)).
    assert (G : forall p, real v p -> p = Below \/ p = Zero -> le0 v = true).
    { intros p H P. destruct H as [v p W|x p F|x p F|q p F]; cbn [le0]; [|eauto|eauto|exact (FL (Fin q) p F P)]. destruct W; cbn [le0]; [reflexivity|destruct P; discriminate|eauto|eauto]. }
    intros [H|H]; apply (G _ H); auto.
Qed.
Lemma lt0_iff : forall v, lt0 v = true <-> real v Below.
Proof.
  intros v. split.
  - destruct v as [|b|z|x| |q| |z|x| | | | | | | | ]; try discriminate; cbn [lt0]; intros E.
    + apply Z.ltb_lt in E. do 2 constructor. unfold int_at. tauto.
    + apply float_lt in E. constructor; assumption.
    + assert (F : f_lt0 (Fin q) = true) by exact E. apply float_lt in F. constructor; assumption.
    + apply Z.ltb_lt in E. do 2 constructor. unfold int_at. tauto.
    + apply float_lt in E. constructor; assumption.
  - assert (G : forall p, real v p -> p = Below -> lt0 v = true).
    { intros p H P. destruct H as [v p W|x p F|x p F|q p F]; subst; cbn [lt0]; [|apply float_lt; assumption|apply float_lt; assumption|exact (proj2 (float_lt (Fin q)) F)]. inversion W as [| |z p I0|z p I0]; subst; cbn [lt0]; apply Z.ltb_lt; unfold int_at in I0; intuition (try discriminate; lia). }
    intros H. apply (G _ H eq_refl).
Qed.

(** ** Arrays *)
Definition is_seq (v : pyval) : bool := match v with PSeq _ | PArr _ _ _ => true | _ => false end.
Lemma seq_iff : forall v, is_seq v = true <-> sequence v.
Proof. intros v. unfold sequence. split; [destruct v; try discriminate; eauto 10|intros [(l & ->)|(sh & k & ls & ->)]; reflexivity]. Qed.
Lemma seq_not : forall v, is_seq v = false <-> ~ sequence v.
Proof. intros v. rewrite <- seq_iff. symmetry. apply not_true_iff_false. Qed.
Lemma one_shape : forall v, is_seq v = false -> shape_of v = Some [] /\ kinds_of v = [leaf_kind v] /\ leaves_of v = [v].
Proof. intros v H. destruct v; try discriminate; auto. Qed.
Lemma same_iff : forall a b, same_shape a b = true <-> a = b.
Proof. intros a b. unfold same_shape. destruct (list_eq_dec Nat.eq_dec a b); split; congruence. Qed.
Lemma shape_iff : forall v sh, shape_of v = Some sh <-> shaped v sh.
Proof.
  intros v. induction v as [v NS|l F] using pyval_rec; intros sh.
  - destruct (is_seq v) eqn:E.
    + destruct v; try discriminate; [destruct (NS l eq_refl)|]. cbn [shape_of]. split; [intros Q; injection Q as <-; constructor|intros H; inversion H; subst; [exfalso; apply H0; right; eauto|reflexivity]].
    + destruct (one_shape v E) as (-> & _ & _). apply seq_not in E. split; [intros Q; injection Q as <-; constructor; assumption|]. intros H. inversion H; subst; [reflexivity|exfalso; apply E; right; eauto|exfalso; apply E; left; eauto|exfalso; apply E; left; eauto].
  - destruct l as [|x l]; cbn [shape_of].
    + split; [intros Q; injection Q as <-; constructor|]. intros H. inversion H; subst; [exfalso; apply H0; left; eauto|reflexivity].
    + inversion F as [|? ? Hx Fl]; subst. rewrite Forall_forall in Fl. destruct (shape_of x) as [s|] eqn:Ex.
      * assert (G : forallb (fun y => match shape_of y with Some s' => same_shape s' s | None => false end) l = true <-> forall y, In y l -> shaped y s).
        { rewrite forallb_forall. split; intros H y I0; specialize (H y I0).
          - apply Fl; [assumption|]. destruct (shape_of y) as [s'|]; [|discriminate]. apply same_iff in H. congruence.
          - apply Fl in H; [|assumption]. rewrite H. apply same_iff. reflexivity. }
        assert (Sx : shaped x s) by (apply Hx; reflexivity). destruct (forallb _ l).
        -- split; [intros Q; injection Q as <-; constructor; [assumption|apply G; reflexivity]|]. intros H. inversion H as [? N| | |x' l' sh' S1 S2]; subst; [exfalso; apply N; left; eauto|]. apply Hx in S1. injection S1 as <-. reflexivity.
        -- split; [discriminate|]. intros H. inversion H as [? N| | |x' l' sh' S1 S2]; subst; [exfalso; apply N; left; eauto|]. apply Hx in S1. injection S1 as <-. apply G in S2. discriminate.
      * split; [discriminate|]. intros H. inversion H as [? N| | |x' l' sh' S1 S2]; subst; [exfalso; apply N; left; eauto|]. apply Hx in S1. discriminate.
Qed.
Lemma ragged_iff : forall v, shape_of v = None <-> ragged v.
Proof.
  intros v. unfold ragged. split; [intros E sh H; apply shape_iff in H; congruence|]. intros H. destruct (shape_of v) as [sh|] eqn:E; [|reflexivity]. apply shape_iff in E. destruct (H sh E).
Qed.
Lemma leaf_iff : forall v k, (forall l, v <> PSeq l) -> (In k (kinds_of v) <-> kind_is v k).
Proof.
  intros v k NS. destruct v as [ | |z| | | | | | | | | | | | |l|sh k0 ls]; try (destruct (NS l eq_refl)); cbn [kinds_of leaf_kind In]; (split; [intros [<-|[]]|intros H; inversion H; subst; auto]); try constructor.
  - destruct ((- 2 ^ 63 <=? z) && (z <? 2 ^ 64))%Z eqn:E; constructor; [apply andb_true_iff in E; rewrite Z.leb_le, Z.ltb_lt in E; exact E|]. intros (L & M). rewrite <- not_true_iff_false, andb_true_iff, Z.leb_le, Z.ltb_lt in E. tauto.
  - destruct ((- 2 ^ 63 <=? z) && (z <? 2 ^ 64))%Z eqn:E; [reflexivity|]. exfalso. rewrite <- not_true_iff_false, andb_true_iff, Z.leb_le, Z.ltb_lt in E. tauto.
  - destruct ((- 2 ^ 63 <=? z) && (z <? 2 ^ 64))%Z eqn:E; [|reflexivity]. exfalso. rewrite andb_true_iff, Z.leb_le, Z.ltb_lt in E. tauto.
Qed.
Lemma kinds_iff : forall v k, In k (kinds_of v) <-> exists p, part v p /\ kind_is p k.
Proof.
  intros v k. induction v as [v NS|l F] using pyval_rec.
  - rewrite (leaf_iff v k NS). split; [intros H; exists v; split; [constructor; assumption|assumption]|]. intros (p & P & H). inversion P; subst; [assumption|]. destruct (NS l eq_refl).
  - cbn [kinds_of]. rewrite in_flat_map. rewrite Forall_forall in F. split.
    + intros (x & I0 & K). apply F in K; [|assumption]. destruct K as (p & P & H). exists p. split; [econstructor; eassumption|assumption].
    + intros (p & P & H). inversion P as [? NS|? x ? I0 P']; subst; [destruct (NS l eq_refl)|]. exists x. split; [assumption|]. apply F; [assumption|]. eauto.
Qed.
Lemma order_one : forall a b, order a = order b -> a = b.
Proof. intros [] [] E; try reflexivity; discriminate. Qed.
Lemma join_fold : forall t k, In (fold_left join t k) (k :: t) /\ forall k', In k' (k :: t) -> (order k' <= order (fold_left join t k))%nat.
Proof.
  induction t as [|x t IH]; intros k; cbn [fold_left]; [split; [left; reflexivity|intros k' [->|[]]; lia]|]. destruct (IH (join k x)) as (A & B). assert (J : (join k x = k /\ order x <= order k)%nat \/ (join k x = x /\ order k <= order x)%nat) by (unfold join; change kind_rank with order; destruct (Nat.leb_spec (order k) (order x)); [right|left]; split; (reflexivity || lia)). split.
  - cbn [In] in *. destruct A as [A|A]; [|tauto]. destruct J as [(J & _)|(J & _)]; rewrite J in A; rewrite J; tauto.
  - pose proof (B (join k x) (or_introl eq_refl)) as B0. intros k' [<-|[<-|I0]]; [| |apply B; right; assumption]; destruct J as [(J & L)|(J & L)]; rewrite J in *; lia.
Qed.
Lemma kind_iff : forall v k, kind_of v = k <-> promoted v k.
Proof.
  intros v k. unfold kind_of, promoted. pose proof (kinds_iff v) as K. destruct (kinds_of v) as [|k0 t].
  - assert (N : forall p, ~ part v p).
    { intros p P. assert (X : exists k', kind_is p k') by (destruct p as [ | |z| | | | | | | | | | | | |l| ]; try (eexists; constructor; fail); [destruct (Z_le_dec (- 2 ^ 63) z), (Z_lt_dec z (2 ^ 64)); eexists; first [apply kind_int; lia|apply kind_long; lia]|]; exfalso; clear - P; remember (PSeq l) as q; induction P as [v N|l' x v I0 P IH]; [apply (N l); assumption|auto]). destruct X as (k' & X). destruct (K k') as (_ & Y). apply Y. eauto. }
    split; [intros <-; left; auto|]. intros [(_ & ->)|((p & P & _) & _)]; [reflexivity|destruct (N p P)].
  - destruct (join_fold t k0) as (A & B). split.
    + intros <-. right. split; [apply K; exact A|]. intros p k' P H. apply B. apply K. eauto.
    + intros [(N & _)|(E & M)]; [exfalso; destruct (proj1 (K k0) (or_introl eq_refl)) as (p & P & _); apply (N p P)|]. apply order_one. apply Nat.le_antisymm; [|apply B; apply K; exact E]. apply K in A. destruct A as (p & P & H). apply (M p _ P H).
Qed.
Lemma leaves_iff : forall v ls, leaves_of v = ls <-> entries v ls.
Proof.
  intros v. induction v as [v NS|l F] using pyval_rec; intros ls.
  - destruct (is_seq v) eqn:E.
    + destruct v; try discriminate; [destruct (NS l eq_refl)|]. cbn [leaves_of]. split; [intros <-; constructor|intros H; inversion H; subst; [exfalso; apply H0; right; eauto|reflexivity]].
    + destruct (one_shape v E) as (_ & _ & ->). apply seq_not in E. split; [intros <-; constructor; assumption|]. intros H. inversion H; subst; [reflexivity|exfalso; apply E; right; eauto|exfalso; apply E; left; eauto|exfalso; apply E; left; eauto].
  - cbn [leaves_of]. revert ls. induction F as [|x l Hx F IH]; intros ls; cbn [flat_map].
    + split; [intros <-; constructor|]. intros H. inversion H; subst; [exfalso; apply H0; left; eauto|reflexivity].
    + split; [intros <-; constructor; [apply Hx; reflexivity|apply IH; reflexivity]|]. intros H. inversion H as [? N| | |x' l' a b A B]; subst; [exfalso; apply N; left; eauto|]. apply Hx in A. apply IH in B. congruence.
Qed.
Lemma array_iff : forall v sh k ls, asarray v = Some (sh, k, ls) <-> array_of v sh k ls.
Proof.
  intros v sh k ls. unfold array_of. rewrite <- shape_iff, <- kind_iff, <- leaves_iff. unfold asarray. destruct v as [ | | | | | | | | | | | | | | |l|sh0 k0 ls0].
  all: try (cbn [shape_of]; split; [intros Q; injection Q as <- <- <-; auto|intros (Q & <- & <-); injection Q as <-; reflexivity]).
  - destruct (shape_of (PSeq l)) as [s|]; split; [intros Q; injection Q as <- <- <-; auto|intros (Q & <- & <-); injection Q as <-; reflexivity|discriminate|intros (Q & _); discriminate].
Qed.
Lemma array_none : forall v, asarray v = None <-> ragged v.
Proof.
  intros v. rewrite <- ragged_iff. unfold asarray. destruct v as [ | | | | | | | | | | | | | | |l| ]; try (cbn [shape_of]; split; discriminate). destruct (shape_of (PSeq l)); split; (discriminate || reflexivity).
Qed.
