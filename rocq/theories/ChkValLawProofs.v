(** Proofs: laws of the checks, and what they let pass. *)
From Coq Require Import List Arith Bool ZArith QArith String Lia.
From Verif Require Import ChkValModel ChkValSpec ChkValProofs ChkValMainProofs.
Import ListNotations.

Lemma array_self : forall sh k ls, array_of (PArr sh k ls) sh k ls.
Proof.
  intros sh k ls. split; [constructor|]. split; [|constructor]. right. split.
  - exists (PArr sh k ls). split; constructor. discriminate.
  - intros p k' P K. inversion P; subst. inversion K; subst. lia.
Qed.
(** Checked twice is checked once *)
Lemma twice : forall c v n e r, run c v n e = Ret r -> run c r n e = Ret r.
Proof.
  intros c v n e r H. apply returns in H. destruct H as (N & X & A). apply returns. split; [assumption|]. split; [assumption|]. destruct A as [(G & ->)|(sh & k & ls & A & G & ->)]; [left; auto|right]. exists sh, k, ls. split; [apply array_self|auto].
Qed.
(** What one check implies *)
Lemma implied : forall c c' v n e r, stronger c c' -> run c v n e = Ret r -> run c' v n e = Ret r.
Proof.
  intros c c' v n e r S0 H. apply returns in H. destruct H as (N & X & A). apply returns. split; [assumption|]. split; [assumption|]. destruct A as [(G & ->)|(sh & k & ls & A & G & ->)].
  - left. split; [|reflexivity]. assert (W : forall p, whole v p -> real v p) by (intros p; apply real_whole). destruct c, c'; destruct S0; cbn [good_scalar] in *; try contradiction.
    all: try (destruct G as ([] & ->); first [solve [left; constructor]|solve [right; constructor]|solve [eexists; constructor]|solve [eexists; apply real_whole; constructor]|solve [eexists; split; [apply real_whole; constructor|discriminate]]]).
    all: try (destruct G as [G|G]; first [eexists; eassumption|eexists; apply W; eassumption|eexists; split; [apply W; eassumption|discriminate]]).
    all: try (first [left; assumption|eexists; eassumption|eexists; apply W; eassumption|eexists; split; [apply W; eassumption|first [left; reflexivity|discriminate]]]).
    all: try (destruct G as (p & G); eexists; first [eassumption|apply W; eassumption]).
    all: try (destruct G as (p & R & G); exists p; first [assumption|split; [assumption|]; destruct G as [-> | ->]; discriminate]).
  - right. exists sh, k, ls. split; [assumption|]. split; [|reflexivity]. destruct c, c'; destruct S0; cbn [good_array] in *; try contradiction. destruct G as (a & ->). eauto.
Qed.

(** ** Entries *)
Lemma proper_in : forall l x, In x l -> proper (PSeq l) -> proper x.
Proof. intros l x I0 P sh k ls H. apply (P sh k ls). econstructor; eassumption. Qed.
Lemma shaped_list : forall l sh, shaped (PSeq l) sh -> exists sh', sh = List.length l :: sh' /\ forall y, In y l -> shaped y sh'.
Proof.
  intros l sh H. inversion H as [? N| | |x l' sh' S1 S2]; subst; [exfalso; apply N; left; eauto|exists []; split; [reflexivity|intros y []]|]. exists sh'. split; [reflexivity|]. intros y [<-|I0]; auto.
Qed.
Lemma flat_count : forall (A B : Type) (f : A -> list B) P l, (forall x, In x l -> List.length (f x) = P) -> List.length (flat_map f l) = (List.length l * P)%nat.
Proof. intros A B f P l. induction l as [|x l IH]; intros H; [reflexivity|]. cbn [flat_map List.length]. rewrite app_length, IH by (intros y Hy; apply H; right; assumption). rewrite (H x) by (left; reflexivity). reflexivity. Qed.
Lemma flat_nth : forall (A B : Type) (f : A -> list B) P l i x o, (forall x, In x l -> List.length (f x) = P) -> nth_error l i = Some x -> (o < P)%nat -> nth_error (flat_map f l) (i * P + o) = nth_error (f x) o.
Proof.
  intros A B f P l. induction l as [|y l IH]; intros i x o H E L; [destruct i; discriminate|]. assert (Y : List.length (f y) = P) by (apply H; left; reflexivity). cbn [flat_map]. destruct i as [|i]; cbn [nth_error] in E.
  - injection E as ->. cbn [Nat.mul Nat.add]. rewrite nth_error_app1 by lia. reflexivity.
  - rewrite nth_error_app2 by lia. rewrite Y. replace (S i * P + o - P)%nat with (i * P + o)%nat by lia. apply IH; auto. intros z Hz. apply H. right. assumption.
Qed.
Lemma count : forall v sh, proper v -> shaped v sh -> List.length (leaves_of v) = fold_right Nat.mul 1%nat sh.
Proof.
  intros v. induction v as [v NS|l F] using pyval_rec; intros sh P H.
  - inversion H as [? N|? k ls| |]; subst; try (destruct (NS _ eq_refl)).
    + destruct (one_shape v) as (_ & _ & ->); [apply seq_not; assumption|reflexivity].
    + cbn [leaves_of]. apply (P sh k ls). constructor. discriminate.
  - destruct (shaped_list l sh H) as (sh' & -> & Y). cbn [leaves_of fold_right]. rewrite Forall_forall in F. apply flat_count. intros x I0. apply F; auto. apply (proper_in l); assumption.
Qed.
Lemma offset_lt : forall sh idx o, offset sh idx = Some o -> (o < fold_right Nat.mul 1 sh)%nat.
Proof.
  induction sh as [|s sh IH]; intros [|i idx] o E; cbn [offset] in E; try discriminate; [injection E as <-; cbn; lia|]. destruct (Nat.ltb_spec i s) as [L|L]; [|discriminate]. destruct (offset sh idx) as [k|] eqn:K; [|discriminate]. injection E as <-. apply IH in K. cbn [fold_right]. nia.
Qed.
Lemma index : forall v sh idx x, proper v -> shaped v sh -> (at_index v idx x <-> exists o, offset sh idx = Some o /\ nth_error (leaves_of v) o = Some x).
Proof.
  intros v. induction v as [v NS|l F] using pyval_rec; intros sh idx x P H.
  - inversion H as [? N|? k ls| |]; subst; try (destruct (NS _ eq_refl)).
    + destruct (one_shape v) as (_ & _ & ->); [apply seq_not; assumption|]. split.
      * intros X. inversion X; subst; [exists 0%nat; auto|destruct (NS _ eq_refl)|exfalso; apply N; right; eauto].
      * intros (o & E & E'). destruct idx; cbn in E; [|discriminate]. injection E as <-. injection E' as <-. constructor. assumption.
    + split; [intros X; inversion X; subst; [exfalso; apply H0; right; eauto|]; eauto|]. intros (o & E & E'). econstructor; eassumption.
  - destruct (shaped_list l sh H) as (sh' & -> & Y). rewrite Forall_forall in F. cbn [leaves_of]. assert (CN : forall y, In y l -> List.length (leaves_of y) = fold_right Nat.mul 1%nat sh') by (intros y I0; apply count; [apply (proper_in l); assumption|auto]). split.
    + intros X. inversion X as [? N|? i idx' y ? E X'|]; subst; [exfalso; apply N; left; eauto|]. pose proof (nth_error_In _ _ E) as I0. apply (F y I0 sh') in X'; [|apply (proper_in l); assumption|auto]. destruct X' as (o & O & O'). cbn [offset]. assert (L : (i < List.length l)%nat) by (apply nth_error_Some; congruence). apply Nat.ltb_lt in L. rewrite L, O. eexists. split; [reflexivity|]. rewrite (flat_nth _ _ leaves_of _ l i y o CN E (offset_lt _ _ _ O)). assumption.
    + intros (o & O & O'). destruct idx as [|i idx]; cbn [offset] in O; [discriminate|]. destruct (Nat.ltb_spec i (List.length l)) as [L|L]; [|discriminate]. destruct (offset sh' idx) as [q|] eqn:K; [|discriminate]. injection O as <-. destruct (nth_error l i) as [y|] eqn:E; [|apply nth_error_None in E; lia]. rewrite (flat_nth _ _ leaves_of _ l i y q CN E (offset_lt _ _ _ K)) in O'. pose proof (nth_error_In _ _ E) as I0. econstructor; [eassumption|]. apply (F y I0 sh'); [apply (proper_in l); assumption|auto|eauto].
Qed.
(** An array comes back with the entries of the value, index by index, as many as its shape says *)
Lemma same_entries : forall c v n e r, of_arrays c -> proper v -> run c v n e = Ret r ->
  proper r /\ (forall idx x, at_index r idx x <-> at_index v idx x) /\ forall sh, shaped r sh <-> shaped v sh.
Proof.
  intros c v n e r A P H. apply returns in H. destruct H as (_ & _ & [(G & _)|(sh & k & ls & (SH & K & E) & _ & ->)]); [destruct (no_good c v A); contradiction|]. apply leaves_iff in E.
  assert (PR : proper (PArr sh k ls)) by (intros sh' k' ls' X; inversion X; subst; apply count; assumption). split; [assumption|]. split.
  - intros idx x. rewrite (index v sh idx x P SH). rewrite (index (PArr sh k ls) sh idx x PR (shaped_arr _ _ _)). cbn [leaves_of]. rewrite E. reflexivity.
  - intros sh'. pose proof (proj2 (shape_iff _ _) SH) as Q. rewrite <- !shape_iff. cbn [shape_of]. rewrite Q. reflexivity.
Qed.
(** A scalar comes back as it is *)
Lemma same_scalar : forall c v n e r, ~ of_arrays c -> run c v n e = Ret r -> r = v.
Proof. intros c v n e r A H. apply returns in H. destruct H as (_ & _ & H). apply (scalar_accepted c v r A) in H. tauto. Qed.
(** A value is accepted whatever the name and the exception *)
Lemma whatever_name : forall c v n n' e e' r, nameable n' -> raisable e' -> run c v n e = Ret r -> run c v n' e' = Ret r.
Proof. intros c v n n' e e' r N X H. apply returns in H. apply returns. tauto. Qed.

(** ** What passes *)
Definition txt : pyval := PStr "x".
Definition terr : pyval := PClass (Exc_class "TypeError" true).
Local Open Scope string_scope.
Lemma nan_passes : ~ forall v n e r, run RealPositive v n e = Ret r -> real v Above.
Proof. intros H. specialize (H (PFloat NaN) txt terr (PFloat NaN) eq_refl). inversion H as [? ? W|? ? F| |]; subst; [inversion W|inversion F]. Qed.
Lemma inf_passes : ~ forall x n e r, run RealPositive (PFloat x) n e = Ret r -> exists q, x = Fin q.
Proof. intros H. destruct (H PInf txt terr (PFloat PInf) eq_refl) as (q & Q). discriminate. Qed.
Lemma true_passes : ~ forall b n e r, run PositiveInteger (PBool b) n e <> Ret r.
Proof. intros H. apply (H true txt terr (PBool true)). reflexivity. Qed.
Lemma text_passes : ~ forall v n e sh k ls, run OneD v n e = Ret (PArr sh k ls) -> k = KBool \/ k = KReal \/ k = KComplex.
Proof. intros H. destruct (H (PSeq [PStr "a"; PInt 1]) txt terr [2%nat] KText [PStr "a"; PInt 1] eq_refl) as [Q|[Q|Q]]; discriminate. Qed.
Lemma empty_passes : ~ forall v n e sh k ls, run RealArray v n e = Ret (PArr sh k ls) -> ls <> [].
Proof. intros H. apply (H (PSeq []) txt terr [0%nat] KReal [] eq_refl). reflexivity. Qed.
Lemma other_fault : ~ forall c v n e x, nameable n -> raisable e -> run c v n e = Exc x -> exists k m, e = PClass k /\ x = XGiven k m.
Proof. intros H. destruct (H TwoD (PSeq [PSeq [PInt 1]; PInt 2]) txt terr XValue) as (k & m & _ & Q); [left; eexists; reflexivity|eexists _, _; reflexivity|reflexivity|discriminate]. Qed.
Lemma bytes_name : ~ forall c v s k x, ~ of_arrays c -> run c v (PBytes s) (PClass (Exc_class k true)) = Exc x -> exists m, x = XGiven (Exc_class k true) m.
Proof. intros H. destruct (H Boolean PNone "x" "ValueError" XType) as (m & Q); [intros []|reflexivity|discriminate]. Qed.
Lemma np_bool_fails : ~ forall b n e, nameable n -> raisable e -> exists r, run Boolean (PNpBool b) n e = Ret r \/ run RealScalar (PNpBool b) n e = Ret r.
Proof. intros H. destruct (H true txt terr) as (r & [Q|Q]); [left; eexists; reflexivity|eexists _, _; reflexivity|discriminate|discriminate]. Qed.
