(** Lemmas about the shared primitives. *)
From Coq Require Import List ZArith QArith Bool Lia.
From Verif Require Import Base.
Import ListNotations.

Lemma Qle_bool_false a b : Qle_bool a b = false -> (b < a)%Q.
Proof.
  intro H. destruct (Qlt_le_dec b a) as [Hlt|Hle]; [exact Hlt|].
  apply Qle_bool_iff in Hle. congruence.
Qed.

Lemma Qlt_Qle_bool_false a b : (b < a)%Q -> Qle_bool a b = false.
Proof.
  intro H. destruct (Qle_bool a b) eqn:E; [|reflexivity].
  apply Qle_bool_iff in E. exfalso. apply (Qlt_not_le _ _ H E).
Qed.

Lemma argmin_from_spec : forall l pre best ib,
  nth_error pre ib = Some best ->
  (forall j x, nth_error pre j = Some x -> (j < ib)%nat -> (best < x)%Q) ->
  (forall j x, nth_error pre j = Some x -> (best <= x)%Q) ->
  exists b, nth_error (pre ++ l) (argmin_from best ib (length pre) l) = Some b /\
    (forall j x, nth_error (pre ++ l) j = Some x ->
        (j < argmin_from best ib (length pre) l)%nat -> (b < x)%Q) /\
    (forall j x, nth_error (pre ++ l) j = Some x -> (b <= x)%Q).
Proof.
  induction l as [|y l IH]; intros pre best ib Hb Hlt Hle; cbn [argmin_from].
  - rewrite app_nil_r. exists best. auto.
  - replace (pre ++ y :: l) with ((pre ++ [y]) ++ l) by (rewrite <- app_assoc; reflexivity).
    replace (S (length pre)) with (length (pre ++ [y])) by (rewrite app_length; cbn; lia).
    assert (Hib : (ib < length pre)%nat) by (apply nth_error_Some; congruence).
    destruct (Qle_bool best y) eqn:E; cbn [negb].
    + apply Qle_bool_iff in E. apply IH.
      * rewrite nth_error_app1 by lia. exact Hb.
      * intros j x Hj Hj2. rewrite nth_error_app1 in Hj by lia. eauto.
      * intros j x Hj. destruct (Nat.lt_ge_cases j (length pre)).
        -- rewrite nth_error_app1 in Hj by lia. eauto.
        -- rewrite nth_error_app2 in Hj by lia.
           destruct (j - length pre)%nat as [|k]; cbn in Hj;
             [|destruct k; discriminate]. injection Hj as <-. exact E.
    + apply Qle_bool_false in E. apply IH.
      * rewrite nth_error_app2 by lia. rewrite Nat.sub_diag. reflexivity.
      * intros j x Hj Hj2. rewrite nth_error_app1 in Hj by lia.
        eapply Qlt_le_trans; [exact E|]. eauto.
      * intros j x Hj. destruct (Nat.lt_ge_cases j (length pre)).
        -- rewrite nth_error_app1 in Hj by lia.
           apply Qlt_le_weak. eapply Qlt_le_trans; [exact E|]. eauto.
        -- rewrite nth_error_app2 in Hj by lia.
           destruct (j - length pre)%nat as [|k]; cbn in Hj;
             [|destruct k; discriminate]. injection Hj as <-. apply Qle_refl.
Qed.

Lemma argmin_spec l i : argmin l = Some i ->
  exists b, nth_error l i = Some b /\
    (forall j x, nth_error l j = Some x -> (j < i)%nat -> (b < x)%Q) /\
    (forall j x, nth_error l j = Some x -> (b <= x)%Q).
Proof.
  destruct l as [|x t]; cbn [argmin]; [discriminate|]. intro H. injection H as <-.
  apply (argmin_from_spec t [x] x 0); [reflexivity| |].
  - intros j y _ Hj. lia.
  - intros [|j] y Hj; cbn in Hj; [injection Hj as <-; apply Qle_refl|destruct j; discriminate].
Qed.

Lemma argmin_none l : argmin l = None <-> l = [].
Proof. destruct l; cbn; split; congruence. Qed.

Lemma argmax_from_spec : forall l pre best ib,
  nth_error pre ib = Some best ->
  (forall j x, nth_error pre j = Some x -> (j < ib)%nat -> (x < best)%Q) ->
  (forall j x, nth_error pre j = Some x -> (x <= best)%Q) ->
  exists b, nth_error (pre ++ l) (argmax_from best ib (length pre) l) = Some b /\
    (forall j x, nth_error (pre ++ l) j = Some x ->
        (j < argmax_from best ib (length pre) l)%nat -> (x < b)%Q) /\
    (forall j x, nth_error (pre ++ l) j = Some x -> (x <= b)%Q).
Proof.
  induction l as [|y l IH]; intros pre best ib Hb Hlt Hle; cbn [argmax_from].
  - rewrite app_nil_r. exists best. auto.
  - replace (pre ++ y :: l) with ((pre ++ [y]) ++ l) by (rewrite <- app_assoc; reflexivity).
    replace (S (length pre)) with (length (pre ++ [y])) by (rewrite app_length; cbn; lia).
    assert (Hib : (ib < length pre)%nat) by (apply nth_error_Some; congruence).
    destruct (Qle_bool y best) eqn:E; cbn [negb].
    + apply Qle_bool_iff in E. apply IH.
      * rewrite nth_error_app1 by lia. exact Hb.
      * intros j x Hj Hj2. rewrite nth_error_app1 in Hj by lia. eauto.
      * intros j x Hj. destruct (Nat.lt_ge_cases j (length pre)).
        -- rewrite nth_error_app1 in Hj by lia. eauto.
        -- rewrite nth_error_app2 in Hj by lia.
           destruct (j - length pre)%nat as [|k]; cbn in Hj;
             [|destruct k; discriminate]. injection Hj as <-. exact E.
    + apply Qle_bool_false in E. apply IH.
      * rewrite nth_error_app2 by lia. rewrite Nat.sub_diag. reflexivity.
      * intros j x Hj Hj2. rewrite nth_error_app1 in Hj by lia.
        eapply Qle_lt_trans; [|exact E]. eauto.
      * intros j x Hj. destruct (Nat.lt_ge_cases j (length pre)).
        -- rewrite nth_error_app1 in Hj by lia.
           apply Qlt_le_weak. eapply Qle_lt_trans; [|exact E]. eauto.
        -- rewrite nth_error_app2 in Hj by lia.
           destruct (j - length pre)%nat as [|k]; cbn in Hj;
             [|destruct k; discriminate]. injection Hj as <-. apply Qle_refl.
Qed.

Lemma argmax_spec l i : argmax l = Some i ->
  exists b, nth_error l i = Some b /\
    (forall j x, nth_error l j = Some x -> (j < i)%nat -> (x < b)%Q) /\
    (forall j x, nth_error l j = Some x -> (x <= b)%Q).
Proof.
  destruct l as [|x t]; cbn [argmax]; [discriminate|]. intro H. injection H as <-.
  apply (argmax_from_spec t [x] x 0); [reflexivity| |].
  - intros j y _ Hj. lia.
  - intros [|j] y Hj; cbn in Hj; [injection Hj as <-; apply Qle_refl|destruct j; discriminate].
Qed.

Lemma argmax_none l : argmax l = None <-> l = [].
Proof. destruct l; cbn; split; congruence. Qed.

Lemma nth_error_slice {A} (lo hi k : nat) (l : list A) :
  (k < hi - lo)%nat -> nth_error (slice lo hi l) k = nth_error l (lo + k).
Proof.
  unfold slice. revert lo l k. 
  intros lo l k Hk. 
  assert (forall n m (l : list A), (m < n)%nat -> nth_error (firstn n l) m = nth_error l m) as F.
  { induction n as [|n IH]; intros m l0 Hm; [lia|]. destruct l0; [reflexivity|].
    destruct m; [reflexivity|]. cbn. apply IH. lia. }
  rewrite F by exact Hk. clear Hk F.
  revert l. induction lo as [|lo IH]; intros l; [reflexivity|].
  destruct l; cbn; [destruct k; reflexivity|apply IH].
Qed.

Lemma length_slice {A} (lo hi : nat) (l : list A) :
  length (slice lo hi l) = Nat.min (hi - lo) (length l - lo).
Proof. unfold slice. rewrite firstn_length, skipn_length. reflexivity. Qed.

Lemma nth_error_ext' {A} (l1 l2 : list A) :
  (forall i, nth_error l1 i = nth_error l2 i) -> l1 = l2.
Proof.
  revert l2. induction l1 as [|x l1 IH]; intros [|y l2] H; [reflexivity|..].
  - specialize (H 0%nat). discriminate.
  - specialize (H 0%nat). discriminate.
  - f_equal; [specialize (H 0%nat); cbn in H; congruence|].
    apply IH. intro i. apply (H (S i)).
Qed.
