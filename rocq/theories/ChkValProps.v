(** C79: the checks of arguments. *)
From Coq Require Import List Arith Bool ZArith QArith String Lia.
From Verif Require Import ChkValModel ChkValSpec ChkValProofs ChkValMainProofs ChkValLawProofs.
Import ListNotations.
Local Open Scope string_scope.

(** What each of the fourteen checks accepts, and what it returns. *)
Theorem C79_returns : forall c v n e r, run c v n e = Ret r <-> nameable n /\ raisable e /\ accepted c v r.
Proof. exact returns. Qed.
Print Assumptions C79_returns.
(** What each raises, on exactly which values, names and exceptions, with which message. *)
Theorem C79_raises : forall c v n e x, run c v n e = Exc x <-> faulted c v n e x.
Proof. exact raises. Qed.
Print Assumptions C79_raises.
(** What a check has returned it returns again. *)
Theorem C79_twice : forall c v n e r, run c v n e = Ret r -> run c r n e = Ret r.
Proof. exact twice. Qed.
Print Assumptions C79_twice.
(** A value that passes a check passes the weaker ones, with the same outcome. *)
Theorem C79_implied : forall c c' v n e r, stronger c c' -> run c v n e = Ret r -> run c' v n e = Ret r.
Proof. exact implied. Qed.
Print Assumptions C79_implied.
(** A check of arrays returns an array of the shape and, index by index, the entries of the value. *)
Theorem C79_entries : forall c v n e r, of_arrays c -> proper v -> run c v n e = Ret r ->
  proper r /\ (forall idx x, at_index r idx x <-> at_index v idx x) /\ forall sh, shaped r sh <-> shaped v sh.
Proof. exact same_entries. Qed.
Print Assumptions C79_entries.
(** The other checks return the value itself. *)
Theorem C79_scalars : forall c v n e r, ~ of_arrays c -> run c v n e = Ret r -> r = v.
Proof. exact same_scalar. Qed.
Print Assumptions C79_scalars.
(** Whether a value passes does not depend on name and exception, as long as they are fit. *)
Theorem C79_names : forall c v n n' e e' r, nameable n' -> raisable e' -> run c v n e = Ret r -> run c v n' e' = Ret r.
Proof. exact whatever_name. Qed.
Print Assumptions C79_names.
(** NaN passes as a positive number. *)
Theorem C79_nan_refuted : ~ forall v n e r, run RealPositive v n e = Ret r -> real v Above.
Proof. exact nan_passes. Qed.
Print Assumptions C79_nan_refuted.
(** Infinity passes as a positive number. *)
Theorem C79_inf_refuted : ~ forall x n e r, run RealPositive (PFloat x) n e = Ret r -> exists q, x = Fin q.
Proof. exact inf_passes. Qed.
Print Assumptions C79_inf_refuted.
(** True passes as a positive integer. *)
Theorem C79_bool_refuted : ~ forall b n e r, run PositiveInteger (PBool b) n e <> Ret r.
Proof. exact true_passes. Qed.
Print Assumptions C79_bool_refuted.
(** An array of texts passes as a 1D array: the error for arrays neither real nor complex is never raised. *)
Theorem C79_text_refuted : ~ forall v n e sh k ls, run OneD v n e = Ret (PArr sh k ls) -> k = KBool \/ k = KReal \/ k = KComplex.
Proof. exact text_passes. Qed.
Print Assumptions C79_text_refuted.
(** An empty list passes the check that says it asks for a length above 0. *)
Theorem C79_empty_refuted : ~ forall v n e sh k ls, run RealArray v n e = Ret (PArr sh k ls) -> ls <> [].
Proof. exact empty_passes. Qed.
Print Assumptions C79_empty_refuted.
(** A list with rows of different shapes raises ValueError, whatever exception was given. *)
Theorem C79_ragged_refuted : ~ forall c v n e x, nameable n -> raisable e -> run c v n e = Exc x -> exists k m, e = PClass k /\ x = XGiven k m.
Proof. exact other_fault. Qed.
Print Assumptions C79_ragged_refuted.
(** A name that is bytes is accepted, and then raises TypeError in place of the exception given. *)
Theorem C79_bytes_refuted : ~ forall c v s k x, ~ of_arrays c -> run c v (PBytes s) (PClass (Exc_class k true)) = Exc x -> exists m, x = XGiven (Exc_class k true) m.
Proof. exact bytes_name. Qed.
Print Assumptions C79_bytes_refuted.
(** A bool of numpy passes neither as a bool nor as a scalar. *)
Theorem C79_npbool_refuted : ~ forall b n e, nameable n -> raisable e -> exists r, run Boolean (PNpBool b) n e = Ret r \/ run RealScalar (PNpBool b) n e = Ret r.
Proof. exact np_bool_fails. Qed.
Print Assumptions C79_npbool_refuted.

(** A list of a list and an array passes as a square array of reals, with its entry at (1, 0); a ragged one is no array. *)
Definition square0 : pyval := PSeq [PSeq [PBool true; PInt 3]; PArr [2%nat] KReal [PNpInt 5; PNpInt 7]].
Example C79_square : exists r, run Square square0 (PStr "a") (PClass (Exc_class "ValueError" true)) = Ret r /\ proper square0 /\ stronger Square TwoD /\ shaped r [2%nat; 2%nat] /\ at_index r [1%nat; 0%nat] (PNpInt 5).
Proof.
  eexists. split; [reflexivity|]. split; [|split; [exact I|split; [apply shaped_arr|apply index_arr with 2%nat; reflexivity]]].
  intros sh k ls H. inversion H as [? N|l x v I0 P]; subst. destruct I0 as [<-|[<-|[]]]; inversion P as [? N|l' x' v' I1 P']; subst; try reflexivity. destruct I1 as [<-|[<-|[]]]; inversion P'.
Qed.
Example C79_ragged : ragged (PSeq [PSeq [PInt 1]; PInt 2]).
Proof. apply ragged_iff. reflexivity. Qed.
(** Rejected values, and the messages. *)
Example C79_messages : run RealPositive (PFloat (Fin (-1 # 2))) (PStr "gain") (PClass (Exc_class "TypeError" true)) = Exc (XGiven (Exc_class "TypeError" true) "gain must be positive") /\
  run RealArray (PSeq [PInt 1; PComplex (Fin 1) (Fin 2)]) (PStr "y") (PClass (Exc_class "TypeError" true)) = Exc (XGiven (Exc_class "TypeError" true) "y must be a real array").
Proof. split; reflexivity. Qed.
Example C79_names_case : nameable (PStr "x") /\ raisable (PClass (Exc_class "TypeError" true)) /\ run Integer (PInt (- 4)) (PStr "n") (PClass (Exc_class "ValueError" true)) = Ret (PInt (- 4)).
Proof. split; [left; eexists; reflexivity|]. split; [eexists _, _; reflexivity|reflexivity]. Qed.
