(** C43: the table of traps. *)
From Coq Require Import List Arith ZArith String Lia.
From Verif Require Import Base TrapModel TrapSpec TrapProofs.
Import ListNotations.
Local Open Scope Z_scope.

(** The number of a sub-electrode location. *)
Theorem C43_code : forall s z, code_of s = Ok z <-> exists sd k num n t, s = (sd ++ "el" ++ num ++ t)%string /\ side sd k /\ number num n /\ ended t /\ z = 10 * k + n.
Proof. exact code_of_iff. Qed.
Print Assumptions C43_code.
Example C43_code_used : code_of "RHSel2" = Ok 32 /\ code_of "LHSel12" = Ok 22.
Proof. split; reflexivity. Qed.
Theorem C43_location : forall z s, string_of z = Ok s <-> plain s ((z / 10) mod 10) (z mod 10).
Proof. exact string_of_iff. Qed.
Print Assumptions C43_location.
(** Reading it back gives the same location exactly for electrodes of one digit. *)
Theorem C43_lossless : forall s z, code_of s = Ok z -> (string_of z = Ok s <-> exists k d, plain s k d).
Proof. exact code_lossless. Qed.
Print Assumptions C43_lossless.
Example C43_lossless_used : plain "CENel4" 2 4 /\ code_of "CENel4" = Ok 24 /\ string_of 24 = Ok "CENel4"%string.
Proof. split; [|split; reflexivity]. exists "CEN"%string. split; [right; left; auto|]. split; [lia|reflexivity]. Qed.

(** The table has a row for each trap, in order, with its place, its first fit and its results. *)
Theorem C43_table : forall V d rows, encode V d = Ok rows <-> Forall2 (fun p t => row_of V (fst p) (snd p) t) d rows.
Proof. exact encode_iff. Qed.
Print Assumptions C43_table.
(** The dictionary rebuilt has the same keys in the same order, with the same results. *)
Theorem C43_round_trip : forall V zero d rows, NoDup (map fst d) -> (forall k e, In (k, e) d -> exists n dg, plain (kstr k) n dg) -> encode V d = Ok rows ->
  exists d', rebuild_dict V zero rows = Ok d' /\ Forall2 (same_trap V zero) d d'.
Proof. exact round_trip. Qed.
Print Assumptions C43_round_trip.
Example C43_round_trip_used :
  let e := mkentry (Nested [[1; 2; 3; 4; 5; 6]; [7; 8; 9]]) 10 11 12 13 in
  let d := [((((5, 7), "RHSel2"%string), 0), e); ((((5, 7), "RHSel2"%string), 1), e)] in
  NoDup (map fst d) /\ (exists rows, encode Z d = Ok rows /\ List.length rows = 2%nat) /\ forall k en, In (k, en) d -> exists n dg, plain (kstr k) n dg.
Proof.
  cbv zeta. split; [|split].
  - constructor; [cbn; intros [H|[]]; discriminate H|]. constructor; [intros []|constructor].
  - eexists. split; [reflexivity|reflexivity].
  - intros k en H. exists 3, 2, "RHS"%string. split; [right; right; auto|]. split; [lia|]. destruct H as [H|[H|[]]]; injection H as <- _; reflexivity.
Qed.
(** Different traps have rows that differ in place, code or number. *)
Theorem C43_rows_distinct : forall V k k' e e' t t', (exists n d, plain (kstr k) n d) -> (exists n d, plain (kstr k') n d) -> row_of V k e t -> row_of V k' e' t' ->
    t_row V t = t_row V t' -> t_col V t = t_col V t' -> t_code V t = t_code V t' -> t_idx V t = t_idx V t' -> k = k'.
Proof. exact rows_distinct. Qed.
Print Assumptions C43_rows_distinct.
(** Two traps of electrodes with more than one digit can become one. *)
Theorem C43_two_digits_refuted : forall V zero e, (exists a c m b more, e_cap V e = Nested ((a :: c :: m :: b) :: more)) ->
  let d := [((((5, 7), "LHSel10"%string), 0), e); ((((5, 7), "CENel0"%string), 0), e)] in
  NoDup (map fst d) /\ exists rows d', encode V d = Ok rows /\ List.length rows = 2%nat /\ rebuild_dict V zero rows = Ok d' /\ List.length d' = 1%nat.
Proof.
  intros V zero e (a & c & m & b & more & E). cbv zeta. split; [constructor; [cbn; intros [H|[]]; discriminate H|constructor; [intros []|constructor]]|].
  eexists. eexists. split; [|split; [|split]].
  - unfold encode. cbn [DqModel.mapR]. unfold encode_one. cbn. rewrite E. cbn. reflexivity.
  - reflexivity.
  - cbn. reflexivity.
  - reflexivity.
Qed.
Print Assumptions C43_two_digits_refuted.

(** Rebuilding any table: accepted if the codes name a side; for each key the last row. *)
Theorem C43_rebuild_accepts : forall V zero rows, ((exists d, rebuild_dict V zero rows = Ok d) <-> forall t, In t rows -> 1 <= (t_code V t / 10) mod 10 <= 3) /\ (forall e, rebuild_dict V zero rows = Raise e -> e = KeyError).
Proof. exact rebuild_accepts. Qed.
Print Assumptions C43_rebuild_accepts.
Theorem C43_rebuild_contents : forall V zero rows d, rebuild_dict V zero rows = Ok d ->
  NoDup (map fst d) /\ forall k e, In (k, e) d <-> exists a t b, rows = a ++ t :: b /\ says V zero t k e /\ forall t' e', In t' b -> ~ says V zero t' k e'.
Proof. exact rebuild_contents. Qed.
Print Assumptions C43_rebuild_contents.
(** What was rebuilt cannot be made a table again. *)
Theorem C43_again_refuted : forall V zero rows d, rebuild_dict V zero rows = Ok d -> rows <> [] -> encode V d = Raise IndexError.
Proof. exact rebuilt_refused. Qed.
Print Assumptions C43_again_refuted.
Example C43_again_used : exists d, rebuild_dict Z 0 [mktrow 1 2 32 0 3 4 5 6 7 8] = Ok d /\ List.length d = 1%nat.
Proof. eexists. split; reflexivity. Qed.
