(** Property theorems C23: FTIMEUTC stamps. *)
From Coq Require Import List ZArith Bool String Ascii Lia.
From Verif Require Import Base TimeModel TimeSpec TimeProofs TimeTextProofs.
Import ListNotations.
Local Open Scope Z_scope.

(** Calendar times denote instants, one each. *)
Theorem C23_calendar : (forall t, valid t -> exists us, instant t us /\ 0 <= us < end_of_time /\ forall us', instant t us' -> us' = us)
  /\ forall t t' us, valid t -> valid t' -> instant t us -> instant t' us -> t = t'.
Proof. exact (conj instant_total (fun t t' us V V' I I' => inst_inj t t' V V' (eq_trans (eq_sym (instant_inst t us I)) (instant_inst t' us I')))). Qed.
Print Assumptions C23_calendar.

(** The stamp is the text of the calendar time of the nearest tenth of a second of
    the instant meant. *)
Theorem C23_stamp : forall pad parse s t off us x, parse s = Some (t, off) -> valid t -> instant t us ->
  (format_ftimeutc pad parse s = Ok x <-> 0 <= shift off us /\ exists r t', nearest_tenth (shift off us) r /\ valid t' /\ instant t' r /\ text_of pad t' x).
Proof. exact format_iff. Qed.
Print Assumptions C23_stamp.

(** It fails only on unreadable text and outside the years 1 to 9999. *)
Theorem C23_raises : (forall pad parse s t off us e, parse s = Some (t, off) -> valid t -> instant t us ->
    (format_ftimeutc pad parse s = Raise e <-> e = PyException /\ (shift off us < 0 \/ end_of_time - 50000 <= shift off us)))
  /\ forall pad parse s, parse s = None -> format_ftimeutc pad parse s = Raise ValueError.
Proof. exact (conj format_raise format_bad). Qed.
Print Assumptions C23_raises.

(** Sixteen characters. *)
Theorem C23_length : forall pad t s, valid t -> pad = true \/ 1000 <= d_y t -> text_of pad t s -> String.length s = 16%nat.
Proof. exact text_length. Qed.
Print Assumptions C23_length.

(** Stamps sort as the rounded instants do; in particular stamps are equal exactly
    when these are. *)
Theorem C23_order : forall pad parse s1 t1 off1 us1 x1 s2 t2 off2 us2 x2, parse s1 = Some (t1, off1) -> valid t1 -> instant t1 us1 -> format_ftimeutc pad parse s1 = Ok x1 ->
  parse s2 = Some (t2, off2) -> valid t2 -> instant t2 us2 -> format_ftimeutc pad parse s2 = Ok x2 -> pad = true \/ (thousand <= shift off1 us1 /\ thousand <= shift off2 us2) ->
  forall r1 r2, nearest_tenth (shift off1 us1) r1 -> nearest_tenth (shift off2 us2) r2 -> String.compare x1 x2 = Z.compare r1 r2.
Proof. exact format_order. Qed.
Print Assumptions C23_order.

Theorem C23_monotone : forall pad parse s1 t1 off1 us1 x1 s2 t2 off2 us2 x2, parse s1 = Some (t1, off1) -> valid t1 -> instant t1 us1 -> format_ftimeutc pad parse s1 = Ok x1 ->
  parse s2 = Some (t2, off2) -> valid t2 -> instant t2 us2 -> format_ftimeutc pad parse s2 = Ok x2 -> pad = true \/ (thousand <= shift off1 us1 /\ thousand <= shift off2 us2) ->
  shift off1 us1 <= shift off2 us2 -> String.compare x1 x2 <> Gt.
Proof. exact format_monotone. Qed.
Print Assumptions C23_monotone.

(** Times on the grid are kept. *)
Theorem C23_grid : forall pad parse s t off us x, parse s = Some (t, off) -> valid t -> instant t us -> (100000 | shift off us) -> format_ftimeutc pad parse s = Ok x ->
  exists t', valid t' /\ instant t' (shift off us) /\ text_of pad t' x.
Proof. exact format_grid. Qed.
Print Assumptions C23_grid.

(** Where years below 1000 are not padded, they sort after later ones. *)
Definition t999 : dt := mkdt 999 12 31 23 59 59 0.
Definition t1000 : dt := mkdt 1000 1 1 0 0 0 0.
Theorem C23_unpadded_refuted : valid t999 /\ valid t1000 /\ (exists us, instant t999 us /\ instant t1000 (us + 1000000)) /\
  forall parse, parse "a"%string = Some (t999, None) -> parse "b"%string = Some (t1000, None) ->
  exists x y, format_ftimeutc false parse "a" = Ok x /\ format_ftimeutc false parse "b" = Ok y /\ String.length x = 15%nat /\ String.compare x y = Gt.
Proof.
  assert (V : valid t999) by (apply valid_iff; cbn; split; [split; [lia|]; split; [lia|]; vm_compute; split; discriminate|lia]). assert (W : valid t1000) by (apply valid_iff; cbn; split; [split; [lia|]; split; [lia|]; vm_compute; split; discriminate|lia]).
  split; [exact V|]. split; [exact W|]. split; [eexists; split; [apply (instant_iff _ _ V); reflexivity|apply (instant_iff _ _ W); vm_compute; reflexivity]|].
  intros parse P1 P2. unfold format_ftimeutc. rewrite P1, P2. eexists; eexists. split; [vm_compute; reflexivity|]. split; [vm_compute; reflexivity|]. split; vm_compute; reflexivity.
Qed.
Print Assumptions C23_unpadded_refuted.

(** New Year's Eve of a leap year, half past five hours east of Greenwich: the tenth
    rounds up through all fields. *)
Definition ex_parse (s : string) : option (dt * option Z) :=
  if String.eqb s "2024-12-31T23:59:59.95" then Some (mkdt 2024 12 31 23 59 59 950000, None)
  else if String.eqb s "2024-03-01T05:29:59.949999+05:30" then Some (mkdt 2024 3 1 5 29 59 949999, Some 19800000000)
  else if String.eqb s "9999-12-31T23:59:59.95" then Some (mkdt 9999 12 31 23 59 59 950000, None) else None.
Example C23_example : format_ftimeutc false ex_parse "2024-12-31T23:59:59.95" = Ok "20250101T0000000"%string
  /\ format_ftimeutc false ex_parse "2024-03-01T05:29:59.949999+05:30" = Ok "20240229T2359599"%string
  /\ format_ftimeutc false ex_parse "9999-12-31T23:59:59.95" = Raise PyException /\ valid (mkdt 2024 2 29 23 59 59 900000) /\ leap 2024 /\ ~ leap 1900.
Proof.
  split; [vm_compute; reflexivity|]. split; [vm_compute; reflexivity|]. split; [vm_compute; reflexivity|].
  split; [apply valid_iff; cbn; split; [split; [lia|]; split; [lia|]; vm_compute; split; discriminate|lia]|]. split; [apply is_leap_iff; reflexivity|apply is_leap_false; reflexivity].
Qed.
