(** Specification of the traps followed over the temperatures. *)
From Coq Require Import List Arith Reals ZArith String Sorted.
From Verif Require Import LocModel LocSpec TrackModel.
Import ListNotations.
Local Open Scope R_scope.

(** As located (C52): the temperatures distinct, each pixel once, and in it the traps of one place numbered
    0, 1, 2, ... in order. *)
Definition numbered_traps (tr : traps) : Prop :=
  NoDup (map fst tr) /\ forall i l sub, In (i, l) tr -> map t_it (filter (named sub) l) = seq 0 (List.length (filter (named sub) l)).
Definition proper (ts : temps) : Prop := NoDup (map fst ts) /\ forall T tr, In (T, tr) ts -> numbered_traps tr.
(** The fits located at a temperature in one place of a pixel, in order. *)
Definition found (ts : temps) (i : coord) (sub : string) (T : R) (l : list trap) : Prop :=
  (exists tr m, In (T, tr) ts /\ In (i, m) tr /\ l = filter (named sub) m) \/ ((forall tr m, In (T, tr) ts -> ~ In (i, m) tr) /\ l = []).

Definition precedes {A} (l : list A) (x y : A) : Prop := exists a b c, l = a ++ x :: b ++ y :: c.
Definition gap (x y : trap) : R := Rabs (t_tau x - t_tau y).
Section Family.
Variable L : R -> list trap.
Variable Ts : list R.
Variable a : nat -> R -> option trap.
(** Not in a trap of a smaller number. *)
Definition free (n : nat) (T : R) (x : trap) : Prop := In x (L T) /\ forall m, (m < n)%nat -> a m T <> Some x.
(** [a n T] is the fit of the trap number [n] at the temperature [T]. *)
Record tracked : Prop := mktracked {
  (** the trap has a fit at the temperatures with more than [n] fits *)
  tr_present : forall n T, In T Ts -> (a n T <> None <-> (n < List.length (L T))%nat);
  tr_mine : forall n T x, In T Ts -> a n T = Some x -> In x (L T);
  (** no fit is in two traps *)
  tr_once : forall m n T x, In T Ts -> a m T = Some x -> a n T = Some x -> m = n;
  (** at its lowest temperature, the first fit that is free *)
  tr_start : forall n T x, In T Ts -> a n T = Some x -> (forall T', In T' Ts -> T' < T -> a n T' = None) -> forall y, free n T y -> x = y \/ precedes (L T) x y;
  (** later, the free fit whose tau is nearest to that at the temperature before, the first of these *)
  tr_next : forall n T x T0 x0, In T Ts -> In T0 Ts -> a n T = Some x -> a n T0 = Some x0 -> T0 < T -> (forall T', In T' Ts -> T0 < T' < T -> a n T' = None) ->
    forall y, free n T y -> gap x0 x < gap x0 y \/ (gap x0 x = gap x0 y /\ (x = y \/ precedes (L T) x y)) }.
(** What is recorded of trap number [n]: its temperatures, ascending, with the values of its fits. *)
Definition recorded (n : nat) (e : entry) : Prop :=
  e_T e <> [] /\ StronglySorted Rlt (e_T e) /\ (forall T, In T (e_T e) <-> In T Ts /\ a n T <> None)
  /\ Forall2 (fun T v => exists x, a n T = Some x /\ v = t_tau x) (e_T e) (e_tau e)
  /\ Forall2 (fun T v => exists x, a n T = Some x /\ v = t_sig x) (e_T e) (e_sig e)
  /\ Forall2 (fun T v => exists x, a n T = Some x /\ v = t_cap x) (e_T e) (e_cap e).
End Family.
(** A temperature of the run between those of the trap, where it is missing. *)
Definition has_gap (Ts : list R) (e : entry) : Prop := exists T T1 T2, In T Ts /\ ~ In T (e_T e) /\ In T1 (e_T e) /\ In T2 (e_T e) /\ T1 < T < T2.
(** As many members have the property. *)
Inductive counts {A} (P : A -> Prop) : list A -> nat -> Prop :=
| counts_nil : counts P [] 0
| counts_yes x l n : P x -> counts P l n -> counts P (x :: l) (S n)
| counts_no x l n : ~ P x -> counts P l n -> counts P (x :: l) n.
