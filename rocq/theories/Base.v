(** Shared vocabulary of the model: Python exceptions as values, and the
    numpy / Python list primitives used by several modelled functions. *)
From Coq Require Import List ZArith QArith Bool Lia String Ascii.
Import ListNotations.

(** The exception classes raised by the modelled code.  [PyException] is a
    plain [raise Exception(...)]; [UnboundLocalError] is Python's own error for
    reading an unassigned local. *)
Inductive exn : Type :=
| ValueError | TypeError | KeyError | IndexError | AttributeError
| AssertionError | NotImplementedError | UnboundLocalError | PyException.

Inductive result (A : Type) : Type :=
| Ok (a : A)
| Raise (e : exn).
Arguments Ok {A} a.
Arguments Raise {A} e.

Definition bind {A B} (m : result A) (k : A -> result B) : result B :=
  match m with Ok a => k a | Raise e => Raise e end.

Notation "'do' x <- m ; k" := (bind m (fun x => k))
  (at level 200, x name, m at level 100, k at level 200, right associativity).

Definition is_ok {A} (m : result A) : bool :=
  match m with Ok _ => true | Raise _ => false end.

(** [d[k]] on a value that may be missing: [KeyError]. *)
Definition getkey {A} (o : option A) : result A :=
  match o with Some a => Ok a | None => Raise KeyError end.

(** numpy [argmin]: index of the first smallest element.  numpy raises
    [ValueError] on an empty array; here that is [None]. *)
Fixpoint argmin_from (best : Q) (ibest : nat) (i : nat) (l : list Q) : nat :=
  match l with
  | [] => ibest
  | x :: t => if negb (Qle_bool best x) then argmin_from x i (S i) t
              else argmin_from best ibest (S i) t
  end.

Definition argmin (l : list Q) : option nat :=
  match l with
  | [] => None
  | x :: t => Some (argmin_from x 0 1 t)
  end.

(** numpy [argmax]: index of the first largest element. *)
Fixpoint argmax_from (best : Q) (ibest : nat) (i : nat) (l : list Q) : nat :=
  match l with
  | [] => ibest
  | x :: t => if negb (Qle_bool x best) then argmax_from x i (S i) t
              else argmax_from best ibest (S i) t
  end.

Definition argmax (l : list Q) : option nat :=
  match l with
  | [] => None
  | x :: t => Some (argmax_from x 0 1 t)
  end.

(** Python slice [l[lo:hi]] for non-negative bounds (clips at the end). *)
Definition slice {A} (lo hi : nat) (l : list A) : list A :=
  firstn (hi - lo) (skipn lo l).
