(** Floating point values with infinities and NaN: numpy float arithmetic with
    the finite values taken as exact rationals (no rounding, no overflow) and a
    single, unsigned zero. *)
From Coq Require Import List Bool QArith.
Import ListNotations.

Inductive fl : Type := Fin (q : Q) | Inf (neg : bool) | NaN.

Definition qneg (q : Q) : bool := negb (Qle_bool 0 q).
Definition qzero (q : Q) : bool := Qeq_bool q 0.

Definition fopp (x : fl) : fl := match x with Fin q => Fin (- q) | Inf s => Inf (negb s) | NaN => NaN end.
Definition fadd (x y : fl) : fl :=
  match x, y with
  | NaN, _ | _, NaN => NaN
  | Fin a, Fin b => Fin (a + b)
  | Inf s, Inf t => if Bool.eqb s t then Inf s else NaN
  | Inf s, _ | _, Inf s => Inf s
  end.
Definition fsub (x y : fl) : fl := fadd x (fopp y).
Definition fmul (x y : fl) : fl :=
  match x, y with
  | NaN, _ | _, NaN => NaN
  | Fin a, Fin b => Fin (a * b)
  | Inf s, Fin b | Fin b, Inf s => if qzero b then NaN else Inf (xorb s (qneg b))
  | Inf s, Inf t => Inf (xorb s t)
  end.
(** x / 0 takes the sign of x (zeros carry no sign here). *)
Definition fdiv (x y : fl) : fl :=
  match x, y with
  | NaN, _ | _, NaN => NaN
  | Fin a, Fin b => if qzero b then (if qzero a then NaN else Inf (qneg a)) else Fin (a / b)
  | Inf s, Fin b => Inf (xorb s (qneg b))
  | Fin _, Inf _ => Fin 0
  | Inf _, Inf _ => NaN
  end.

(** Comparisons are false on NaN. *)
Definition fle (x y : fl) : bool :=
  match x, y with
  | NaN, _ | _, NaN => false
  | Fin a, Fin b => Qle_bool a b
  | Inf s, Inf t => s || negb t
  | Inf s, Fin _ => s
  | Fin _, Inf t => negb t
  end.
Definition flt (x y : fl) : bool :=
  match x, y with
  | NaN, _ | _, NaN => false
  | _, _ => negb (fle y x)
  end.
Definition fge (x y : fl) : bool := fle y x.
Definition fgt (x y : fl) : bool := flt y x.
Definition feq (x y : fl) : bool := fle x y && fle y x.
Definition is_nan (x : fl) : bool := match x with NaN => true | _ => false end.
