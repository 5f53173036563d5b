(** Specification of the read noise from a Gaussian, apart from the model: bins, tallies, starting values. *)
From Coq Require Import List Reals ZArith.
From Verif Require Import Base CombineModel.
Import ListNotations.
Local Open Scope R_scope.

(** [n] entries of the list have the property *)
Inductive Tally {A} (P : A -> Prop) : list A -> Z -> Prop :=
| tally_nil : Tally P [] 0
| tally_in : forall x l n, P x -> Tally P l n -> Tally P (x :: l) (n + 1)
| tally_out : forall x l n, ~ P x -> Tally P l n -> Tally P (x :: l) n.

(** Bin [k] of the edges [a], [a + 1], ..., [b - 1]: from an edge up to the next one, which belongs to it for the last bin only *)
Definition InBin (a b : Z) (k : nat) (v : val) : Prop :=
  exists x, v = Some x /\ IZR (a + Z.of_nat k) <= x /\ (x < IZR (a + Z.of_nat k + 1) \/ (a + Z.of_nat k + 2 = b)%Z /\ x = IZR (b - 1)).
(** A number from the first edge to the last *)
Definition InRange (a b : Z) (v : val) : Prop := exists x, v = Some x /\ IZR a <= x <= IZR (b - 1).
(** The counts: one for every bin *)
Definition Histogram (a b : Z) (l : list val) (c : list Z) : Prop :=
  List.length c = Z.to_nat (b - a - 1) /\ forall k n, nth_error c k = Some n -> Tally (InBin a b k) l n.
(** The left edges of the bins *)
Definition LeftEdges (a b : Z) (x : list Z) : Prop :=
  List.length x = Z.to_nat (b - a - 1) /\ forall k z, nth_error x k = Some z -> z = (a + Z.of_nat k)%Z.
(** [k] is the first of the fullest bins *)
Definition FirstFullest (c : list Z) (k : nat) (n : Z) : Prop :=
  nth_error c k = Some n /\ (forall j m, nth_error c j = Some m -> (m <= n)%Z) /\ forall j m, (j < k)%nat -> nth_error c j = Some m -> (m < n)%Z.
(** What the fit is given *)
Definition Start (a b : Z) (l : list val) (x c : list Z) (p : R * R * R) : Prop :=
  LeftEdges a b x /\ Histogram a b l c /\ exists k n, FirstFullest c k n /\ p = (IZR n, IZR (a + Z.of_nat k), 10).

Definition Fit : Type := list Z -> list Z -> R * R * R -> result (R * R * R).
(** The bell curve and how far the counts are from it *)
Definition bell (p : R * R * R) (x : R) : R := fst (fst p) * exp (- ((x - snd (fst p)) ^ 2 / (2 * snd p ^ 2))).
Fixpoint misfit (p : R * R * R) (x y : list Z) : R :=
  match x, y with u :: t, v :: s => (IZR v - bell p (IZR u)) ^ 2 + misfit p t s | _, _ => 0 end.
(** A fit that finds the least squares *)
Definition LeastSquares (f : Fit) : Prop := forall x y p q, f x y p = Ok q -> forall r, misfit q x y <= misfit r x y.
(** A fit that stays where it starts if nothing is left to gain *)
Definition Stays (f : Fit) : Prop := forall x y p, misfit p x y = 0 -> f x y p = Ok p.
(** The numbers moved by [d] *)
Definition moved (d : Z) (v : val) : val := option_map (fun x => x + IZR d) v.
Definition total (c : list Z) : Z := fold_right Z.add 0%Z c.
(** A fit to which it does not matter where zero is *)
Definition Equivariant (f : Fit) : Prop := forall d x y A m s,
  f (map (fun z => (z + d)%Z) x) y (A, m + IZR d, s) = match f x y (A, m, s) with Ok (A', m', s') => Ok (A', m' + IZR d, s') | Raise e => Raise e end.
