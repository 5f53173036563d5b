(** What an offset of two stars is. *)
From Coq Require Import List Arith Bool Reals ZArith.
From Verif Require Import Base SpotModel SpotSpec BendModel BendSpec ShiftModel.
Import ListNotations.
Local Open Scope R_scope.

(** The window of [2 rad + 1] pixels as near about the pixel of the guess as the image lets it be. *)
Definition nearest_window (n : nat) (guess : R) (rad : nat) (lo : nat) : Prop :=
  (lo + 2 * rad + 1 <= n)%nat /\ (forall p : nat, INR p <= guess < INR p + 1 ->
    ((rad <= p)%nat -> (p + rad < n)%nat -> (lo + rad = p)%nat) /\ ((p < rad)%nat -> lo = 0%nat) /\ ((rad <= p)%nat -> (n <= p + rad)%nat -> (lo + 2 * rad + 1 = n)%nat)).
Definition window_pixels (r0 c0 rad : nat) : list (nat * nat) := list_prod (seq r0 (2 * rad + 1)) (seq c0 (2 * rad + 1)).
(** The centre of light of pixels. *)
Definition light (v : nat -> nat -> R) (ps : list (nat * nat)) : R := total (map (fun p => v (fst p) (snd p)) ps).
Definition centre_x (v : nat -> nat -> R) (ps : list (nat * nat)) : R := total (map (fun p => INR (snd p) * v (fst p) (snd p)) ps) / light v ps.
Definition centre_y (v : nat -> nat -> R) (ps : list (nat * nat)) : R := total (map (fun p => INR (fst p) * v (fst p) (snd p)) ps) / light v ps.
Definition shows (im : image) (v : nat -> nat -> R) : Prop := forall i j, (i < ny im)%nat -> (j < nx im)%nat -> px im i j = Some (v i j).

(** The values of the n by n places [g], row by row. *)
Definition square_of (n : nat) (g : nat -> nat -> num) (l : list num) : Prop := List.length l = (n * n)%nat /\ forall i j, (i < n)%nat -> (j < n)%nat -> nth_error l (i * n + j) = Some (g i j).

(** A stamp about the first star, its template shifted and scaled, and what it is fitted to. *)
Definition stamp_of (mapc : image -> num -> num -> num) (im : image) (s : nat) (x y : num) (st : image) : Prop :=
  ny st = s /\ nx st = s /\ forall i j, (i < s)%nat -> (j < s)%nat -> px st i j = mapc im (nadd (Some (INR i - INR (s / 2))) y) (nadd (Some (INR j - INR (s / 2))) x).
Definition scaled (a : R) (im im' : image) : Prop := ny im' = ny im /\ nx im' = nx im /\ forall i j, px im' i j = nmul (px im i j) (Some a).

(** Pixels of a disc. *)
Definition inside (cx cy r : R) (i j : nat) : Prop := 0 <= r /\ (INR j - cx) * (INR j - cx) + (INR i - cy) * (INR i - cy) <= r * r.
(** The least of some numbers. *)
Definition least (l : list R) (r : R) : Prop := In r l /\ forall x, In x l -> r <= x.
