(** The offset of two stars in an image, and circular masks: corgidrp/astrom.py centroid 17-36, shift_psf 84-106,
    measure_offset 108-180, create_circular_mask 1169-1192.

    Floats are real numbers without rounding; None is NaN or an infinity, and any arithmetic with it gives None.  An image
    is a function of row and column, read inside its shape only (SpotModel); slices with negative bounds are those of
    Python.  scipy's map_coordinates is an unknown function [mapc] of the image and of a row and column, and curve_fit an
    unknown [fit] of the template as a function of its three parameters, of the data and of the start, that returns the
    three parameters and the diagonal of the covariance, or raises. *)
From Coq Require Import List Arith Bool Reals ZArith.
From Verif Require Import Base SpotModel BendModel.
Import ListNotations.
Local Open Scope R_scope.

(** 30-36 *)
Definition centroid (im : image) : num * num :=
  let all := nsum_to (ny im) (fun i => nsum_to (nx im) (fun j => px im i j)) in
  let ycen := ndiv (nsum_to (ny im) (fun i => nsum_to (nx im) (fun j => nmul (Some (INR i)) (px im i j)))) all in
  let xcen := ndiv (nsum_to (ny im) (fun i => nsum_to (nx im) (fun j => nmul (Some (INR j)) (px im i j)))) all in
  (xcen, ycen).

(** A bound of a slice of a sequence of length n, and frame[a:b, c:d]. *)
Definition slice_bound (n a : Z) : Z := if (a <? 0)%Z then Z.max 0 (a + n) else Z.min a n.
Definition slice (im : image) (rows cols : Z * Z) : image :=
  let r0 := slice_bound (Z.of_nat (ny im)) (fst rows) in
  let r1 := slice_bound (Z.of_nat (ny im)) (snd rows) in
  let c0 := slice_bound (Z.of_nat (nx im)) (fst cols) in
  let c1 := slice_bound (Z.of_nat (nx im)) (snd cols) in
  mkimage (Z.to_nat (r1 - r0)) (Z.to_nat (c1 - c0)) (fun i j => px im (Z.to_nat r0 + i)%nat (Z.to_nat c0 + j)%nat).
(** 129-147: the bounds in one direction.  The code tests rows and columns in turn, each direction by itself. *)
Definition window (n : nat) (guess : R) (rad : nat) : Z * Z :=
  let ind := trunc guess in
  let r := Z.of_nat rad in
  let '(lo, hi) := ((ind - r)%Z, (ind + r + 1)%Z) in
  let '(lo, hi) := if (lo <? 0)%Z then (0%Z, (2 * r + 1)%Z) else (lo, hi) in
  if (Z.of_nat n <? hi)%Z then ((Z.of_nat n - 2 * r - 1)%Z, Z.of_nat n) else (lo, hi).
(** 129-152: the centroid about the guess *)
Definition star_place (im : image) (x y : R) (rad : nat) : num * num :=
  let rows := window (ny im) y rad in
  let cols := window (nx im) x rad in
  let c := centroid (slice im rows cols) in
  (nadd (fst c) (Some (IZR (fst cols))), nadd (snd c) (Some (IZR (fst rows)))).

Definition grid (n : nat) (f : nat -> nat -> num) : list num := map (fun p => f (fst p) (snd p)) (list_prod (seq 0 n) (seq 0 n)).
Section Shift.
  Variable mapc : image -> num -> num -> num.
  Variable fit : (R -> R -> R -> list num) -> list num -> R * R * R -> result ((R * R * R) * (num * num * num)).

  (** 84-106 *)
  Definition shift_psf (frame : image) (dx dy flux : R) (fitsize stampsize : nat) : list num :=
    let lit := mkimage (ny frame) (nx frame) (fun i j => nmul (px frame i j) (Some flux)) in
    grid fitsize (fun i j => mapc lit (Some (INR i - INR (fitsize / 2) + (INR (stampsize / 2) + dy))) (Some (INR j - INR (fitsize / 2) + (INR (stampsize / 2) + dx)))).
  (** 154-163 and 165-173: the image about a place *)
  Definition around (im : image) (x y : num) (s i j : nat) : num :=
    mapc im (nadd (Some (INR i - INR (s / 2))) y) (nadd (Some (INR j - INR (s / 2))) x).
  (** 108-180 *)
  Definition measure_offset (im : image) (x y ox oy guessflux : R) (rad stampsize : nat) : result ((R * R) * (num * num * num)) :=
    let c := star_place im x y rad in
    let stamp := mkimage stampsize stampsize (around im (fst c) (snd c) stampsize) in
    let data := grid stampsize (around im (nadd (fst c) (Some ox)) (nadd (snd c) (Some oy)) stampsize) in
    do r <- fit (fun dx dy flux => shift_psf stamp dx dy flux 10 10) data (0, 0, guessflux);
    let '((tx, ty, _), (vx, vy, vf)) := r in
    Ok ((ox - tx, oy - ty), (nsqrt vx, nsqrt vy, nsqrt vf)).
End Shift.

(** 1169-1192: [center] as given, for a default the middle in the order of the shape *)
Definition mask_center (ny nx : nat) (center : option (R * R)) : R * R :=
  match center with Some c => c | None => ((INR ny - 1) / 2, (INR nx - 1) / 2) end.
Definition mask_radius (ny nx : nat) (center : option (R * R)) (r : option R) : R :=
  let c := mask_center ny nx center in
  match r with Some r => r | None => Rmin (Rmin (Rmin (fst c) (snd c)) (INR ny - fst c)) (INR nx - snd c) end.
Definition create_circular_mask (ny nx : nat) (center : option (R * R)) (r : option R) (i j : nat) : bool :=
  let c := mask_center ny nx center in
  rle (sqrt ((INR j - fst c) ^ 2 + (INR i - snd c) ^ 2)) (mask_radius ny nx center r).
