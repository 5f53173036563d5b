(** Specification of the source search. *)
From Coq Require Import List Arith Reals ZArith.
From Verif Require Import Base BpmSpec.
Import ListNotations.
Local Open Scope R_scope.

Definition same_shape {A B} (a : list (list A)) (b : list (list B)) : Prop := exists nr nc, rect nr nc a /\ rect nr nc b.
(** The first of the largest values, in reading order. *)
Definition brightest (m : list (list (option R))) (r c : nat) (v : R) : Prop :=
  cell m r c (Some v) /\ forall r' c' v', cell m r' c' (Some v') -> v' <= v /\ ((r' < r)%nat \/ (r' = r /\ (c' < c)%nat) -> v' < v).
(** Distance of two pixels. *)
Definition pixels_apart (r c r' c' : nat) : R := sqrt ((INR r' - INR r) ^ 2 + (INR c' - INR c) ^ 2).
(** A number of pixels in which there is a value, no pixel twice. *)
Definition valued (img : list (list (option R))) (ps : list (nat * nat)) : Prop := NoDup ps /\ forall r c, In (r, c) ps <-> exists v, cell img r c (Some v).

(** The PSF is centred: an odd square with [w] pixels on either side. *)
Definition centred (w : nat) (psf : list (list R)) : Prop := rect (2 * w + 1) (2 * w + 1) psf.
Definition clear_of_edges (w nr nc r c : nat) : Prop := (w <= r /\ r + w < nr /\ w <= c /\ c + w < nc)%nat.
(** [img'] is [img] less the PSF [k] times around (r, c), its core of radius [fwhm] being NaN. *)
Definition removed (w : nat) (psf : list (list R)) (fwhm : R) (k : option R) (r c : nat) (img img' : list (list (option R))) : Prop :=
  same_shape img img' /\ forall i j v', cell img' i j v' ->
    let box := (r <= i + w /\ i <= r + w /\ c <= j + w /\ j <= c + w)%nat in
    (~ box -> cell img i j v')
    /\ (box -> pixels_apart r c i j < fwhm -> v' = None)
    /\ (box -> fwhm <= pixels_apart r c i j -> exists v p, cell img i j v /\ cell psf (i + w - r) (j + w - c) p /\ v' = match v, k with Some a, Some s => Some (a - p * s) | _, _ => None end).
(** The values in the box, row by row. *)
Definition box_values (w r c : nat) (img : list (list (option R))) (vs : list (option R)) : Prop :=
  List.length vs = ((2 * w + 1) * (2 * w + 1))%nat /\ forall a b v, (a < 2 * w + 1)%nat -> (b < 2 * w + 1)%nat -> nth_error vs (a * (2 * w + 1) + b)%nat = Some v -> cell img (r + a - w) (c + b - w) v.

Section Spec.
(** the S/N map of an image, or an error; the scale of the PSF for the values of the box *)
Variable snmap : list (list (option R)) -> result (list (list (option R))).
Variable scale : list (option R) -> list R -> option R.
Variable w : nat.
Variable psf : list (list R).
Variable fwhm thr : R.
Definition quiet (m : list (list (option R))) : Prop := forall r c v, cell m r c (Some v) -> v < thr.
(** One source is found and removed. *)
Definition found (img : list (list (option R))) (sn : R) (r c : nat) (img' : list (list (option R))) : Prop :=
  exists m vs, snmap img = Ok m /\ brightest m r c sn /\ thr < sn /\ clear_of_edges w (List.length img) (List.length (hd [] img)) r c
    /\ box_values w r c img vs /\ removed w psf fwhm (scale vs (List.concat psf)) r c img img'.
Inductive reaches : list (list (option R)) -> list (R * (nat * nat)) -> list (list (option R)) -> Prop :=
| reach_here : forall img, reaches img [] img
| reach_next : forall img sn r c img' l img'', found img sn r c img' -> reaches img' l img'' -> reaches img ((sn, (r, c)) :: l) img''.
(** How a search ends. *)
Definition stops (img : list (list (option R))) : Prop := exists m, snmap img = Ok m /\ List.concat m <> [] /\ quiet m.
Definition tied (img : list (list (option R))) : Prop := exists m r c, snmap img = Ok m /\ brightest m r c thr.
Definition fails (img : list (list (option R))) (e : exn) : Prop :=
  snmap img = Raise e \/ exists m, snmap img = Ok m /\ e = ValueError /\ (List.concat m = [] \/ exists r c v, brightest m r c v /\ thr < v /\ ~ clear_of_edges w (List.length img) (List.length (hd [] img)) r c).
(** The map has the shape of the image and a number only where the image has one. *)
Definition keeps_nan : Prop := forall img m nr nc, rect nr nc img -> snmap img = Ok m -> rect nr nc m /\ forall r c, cell img r c None -> cell m r c None.
End Spec.
