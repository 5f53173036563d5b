(** Specification of the nearest-neighbour lookups. *)
From Coq Require Import List Arith Reals ZArith.
From Verif Require Import Base AngleSpec ComboSpec.
Import ListNotations.
Local Open Scope R_scope.

(** Entry [i] is the first of those nearest by the distance [d]. *)
Definition nearest_of {A} (d : A -> R) (l : list A) (i : nat) (a : A) : Prop :=
  nth_error l i = Some a /\ forall j b, nth_error l j = Some b -> d a <= d b /\ ((j < i)%nat -> d a < d b).

(** Rounding to the nearest integer, halves to even. *)
Definition rounds (x : R) (z : Z) : Prop := Rabs (x - IZR z) <= / 2 /\ (Rabs (x - IZR z) = / 2 -> Z.Even z).
Definition far (p : R * R) : R := dist (0, 0) p.
Definition azimuth (p : R * R) (a : R) : Prop := - PI < a <= PI /\ fst p = far p * cos a /\ snd p = far p * sin a /\ (p = (0, 0) -> a = 0).

Section GetPSF.
Variable grid : list (R * R).
Definition smallest (P : nat -> Prop) (d : nat -> Z -> Prop) (i : nat) : Prop := P i /\ exists z, d i z /\ forall j z', P j -> d j z' -> (z <= z')%Z.
(** The difference of radius, in whole pixels. *)
Definition radial_step (t : R * R) (i : nat) (z : Z) : Prop := exists g, nth_error grid i = Some g /\ rounds (Rabs (far t - far g)) z.
(** The difference of azimuth, not across the cut, in tenths of a pixel along the circle. *)
Definition angular_step (t : R * R) (i : nat) (z : Z) : Prop := exists g a b, nth_error grid i = Some g /\ azimuth t a /\ azimuth g b /\ rounds (10 * far t * Rabs (a - b)) z.
Definition radially_near (t : R * R) : nat -> Prop := smallest (fun i => (i < List.length grid)%nat) (radial_step t).
Definition angularly_near (t : R * R) : nat -> Prop := smallest (radially_near t) (angular_step t).

Definition chosen {P} (average : P -> P -> P) (psfs : list P) (t : R * R) (p : P) : Prop :=
  (exists i, (forall j, radially_near t j <-> j = i) /\ nth_error psfs i = Some p)
  \/ (far t <> 0 /\ (exists j k, j <> k /\ radially_near t j /\ radially_near t k)
      /\ ((exists i, (forall j, angularly_near t j <-> j = i) /\ nth_error psfs i = Some p)
          \/ exists i j a b, (i < j)%nat /\ (forall k, angularly_near t k <-> k = i \/ k = j) /\ nth_error psfs i = Some a /\ nth_error psfs j = Some b /\ p = average a b)).
(** The targets no nearer to the mask than the nearest entry, nor farther than the farthest. *)
Definition in_range (t : R * R) : Prop := (exists g, In g grid /\ far g <= far t) /\ exists g, In g grid /\ far t <= far g.
End GetPSF.

(** The entry a Python index names: counted from the start, or from the end if negative. *)
Definition named_by {A} (l : list A) (z : Z) (a : A) : Prop :=
  (exists k, z = Z.of_nat k /\ nth_error l k = Some a) \/ (exists k, z = (- Z.of_nat (S k))%Z /\ nth_error (rev l) k = Some a).
(** The place of the first pixel on the detector: 0 where the card is absent. *)
Definition corner (card : option R) (v : R) : Prop := card = Some v \/ (card = None /\ v = 0).
