(** What the search of stars should find. *)
From Coq Require Import List Arith Bool Reals ZArith.
From Verif Require Import Base SpotModel PeakModel.
Import ListNotations.
Local Open Scope R_scope.

Definition inside (im : image) (p : nat * nat) : Prop := (fst p < ny im)%nat /\ (snd p < nx im)%nat.
(** Row by row. *)
Definition before (p q : nat * nat) : Prop := (fst p < fst q)%nat \/ (fst p = fst q /\ (snd p < snd q)%nat).
(** The square of half width [w] about [p]. *)
Definition near (w : nat) (p q : nat * nat) : Prop := (fst p <= fst q + w)%nat /\ (fst q <= fst p + w)%nat /\ (snd p <= snd q + w)%nat /\ (snd q <= snd p + w)%nat.
Definition hidden (w : nat) (ps : list (nat * nat)) (q : nat * nat) : Prop := exists p, In p ps /\ near w p q.
(** The value of pixel [q] once the squares about [ps] are set to zero. *)
Definition shows (im : image) (w : nat) (ps : list (nat * nat)) (q : nat * nat) (v : R) : Prop :=
  (hidden w ps q /\ v = 0) \/ (~ hidden w ps q /\ px im (fst q) (snd q) = Some v).
(** The first of the brightest pixels. *)
Definition peak (im : image) (w : nat) (ps : list (nat * nat)) (p : nat * nat) : Prop :=
  inside im p /\ exists v, shows im w ps p v /\ forall q u, inside im q -> shows im w ps q u -> u <= v /\ (before q p -> u < v).
(** Peaks one after the other, at most [n] more than [ps]; a peak like the last one ends it once there are three. *)
Inductive peaks (im : image) (w : nat) : nat -> list (nat * nat) -> list (nat * nat) -> Prop :=
| peaks_all : forall ps, peaks im w 0 ps ps
| peaks_stop : forall n ps p, (2 <= List.length ps)%nat -> peak im w (ps ++ [p]) p -> peaks im w (S n) (ps ++ [p]) (ps ++ [p])
| peaks_step : forall n ps p l, peak im w ps p -> (forall ps' , (2 <= List.length ps')%nat -> ps <> ps' ++ [p]) -> peaks im w n (ps ++ [p]) l -> peaks im w (S n) ps l.
(** The half width: the integer part of fwhm times mask_rad. *)
Definition half_width (f : R) (w : nat) : Prop := (0 <= f /\ INR w <= f < INR w + 1) \/ (-1 < f < 0 /\ w = 0%nat).
(** The image with zeros around it. *)
Definition framed (im fr : image) : Prop :=
  ny fr = (ny im + 50)%nat /\ nx fr = (nx im + 50)%nat /\
  (forall i j, (i < ny im)%nat -> (j < nx im)%nat -> px fr (i + 25)%nat (j + 25)%nat = px im i j) /\
  (forall i j, (i < 25 \/ ny im + 25 <= i \/ j < 25 \/ nx im + 25 <= j)%nat -> px fr i j = Some 0).
Definition located (gauss : image -> R -> R -> result (num * num)) (fr : image) (p : nat * nat) (r : num * num) : Prop :=
  exists x y, gauss fr (INR (snd p) + 25) (INR (fst p) + 25) = Ok (x, y) /\ r = (option_map (fun x => x - 25) x, option_map (fun y => y - 25) y).
(** Stars, brightest first: every bright pixel is near a star brighter than it, no star is near another. *)
Definition star_field (im : image) (w : nat) (stars : list (nat * nat)) : Prop :=
  Forall (inside im) stars /\
  (forall s1 a s2 b s3, stars = s1 ++ a :: s2 ++ b :: s3 -> ~ near w a b /\ exists u v, px im (fst a) (snd a) = Some u /\ px im (fst b) (snd b) = Some v /\ v < u) /\
  (forall a, In a stars -> exists u, px im (fst a) (snd a) = Some u /\ 0 < u) /\
  (forall q u, inside im q -> px im (fst q) (snd q) = Some u -> 0 < u -> In q stars \/ exists a v, In a stars /\ near w a q /\ px im (fst a) (snd a) = Some v /\ u < v).
