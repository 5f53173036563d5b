(** What a distortion map of Legendre polynomials is, and what its correction and its fit should do. *)
From Coq Require Import List Arith Bool Reals ZArith String.
From Verif Require Import Base SpotModel SpotSpec BendModel.
Import ListNotations.
Local Open Scope R_scope.

(** The Legendre polynomials: Bonnet's recursion. *)
Definition legendre (P : nat -> R -> R) : Prop :=
  (forall x, P 0%nat x = 1) /\ (forall x, P 1%nat x = x) /\
  forall n x, (INR n + 2) * P (S (S n)) x = (2 * INR n + 3) * x * P (S n) x - (INR n + 1) * P n x.
(** A signed integer of 64 bits. *)
Definition int64 (z : Z) : Z := (z - 2 ^ 64 * ((z + 2 ^ 63) / 2 ^ 64))%Z.
Definition unit_of (k : nat) : R := IZR (int64 (500 ^ Z.of_nat k)).
(** The place a point is mapped to, by coefficients of order [o]: first those of x, then those of y. *)
Definition warp (P : nat -> R -> R) (o : nat) (c : nat -> nat -> R) (x y : R) : R :=
  total (map (fun ij => c (fst ij) (snd ij) / unit_of (fst ij + snd ij) * (P (fst ij) x * P (snd ij) y)) (list_prod (seq 0 (S o)) (seq 0 (S o)))).
Definition warp_x P (o : nat) (l : list R) (x y : R) : R := warp P o (fun i j => nth (i * S o + j) l 0) x y.
Definition warp_y P (o : nat) (l : list R) (x y : R) : R := warp P o (fun i j => nth (S o * S o + (i * S o + j)) l 0) x y.
Definition count_of (o : nat) : nat := (2 * (S o * S o))%nat.

(** The middle of a square image of [n] rows. *)
Definition mid (n : nat) : R := INR (n / 2).
(** The displacement of a point, about the middle. *)
Definition disp_x P o l n x y : R := warp_x P o l (x - mid n) (y - mid n) - (x - mid n).
Definition disp_y P o l n x y : R := warp_y P o l (x - mid n) (y - mid n) - (y - mid n).

(** An interpolation: on pixels of an image of numbers it gives their values. *)
Definition interpolates (mapc : image -> num -> num -> num) : Prop :=
  forall im v i j, holds im v -> (i < ny im)%nat -> (j < nx im)%nat -> mapc im (Some (INR i)) (Some (INR j)) = Some (v i j).

(** Coefficients that move everything by (a, b). *)
Definition shift_coeffs (o : nat) (a b : R) : list R :=
  (a :: repeat 0 o) ++ [500] ++ repeat 0 (S o * S o - o - 2) ++ [b; 500] ++ repeat 0 (S o * S o - 2).

(** The measured offset of a pair without its distortion; the direction the sky tells, in radians. *)
Definition offset P o l (p : pair) : R * R :=
  let x1 := p_x p - 511 in let y1 := p_y p - 511 in
  (warp_x P o l (x1 + p_dx p) (y1 + p_dy p) - warp_x P o l x1 y1, warp_y P o l (x1 + p_dx p) (y1 + p_dy p) - warp_y P o l x1 y1).
Definition toward_sky (rot : R) (p : pair) : R := (p_pa p - rot) * PI / 180.
Definition norm (v : R * R) : R := sqrt (fst v * fst v + snd v * snd v).
(** [a] is the angle from the direction [t] to the line along [v]. *)
Definition line_angle (v : R * R) (t a : R) : Prop :=
  - (PI / 2) <= a <= PI / 2 /\ exists s, (s = 1 \/ s = -1) /\ fst v = - (s * norm v * sin (t + a)) /\ snd v = s * norm v * cos (t + a).
Definition sound_pair (ps : R) (p : pair) : Prop := ps <> 0 /\ p_sep p <> 0 /\ p_ex p + p_ey p <> 0.
Definition resides P o l ps rot (p : pair) (r : R * R) : Prop :=
  let e := (p_ex p + p_ey p) / 2 in
  fst r * e = norm (offset P o l p) - p_sep p / ps /\ line_angle (offset P o l p) (toward_sky rot p) (snd r * e / (p_sep p / ps)).
(** The measured offset is that of the sky. *)
Definition as_on_sky (ps rot : R) (p : pair) : Prop :=
  0 < p_sep p / ps /\ p_dx p = - (p_sep p / ps * sin (toward_sky rot p)) /\ p_dy p = p_sep p / ps * cos (toward_sky rot p).
Definition sumsq (l : list R) : R := total (map Rsqr l).
Definition no_increase (leastsq : (list num -> result (list num)) -> list R -> result (list R)) : Prop :=
  forall f x0 c a b, leastsq f x0 = Ok c -> f (map Some x0) = Ok (map Some a) -> f (map Some c) = Ok (map Some b) -> sumsq b <= sumsq a.
(** The offset lies along the direction of the sky, at the separation of the sky, this way or the opposite way. *)
Definition along P o l ps rot (p : pair) : Prop :=
  exists s, (s = 1 \/ s = -1) /\ fst (offset P o l p) = - (s * (p_sep p / ps) * sin (toward_sky rot p)) /\ snd (offset P o l p) = s * (p_sep p / ps) * cos (toward_sky rot p).
(** The integer next to [r] toward zero. *)
Definition toward_zero (r : R) (z : Z) : Prop := (0 <= r /\ IZR z <= r < IZR z + 1) \/ (r < 0 /\ IZR z - 1 < r <= IZR z).
Definition after (f g : frame) : Prop := f_err g = f_err f /\ f_dq g = f_dq f /\ f_hist g = f_hist f ++ ["Distortion correction completed"%string].
