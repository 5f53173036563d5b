(** What locating a star between satellite spots means, independently of the loops. *)
From Coq Require Import List Arith Bool Reals ZArith.
From Verif Require Import Base SpotModel.
Import ListNotations.
Local Open Scope R_scope.

Definition total (l : list R) : R := fold_right Rplus 0 l.

(** A disc of radius [r] about the origin. *)
Definition in_disc (r x y : R) : Prop := 0 <= r /\ x * x + y * y <= r * r.
Definition in_disc_dec (r x y : R) : {in_disc r x y} + {~ in_disc r x y}.
Proof.
  unfold in_disc. destruct (Rle_dec 0 r) as [H|H]; [destruct (Rle_dec (x * x + y * y) (r * r)) as [G|G]|].
  - left. split; assumption.
  - right. intros (_ & K). exact (G K).
  - right. intros (K & _). exact (H K).
Defined.
(** The part of the unit pixel at (x, y) that a disc about the origin covers, on a grid of n by n subpixels. *)
Definition sub_pos (n k : nat) : R := (2 * INR k + 1 - INR n) / (2 * INR n).
Definition covered (n : nat) (r x y : R) : nat :=
  length (filter (fun kl => if in_disc_dec r (x + sub_pos n (snd kl)) (y + sub_pos n (fst kl)) then true else false) (list_prod (seq 0 n) (seq 0 n))).
Definition coverage (n : nat) (r x y : R) : R := INR (covered n r x y) / (INR n * INR n).

(** The pixels of an image, row by row. *)
Definition pixels (rows cols : nat) : list (nat * nat) := list_prod (seq 0 rows) (seq 0 cols).
(** The image holds the numbers [v]. *)
Definition holds (img : image) (v : nat -> nat -> R) : Prop := forall i j, (i < ny img)%nat -> (j < nx img)%nat -> px img i j = Some (v i j).
(** Some pixel of the image is NaN. *)
Definition holed (img : image) : Prop := exists i j, (i < ny img)%nat /\ (j < nx img)%nat /\ px img i j = None.
Definition flat (img : image) : Prop := holds img (fun _ _ => 0).

(** The light in a disc [x], [y] from the centre pixel. *)
Definition light (img : image) (v : nat -> nat -> R) (n : nat) (r x y : R) : R :=
  total (map (fun p => coverage n r (INR (snd p) - INR (nx img / 2) - x) (INR (fst p) - INR (ny img / 2) - y) * v (fst p) (snd p)) (pixels (ny img) (nx img))).
(** The light in all the discs about a star at [x], [y]: two opposite ones for each angle. *)
Definition spots_at (rots : list R) (sep x y : R) : list (R * R) :=
  flat_map (fun deg => let a := deg * PI / 180 in [(x + sep * cos a, y + sep * sin a); (x - sep * cos a, y - sep * sin a)]) rots.
Definition collected (img : image) (v : nat -> nat -> R) (t : tuning) (sep x y : R) : R :=
  total (map (fun p => light img v (t_sub t) (t_r t) (fst p) (snd p)) (spots_at (t_rots t) sep x y)).

(** The mask can be made: two columns at least, a subpixel at least. *)
Definition makes (nx n : nat) : Prop := (2 <= nx)%nat /\ (1 <= n)%nat.

(** Points of the search. *)
Definition grid (t : tuning) (c : R) : list R := map (fun k => c + (INR k - (INR (t_steps t) - 1) / 2) * t_step t) (seq 0 (t_steps t)).
Definition mesh (xs ys : list R) : list (R * R) := flat_map (fun y => map (fun x => (x, y)) xs) ys.
Definition grid2 (t : tuning) (cx cy : R) : list (R * R) := mesh (grid t cx) (grid t cy).

(** Sum of squares of the residuals of a fit at the given points. *)
Definition parabola (p : R * R * R) (x : R) : R := let '(a, b, c) := p in a * (x * x) + b * x + c.
Definition misfit1 (pts : list (R * R)) (p : R * R * R) : R := total (map (fun q => Rsqr (snd q - parabola p (fst q))) pts).
Record bowl : Type := Bowl { qa : R; qb : R; qc : R; qd : R; qe : R; qf : R }.
Definition paraboloid (q : bowl) (x y : R) : R := qa q * (x * x) + qb q * (x * y) + qc q * (y * y) + qd q * x + qe q * y + qf q.
Definition misfit2 (pts : list (R * R * R)) (q : bowl) : R := total (map (fun p => Rsqr (snd p - paraboloid q (fst (fst p)) (snd (fst p)))) pts).
Definition best1 (pts : list (R * R)) (p : R * R * R) : Prop := forall p', misfit1 pts p <= misfit1 pts p'.
Definition best2 (pts : list (R * R * R)) (q : bowl) : Prop := forall q', misfit2 pts q <= misfit2 pts q'.
(** A point where the paraboloid is flat. *)
Definition stationary (q : bowl) (x y : R) : Prop := 2 * qa q * x + qb q * y + qd q = 0 /\ qb q * x + 2 * qc q * y + qe q = 0.

(** Three different points at least. *)
Definition three (l : list R) : Prop := exists a b c, In a l /\ In b l /\ In c l /\ a <> b /\ a <> c /\ b <> c.
Definition greatest (l : list R) (m : R) : Prop := In m l /\ forall x, In x l -> x <= m.
(** A table of values over a mesh, and the cells where a mask of zeros and ones is one. *)
Definition table {A} (xs ys : list R) (a : list (list A)) : Prop := length a = length ys /\ Forall (fun row => length row = length xs) a.
Definition zero_one (mask : list (list Z)) : Prop := forall k, In k (List.concat mask) -> k = 0%Z \/ k = 1%Z.
Definition cells (xs ys : list R) (a : list (list R)) (mask : list (list Z)) : list (R * R * R) :=
  map fst (filter (fun p => Z.eqb (snd p) 1) (combine (combine (mesh xs ys) (List.concat a)) (List.concat mask))).
(** A quadratic term too small beside the greatest value [m]. *)
Definition level1 (m a : R) : Prop := Rabs a < Rabs m / 2 ^ 52.
Definition level2 (m : R) (q : bowl) : Prop := Rabs (qb q * qb q - 4 * qa q * qc q) < 4 / 10 ^ 15 * (m * m) \/ Rabs (qc q) < Rabs m / 10 ^ 15.

(** What is asked of numpy: on numbers, a fit with the least squares; NaN in, no number out. *)
Definition dot (row c : list R) : R := total (map (fun p => fst p * snd p) (combine row c)).
Definition residue (rows : list (list R)) (ys c : list R) : R := total (map (fun p => Rsqr (snd p - dot (fst p) c)) (combine rows ys)).
Definition least_squares (lstsq : list (list num) -> list num -> result (list num)) : Prop :=
  forall rows ys, length rows = length ys -> Forall (fun row => length row = 6%nat) rows ->
  exists c, lstsq (map (map Some) rows) (map Some ys) = Ok (map Some c) /\ length c = 6%nat /\
    forall c', length c' = 6%nat -> residue rows ys c <= residue rows ys c'.
Definition least_parabola (polyfit : list num -> list num -> result (num * num * num)) : Prop :=
  forall xs ys, length xs = length ys -> xs <> [] ->
  exists a b c, polyfit (map Some xs) (map Some ys) = Ok (Some a, Some b, Some c) /\ best1 (combine xs ys) (a, b, c).
Definition lstsq_spoilt (lstsq : list (list num) -> list num -> result (list num)) : Prop :=
  forall rows ys c, In None ys -> lstsq rows ys = Ok c -> Forall (fun v => v = None) c.
Definition polyfit_spoilt (polyfit : list num -> list num -> result (num * num * num)) : Prop :=
  forall xs ys p, In None ys -> polyfit xs ys = Ok p -> p = (None, None, None).

(** One iteration of the search of the star: from one estimate to the flat point of the paraboloid closest to the light
    collected at the points of the grid about it. *)
Definition closer (img : image) (v : nat -> nat -> R) (t : tuning) (xg yg : R) (est est' : R * R) : Prop :=
  exists q, best2 (map (fun p => (p, collected img v t (t_sep t) (xg + fst p) (yg + snd p))) (grid2 t (fst est) (snd est))) q /\
    qb q * qb q - 4 * qa q * qc q <> 0 /\ qc q <> 0 /\ stationary q (fst est') (snd est').
(** One iteration of the search of the separation: the parabola likewise; *)
Definition closer1 (img : image) (v : nat -> nat -> R) (t : tuning) (x y : R) (est est' : R) : Prop :=
  exists a b c, best1 (map (fun s => (s, collected img v t s x y)) (grid t est)) (a, b, c) /\ a <> 0 /\ 2 * a * est' + b = 0.
(** and the first point of the grid with the most light. *)
Definition brightest (img : image) (v : nat -> nat -> R) (t : tuning) (x y : R) (est est' : R) : Prop :=
  exists k, (k < t_steps t)%nat /\ est' = nth k (grid t est) 0 /\
    (forall s, In s (grid t est) -> collected img v t s x y <= collected img v t est' x y) /\
    (forall l, (l < k)%nat -> collected img v t (nth l (grid t est) 0) x y < collected img v t est' x y).
Inductive chain {A} (R : A -> A -> Prop) : nat -> A -> A -> Prop :=
| chain_0 : forall a, chain R 0 a a
| chain_S : forall n a b c, R a b -> chain R n b c -> chain R (S n) a c.

(** What the search of the separation comes to. *)
Definition separated (img : image) (v : nat -> nat -> R) (t : tuning) (x y : R) (s : R) : Prop :=
  match t_iter t with
  | O => s = t_sep t
  | S O => closer1 img v t x y (t_sep t) s
  | S n => exists s1, brightest img v t x y (t_sep t) s1 /\ chain (closer1 img v t x y) n s1 s
  end.
(** The middle of an image. *)
Definition mid_x (img : image) : R := INR (nx img / 2).
Definition mid_y (img : image) : R := INR (ny img / 2).
(** The values of an image on the whole plane, zero around it; an image moved by whole pixels. *)
Definition on_plane (img : image) (v : nat -> nat -> R) (i j : Z) : R :=
  if ((0 <=? i) && (i <? Z.of_nat (ny img)) && (0 <=? j) && (j <? Z.of_nat (nx img)))%Z%bool then v (Z.to_nat i) (Z.to_nat j) else 0.
Definition moved (img img' : image) (v v' : nat -> nat -> R) (dx dy : Z) : Prop :=
  ny img' = ny img /\ nx img' = nx img /\ forall i j, on_plane img' v' (i + dy) (j + dx) = on_plane img v i j.
Definition move (dx dy : Z) (p : num * num) : num * num := (option_map (fun x => x + IZR dx) (fst p), option_map (fun y => y + IZR dy) (snd p)).
Definition somes (l : list (R * R)) : list (num * num) := map (fun p => (Some (fst p), Some (snd p))) l.

(** The same iterations, where the fit is curved enough beside the most light [m] on the grid. *)
Definition sharp (img : image) (v : nat -> nat -> R) (t : tuning) (xg yg : R) (est est' : R * R) : Prop :=
  let pts := map (fun p => (p, collected img v t (t_sep t) (xg + fst p) (yg + snd p))) (grid2 t (fst est) (snd est)) in
  exists q m, best2 pts q /\ greatest (map snd pts) m /\ m <> 0 /\ ~ level2 m q /\ stationary q (fst est') (snd est').
Definition sharp1 (img : image) (v : nat -> nat -> R) (t : tuning) (x y : R) (est est' : R) : Prop :=
  let pts := map (fun s => (s, collected img v t s x y)) (grid t est) in
  exists a b c m, best1 pts (a, b, c) /\ greatest (map snd pts) m /\ m <> 0 /\ ~ level1 m a /\ 2 * a * est' + b = 0.
Definition sharply (img : image) (v : nat -> nat -> R) (t : tuning) (x y : R) (s : R) : Prop :=
  match t_iter t with
  | O => s = t_sep t
  | S O => sharp1 img v t x y (t_sep t) s
  | S n => exists s1, brightest img v t x y (t_sep t) s1 /\ chain (sharp1 img v t x y) n s1 s
  end.
(** A minimiser that stays within the bounds and does not end worse than it began. *)
Definition within (p : list R) (bounds : list (R * R)) : Prop := length p = length bounds /\ Forall (fun xb => fst (snd xb) <= fst xb <= snd (snd xb)) (combine p bounds).
Definition no_worse {M} (minimize : (list num -> result num) -> list R -> list (R * R) -> M -> result (option (list R))) : Prop :=
  forall f x0 bounds m p, minimize f x0 bounds m = Ok (Some p) -> within p bounds /\
    forall a b, f (map Some x0) = Ok (Some a) -> f (map Some p) = Ok (Some b) -> b <= a.
