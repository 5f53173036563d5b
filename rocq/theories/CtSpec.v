(** Specification of the core throughput. *)
From Coq Require Import List Arith Bool Reals ZArith String Sorting.
From Verif Require Import Base CombineModel ComboSpec AngleSpec NearSpec FlatModel FlatSpec FluxSpec CtModel.
Import ListNotations.
Local Open Scope R_scope.

(** ** Values: not a number if an operand is not, or on division by 0 *)
Definition total (l : list val) (v : val) : Prop := match v with Some s => exists xs, l = map Some xs /\ s = fold_right Rplus 0 xs | None => In None l end.
Definition quot (a b : val) : val := match a, b with Some x, Some y => if Req_EM_T y 0 then None else Some (x / y) | _, _ => None end.
Definition prod (a b : val) : val := match a, b with Some x, Some y => Some (x * y) | _, _ => None end.
Definition value_of (f : img) (p : nat * nat) : val := pix f (fst p) (snd p).
Definition inside_of (f : img) (p : nat * nat) : Prop := (fst p < rows f)%nat /\ (snd p < cols f)%nat.

(** ** Position of a PSF: the centroid of the square around the first of the brightest pixels *)
Definition before (p q : nat * nat) : Prop := (fst p < fst q)%nat \/ fst p = fst q /\ (snd p < snd q)%nat.
Definition is_peak (f : img) (p : nat * nat) : Prop :=
  inside_of f p /\ exists v, value_of f p = Some v /\ forall q w, inside_of f q -> value_of f q = Some w -> w <= v /\ (before q p -> w < v).
Definition close (r : nat) (p q : nat * nat) : Prop := (fst q <= fst p + r)%nat /\ (fst p <= fst q + r)%nat /\ (snd q <= snd p + r)%nat /\ (snd p <= snd q + r)%nat.
Definition moment (f : img) (ps : list (nat * nat)) (w : nat * nat -> R) (v : val) : Prop := total (map (fun q => prod (Some (w q)) (value_of f q)) ps) v.
Definition position (f : img) (r : nat) (x y : val) : Prop :=
  exists p ps s sx sy, is_peak f p /\ sieve (close r p) (places f) ps /\ moment f ps (fun _ => 1) s /\ moment f ps (fun q => INR (snd q)) sx /\ moment f ps (fun q => INR (fst q)) sy
    /\ (s = Some 0 -> x = Some (INR (snd p)) /\ y = Some (INR (fst p)))
    /\ (s <> Some 0 -> x = quot sx s /\ y = quot sy s).

(** ** Core of a PSF: the pixels that are at least half of every pixel.  None if a pixel is not a number. *)
Definition in_core (f : img) (p : nat * nat) : Prop := exists v, value_of f p = Some v /\ forall q, inside_of f q -> exists w, value_of f q = Some w /\ w <= 2 * v.
Definition core_flux (f : img) (s : R) : Prop := exists ps xs, sieve (in_core f) (places f) ps /\ map (value_of f) ps = map Some xs /\ s = fold_right Rplus 0 xs.
Definition throughput (norm : val) (f : img) (v : val) : Prop := (0 < rows f)%nat /\ (0 < cols f)%nat /\ exists s, core_flux f s /\ v = quot (Some s) norm.

(** ** Images [k] times as bright, and images symmetric about a pixel *)
Definition brighter (k : R) (f g : img) : Prop := rows g = rows f /\ cols g = cols f /\ forall p, value_of g p = option_map (Rmult k) (value_of f p).
Definition symmetric (f : img) (p : nat * nat) (r : nat) : Prop :=
  forall q, close r p q -> value_of f q = value_of f ((2 * fst p - fst q)%nat, (2 * snd p - snd q)%nat).

(** ** Transmission of the imaging lens relative to that of the pupil lens *)
Definition curve_file (L : lenses) (name ver file : string) : Prop :=
  exists u v, l_dir L = u ++ file :: v /\ (occurs name file /\ occurs ("v" ++ ver) file) /\ forall n, In n u -> ~ (occurs name n /\ occurs ("v" ++ ver) n).
(** The sum over the band of the transmissions of filter and lens. *)
Definition through (lens : option (list (R * R))) (w t : list R) (s : R) : Prop :=
  exists lp vs, lens = Some lp /\ Forall2 (fun x v => interpolated lp (10 * x) v) w vs /\ s = fold_right Rplus 0 (times vs t).
Definition lens_ratio (L : lenses) (name ver : string) (k : val) : Prop :=
  exists file w t i p, curve_file L name ver file /\ l_curve L file = combine w t /\ List.length w = List.length t /\ w <> []
    /\ through (l_imaging L ver) w t i /\ through (l_pupil L ver) w t p
    /\ ((exists x, In x t /\ x <> 0 /\ forall y, In y t -> y <= x) -> k = quot (Some i) (Some p))
    /\ ((exists x, In x t /\ x = 0 /\ forall y, In y t -> y <= x) -> k = None).
Definition sorted_lenses (L : lenses) : Prop :=
  forall ver, (forall s, l_imaging L ver = Some s -> increasing (map fst s)) /\ (forall s, l_pupil L ver = Some s -> increasing (map fst s)).

(** ** A dataset *)
Definition pupil_frame (t : ctframe) : Prop := t_dpam t = Some "PUPIL"%string /\ t_lsam t = Some "OPEN"%string /\ t_fsam t = Some "OPEN"%string /\ t_fpam t = Some "OPEN_12"%string.
Definition offaxis (l ch : list ctframe) : Prop := sieve (fun t => ~ pupil_frame t) l ch.
(** The mean total of the pupil images, as seen through the imaging lens. *)
Definition unocculted (L : lenses) (cfam ver : string) (l : list ctframe) (norm : val) : Prop :=
  exists ps vs s k, sieve pupil_frame l ps /\ ps <> [] /\ Forall2 (fun t v => total (map (value_of (t_img t)) (places (t_img t))) v) ps vs /\ total vs s
    /\ lens_ratio L cfam ver k /\ norm = prod (quot s (Some (INR (List.length ps)))) k.
Definition one_filter (l : list ctframe) (cfam : string) : Prop := l <> [] /\ Forall (fun t => t_cfam t = Some cfam) l.
Definition estimates (L : lenses) (ver : string) (r : nat) (l : list ctframe) (pos : list (val * val)) (ct : list val) : Prop :=
  exists cfam norm ch, one_filter l cfam /\ unocculted L cfam ver l norm /\ offaxis l ch /\ ch <> []
    /\ Forall2 (fun t p => position (t_img t) r (fst p) (snd p)) ch pos /\ Forall2 (fun t v => throughput norm (t_img t) v) ch ct.

(** ** Stamps: the square of half side [n] around the rounded position, cut off at the edges of the image *)
Definition cut_of (n : Z) (t : ctframe) (loc : val * val) (s : stamp) : Prop :=
  exists x y ix iy, loc = (Some x, Some y) /\ rounds x ix /\ rounds y iy
    /\ let f := t_img t in let ylo := Z.max (iy - n) 0 in let yhi := Z.min (Z.of_nat (rows f)) (iy + n + 1) in let xlo := Z.max (ix - n) 0 in let xhi := Z.min (Z.of_nat (cols f)) (ix + n + 1) in
       rows (fst s) = extent (rows f) ylo yhi /\ cols (fst s) = extent (cols f) xlo xhi
       /\ forall i j, pix (fst s) i j = pix f (start (rows f) ylo + i) (start (cols f) xlo + j) /\ snd s i j = t_dq t (start (rows f) ylo + i)%nat (start (cols f) xlo + j)%nat.
(** Half side: three resolution elements of a telescope of 2.36 m at the mean wavelength (nm), in pixels of 21.8 mas, rounded up. *)
Definition half_side (L : lenses) (name ver : string) (n : Z) : Prop :=
  exists file m, curve_file L name ver file /\ l_curve L file <> [] /\ m * INR (List.length (l_curve L file)) = fold_right Rplus 0 (map fst (l_curve L file))
    /\ let x := 3 * m / 10 ^ 9 / (236 / 100) * (180 / PI) * 3600 * 1000 / (218 / 10) in x <= IZR n < x + 1.
Definition alike (ss : list stamp) : Prop := forall s s', In s ss -> In s' ss -> rows (fst s) = rows (fst s') /\ cols (fst s) = cols (fst s').
Definition cube_of (L : lenses) (name ver : string) (l : list ctframe) (locs : list (val * val)) (ss : list stamp) : Prop :=
  exists n ch t0 r, half_side L name ver n /\ offaxis l ch /\ (exists us, Forall2 (fun t x => cut_of n t (fst x) (snd x)) ch us /\ map fst us = locs /\ map snd us = ss) /\ alike ss
    /\ l = t0 :: r /\ t_date t0 <> None /\ t_date (last r t0) <> None.

(** ** The product *)
Definition cards_of (o : option R * option R) (p : R * R) : Prop := o = (Some (fst p), Some (snd p)).
Definition cal_of (L : lenses) (ver : string) (r : nat) (l : list ctframe) (k : ctcal) : Prop :=
  exists cfam pos ct t0 l', one_filter l cfam /\ estimates L ver r l pos ct /\ cube_of L cfam ver l pos (k_cube k)
    /\ k_table k = combine pos ct /\ l = t0 :: l' /\ cards_of (t_fpam_hv t0) (k_fpam k) /\ cards_of (t_fsam_hv t0) (k_fsam k).

(** ** Position of the mask during the core throughput observations *)
Definition moved (M : matrix) (c from to : R * R) (p : R * R) : Prop :=
  fst p - fst c = fst (fst M) * (fst to - fst from) + snd (fst M) * (snd to - snd from) /\ snd p - snd c = fst (snd M) * (fst to - fst from) + snd (snd M) * (snd to - snd from).
Definition mask_at (fpam fsam : R * R) (M0 M1 : matrix) (cor : list corhdr) (p q : R * R) : Prop :=
  exists h r c fp fs, cor = h :: r /\ cards_of (c_star h) c /\ cards_of (c_fpam h) fp /\ cards_of (c_fsam h) fs /\ moved M0 c fp fpam p /\ moved M1 c fs fsam q.

(** ** Interpolation.  The azimuths are counted from the smallest one, and folded into the range of the measured ones. *)
Definition least_of (l : list R) (m : R) : Prop := In m l /\ forall x, In x l -> m <= x.
Definition most_of (l : list R) (m : R) : Prop := In m l /\ forall x, In x l -> x <= m.
Definition folded (a m : R) (v : val) : Prop := (m = 0 -> v = None) /\ (m <> 0 -> exists k : Z, exists b, v = Some b /\ a = b + m * IZR k /\ 0 <= b / m < 1).
Definition scaled (logr : bool) (x : R) (v : val) : Prop := if logr then (x <= 0 -> v = None) /\ (0 < x -> exists y, v = Some y /\ x = Rpower 10 y) else v = Some x.
Definition shifted (c : R * R) (table grid : list ((R * R) * R)) : Prop := Forall2 (fun e g => fst g = AngleSpec.minus (fst e) c /\ snd g = snd e) table grid.
(** Entry i of the values: the value i of the grid, if a target without a value is the place i of the grid. *)
Definition repaired (grid : list ((R * R) * R)) (tv : list ((R * R) * val)) (vs : list val) : Prop :=
  List.length vs = List.length tv
  /\ (forall t i c, In (t, None) tv -> nth_error grid i = Some (t, c) -> (i < List.length tv)%nat)
  /\ forall i t v, nth_error tv i = Some (t, v) ->
       (forall g c, nth_error grid i = Some (g, c) -> In (g, None) tv -> nth_error vs i = Some (Some c))
       /\ ((forall g c, nth_error grid i = Some (g, c) -> ~ In (g, None) tv) -> nth_error vs i = Some v).
Section Interpolate.
Variable linear : list (val * R) -> list R -> result (val * val -> val).
(** The values before the repair. *)
Definition raw_values (grid : list ((R * R) * R)) (logr : bool) (ts : list (R * R)) (vs : list val) : Prop :=
  exists azs a0 m pts q, Forall2 (fun g a => azimuth (fst g) a) grid azs /\ least_of azs a0 /\ most_of azs (a0 + m)
    /\ Forall2 (fun ga p => scaled logr (far (fst (fst ga))) (fst p) /\ snd p = snd ga - a0) (combine grid azs) pts /\ linear pts (map snd grid) = Ok q
    /\ Forall2 (fun t v => exists r a b, azimuth t a /\ scaled logr (far t) r /\ folded (a - a0) m b /\ v = q (r, b)) ts vs.
Definition interpolation (table : list ((R * R) * R)) (fpam fsam : R * R) (M0 M1 : matrix) (cor : list corhdr) (xs ys : list R) (logr : bool) (out : list (R * (R * R))) : Prop :=
  List.length xs = List.length ys
  /\ exists c c' grid ts vs vs', mask_at fpam fsam M0 M1 cor c c' /\ shifted c table grid /\ grid <> []
     /\ sieve (in_range (map fst grid)) (combine xs ys) ts
     /\ raw_values grid logr ts vs /\ (forall v, In (Some v) vs -> 0 <= v <= 1)
     /\ repaired grid (combine ts vs) vs'
     /\ out <> [] /\ exists ch, sieve (fun tv => snd tv <> None) (combine ts vs') ch /\ Forall2 (fun tv o => snd tv = Some (fst o) /\ fst tv = snd o) ch out.
(** A grid of places, row by row. *)
Definition evenly (a b : R) (n : nat) (l : list R) : Prop := List.length l = n /\ forall i x, nth_error l i = Some x -> (x - a) * INR (n - 1) = INR i * (b - a) /\ (n = 1%nat -> x = a).
Definition grid_places (xr yr : R * R) (nx ny : nat) (xs ys : list R) : Prop :=
  exists gx gy, evenly (fst xr) (snd xr) nx gx /\ evenly (fst yr) (snd yr) ny gy /\ List.length xs = (ny * nx)%nat /\ List.length ys = (ny * nx)%nat
    /\ forall i j, (i < ny)%nat -> (j < nx)%nat -> nth_error xs (i * nx + j) = nth_error gx j /\ nth_error ys (i * nx + j) = nth_error gy i.
End Interpolate.
