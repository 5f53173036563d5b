(** What energy levels and cross sections must be, by the physics of release. *)
From Coq Require Import List Arith Bool Reals ZArith.
From Verif Require Import Base TauModel.
Import ListNotations.
Local Open Scope R_scope.

(** Boltzmann's constant in eV/K and J/K, Planck's constant in J s, the mass of the electron in kg *)
Definition kE : R := 0.000086173.
Definition kB : R := 13.81 / 10 ^ 24.
Definition planck : R := 662.6 / 10 ^ 36.
Definition electron : R := 91.09 / 10 ^ 32.
(** The band gap in eV, and the cube of the effective mass of the density of states, of six valleys *)
Definition gap (T : R) : R := 1.1692 - 0.00049 * (T * T / (T + 655)).
Definition mass (T m : R) : Prop :=
  0 < m /\ m ^ 3 = 6 ^ 2 * ((0.1905 * (1.1692 / gap T) * electron) ^ 2 * (0.1963 * electron)).
(** Temperatures at which a release time exists *)
Definition warm (T : R) : Prop := 0 < T /\ gap T <> 0.
(** Release by thermal emission: density of states times thermal velocity times cross section, in 1e-19 m^2, is the
    rate at infinite temperature. *)
Definition tau_is (T E c t : R) : Prop :=
  exists m, mass T m /\ t * (c * (/ 10 ^ 19) * (2 * sqrt (3 * (2 * PI) ^ 3) * kB ^ 2 * m * T ^ 2 / planck ^ 3)) = exp (E / (kE * T)).
(** The deviation of a function of two quantities to first order *)
Definition propagated (f : R -> R -> R) (E c sE sc s : R) : Prop :=
  exists dE dc, derivable_pt_lim (fun x => f x c) E dE /\ derivable_pt_lim (fun y => f E y) c dc /\ 0 <= s /\ s ^ 2 = (dE * sE) ^ 2 + (dc * sc) ^ 2.

(** Goodness of fit *)
Definition sum (l : list R) : R := fold_right Rplus 0 l.
Definition average (l : list R) : R := sum l / INR (List.length l).
Definition scatter (f u : list R) : R := sum (map (fun q => Rsqr (fst q - snd q)) (combine f u)).
Definition spread (u : list R) : R := sum (map (fun x => Rsqr (x - average u)) u).
Definition goodness (f u : list R) : R := 1 - (scatter f u / (INR (List.length u) - 2)) / (spread u / (INR (List.length u) - 1)).
Definition varied (u : list R) : Prop := exists a b, In a u /\ In b u /\ a <> b.

(** A call of fit_cs, its refusals in order, and how it ends. *)
Record job : Type := mkjob { j_tau : list R; j_err : list err; j_T : list R; j_lim : limits }.
Definition run (eps : R) (curve : curve_t) (j : job) : result fit := fit_cs eps curve (j_tau j) (j_err j) (j_T j) (j_lim j).
Definition refusals (j : job) : list (Prop * exn) :=
  let l := j_lim j in
  [ (List.length (j_T j) <> List.length (j_tau j), ValueError); (List.length (j_err j) <> List.length (j_tau j), ValueError);
    (l_thresh l < 0, TypeError); (1 < l_thresh l, ValueError);
    (fst (l_E l) < 0, TypeError); (snd (l_E l) < 0, TypeError); (snd (l_E l) <= fst (l_E l), ValueError);
    (fst (l_cs l) < 0, TypeError); (snd (l_cs l) < 0, TypeError); (snd (l_cs l) <= fst (l_cs l), ValueError);
    (l_T l <= 0, TypeError) ].
Definition refused (j : job) (e : exn) : Prop :=
  exists l1 P l2, refusals j = l1 ++ (P, e) :: l2 /\ P /\ Forall (fun q => ~ fst q) l1.
Definition accepted (j : job) : Prop := Forall (fun q => ~ fst q) (refusals j).
(** At most two temperatures *)
Definition few (j : job) : Prop := exists a b, incl (j_T j) [a; b].
(** What curve_fit is asked *)
Definition asked (eps : R) (curve : curve_t) (j : job) (absolute : bool) : option (pair2 * (err * err)) :=
  let l := j_lim j in
  curve (j_T j) (j_tau j) (map (fun e => match e with Some x => Some (if Req_EM_T x 0 then eps else x) | None => None end) (j_err j))
    (fst (l_E l), fst (l_cs l)) (snd (l_E l), snd (l_cs l)) ((fst (l_E l) + snd (l_E l)) / 2, (fst (l_cs l) + snd (l_cs l)) / 2) absolute.
(** The first has deviations that add up to at least those of the second. *)
Definition wider (v w : err * err) : Prop :=
  match v, w with
  | (Some a, Some b), (Some c, Some d) => sqrt c + sqrt d <= sqrt a + sqrt b
  | (Some _, Some _), _ => False
  | _, _ => True
  end.
Definition root (v : err) : err := match v with Some x => Some (sqrt x) | None => None end.
Definition scaled (a : R) (v : err) : err := match v with Some x => Some (a * x) | None => None end.
(** A release time, or none *)
Definition release (T E c : R) (r : option R) : Prop :=
  match r with Some t => warm T /\ c <> 0 /\ tau_is T E c t | None => ~ (warm T /\ c <> 0) end.
(** Goodness, or none *)
Definition quality (E c : R) (temps taus : list R) (r : option R) : Prop :=
  match r with
  | Some x => varied taus /\ exists f, Forall2 (fun T t => release T E c (Some t)) temps f /\ x = goodness f taus
  | None => ~ varied taus \/ exists T, In T temps /\ ~ (warm T /\ c <> 0)
  end.
(** The deviation of a release time, or none *)
Definition deviation (T E c : R) (sE sc : err) (r : option R) : Prop :=
  match r with
  | Some s => warm T /\ c <> 0 /\ exists a b f, sE = Some a /\ sc = Some b /\ (forall x y, y <> 0 -> tau_is T x y (f x y)) /\ propagated f E c a b s
  | None => ~ (warm T /\ c <> 0) \/ sE = None \/ sc = None
  end.
(** The answer for fitted parameters and variances; cross sections are reported in cm^2. *)
Inductive reported (j : job) (p : pair2) (v : err * err) : fit -> Prop :=
| Reported : forall r t s, quality (fst p) (snd p) (j_T j) (j_tau j) r -> release (l_T (j_lim j)) (fst p) (snd p) t ->
    deviation (l_T (j_lim j)) (fst p) (snd p) (root (fst v)) (root (snd v)) s ->
    reported j p v (Fit (fst p) (root (fst v)) (snd p / 10 ^ 15) (scaled (/ 10 ^ 15) (root (snd v))) r t s).
Inductive ends (eps : R) (curve : curve_t) (j : job) : fit -> Prop :=
| E_few : few j -> ends eps curve j NoFit
| E_failed : forall a, asked eps curve j a = None -> ends eps curve j NoFit
| E_fit : forall p v q w f, ~ few j -> asked eps curve j true = Some (p, v) -> asked eps curve j false = Some (q, w) ->
    (wider v w -> reported j p v f) -> (~ wider v w -> reported j q w f) -> ends eps curve j f.

(** Bins of equal width from zero to [top] *)
Definition in_bin (n : Z) (top : R) (i : Z) (x : R) : Prop := IZR i * (top / IZR n) <= x < (IZR i + 1) * (top / IZR n).
Definition middle (n : Z) (top : R) (i : Z) : R := (IZR i + 1 / 2) * (top / IZR n).
Definition greatest (l : list R) (m : R) : Prop := In m l /\ forall x, In x l -> x <= m.
Inductive counted (P : R * R -> Prop) : list (R * R) -> nat -> Prop :=
| C_nil : counted P [] 0
| C_yes : forall q l n, P q -> counted P l n -> counted P (q :: l) (S n)
| C_no : forall q l n, ~ P q -> counted P l n -> counted P (q :: l) n.
(** Where a row of the densities comes from *)
Definition row_of (nE nc : Z) (area topE topc : R) (v : list (R * R)) (r : R * R * R) (i j : Z) : Prop :=
  exists m, (0 < m)%nat /\ counted (fun q => in_bin nE topE i (fst q) /\ in_bin nc topc j (snd q)) v m /\ r = (INR m / area, middle nE topE i, middle nc topc j).

(** All the traps: each gets its own fit, and those with a goodness of at least the threshold are kept, in order. *)
Definition job_of (l : limits) (t : trap) : job := mkjob (t_tau t) (t_sig t) (t_T t) l.
Inductive chosen (th : R) : list fit -> list (R * R) -> Prop :=
| Ch_nil : chosen th [] []
| Ch_good : forall E sE cs scs r t s l v, th <= r -> chosen th l v -> chosen th (Fit E sE cs scs (Some r) t s :: l) ((E, cs) :: v)
| Ch_poor : forall f l v, (forall E sE cs scs r t s, f = Fit E sE cs scs (Some r) t s -> r < th) -> chosen th l v -> chosen th (f :: l) v.
(** curve_fit that keeps to its bounds *)
Definition bounded (curve : curve_t) : Prop :=
  forall T u e lo hi p0 a p v, curve T u e lo hi p0 a = Some (p, v) -> fst lo <= fst p <= fst hi /\ snd lo <= snd p <= snd hi.
Definition before (a b : Z * Z) : Prop := (fst a < fst b)%Z \/ fst a = fst b /\ (snd a < snd b)%Z.
