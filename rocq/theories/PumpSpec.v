(** What the fits of the trap-pumping amplitudes must be, in terms of the probability of release alone. *)
From Coq Require Import List Arith Bool Reals ZArith.
From Verif Require Import Base PumpModel.
Import ListNotations.
Local Open Scope R_scope.

(** trap_fit has a capture time constant, trap_fit_const a capture probability. *)
Inductive mode : Type := Timed | Const.

(** A trap of kind 1, 2 or 3 releases its charge between two of the clock edges that follow: between 1 and 2, 2 and
    3, or 1 and 4 phase times; [x] is the phase time in units of the release time constant. *)
Definition edges (k : nat) : R * R := match k with 1%nat => (1, 2) | 2%nat => (2, 3) | _ => (1, 4) end.
Definition release (k : nat) (x : R) : R := exp (- (fst (edges k) * x)) - exp (- (snd (edges k) * x)).
Definition capture (m : mode) (c t : R) : R := match m with Timed => 1 - exp (- (t / c)) | Const => c end.
(** The amplitude of one trap, and the models of one and two traps. *)
Definition amplitude (m : mode) (N : R) (k : nat) (c tau t : R) : R := N * (capture m c t * release k (t / tau)).
Definition curve1 (m : mode) (N : R) (k : nat) (t : R) (p : three) : R := let '(o, c, u) := p in o + amplitude m N k c u t.
Definition curve2 (m : mode) (N : R) (k1 k2 : nat) (t : R) (p : five) : R :=
  let '(o, c, u, c2, u2) := p in o + amplitude m N k1 c u t + amplitude m N k2 c2 u2 t.
(** Where the release is greatest *)
Definition peak (k : nat) : R := match k with 1%nat => ln 2 | 2%nat => ln (3 / 2) | _ => ln 4 / 3 end.

(** Goodness of fit: the adjusted coefficient of determination, of data that are not all equal. *)
Definition sum (l : list R) : R := fold_right Rplus 0 l.
Definition mean (l : list R) : R := sum l / INR (List.length l).
Definition scatter (f : R -> R) (times amps : list R) : R := sum (map (fun q => Rsqr (snd q - f (fst q))) (combine times amps)).
Definition spread (amps : list R) : R := sum (map (fun a => Rsqr (a - mean amps)) amps).
Definition goodness (p : nat) (f : R -> R) (times amps : list R) : R :=
  let n := INR (List.length times) in 1 - (scatter f times amps / (n - INR p)) / (spread amps / (n - 1)).
Definition varied (amps : list R) : Prop := exists a b, In a amps /\ In b amps /\ a <> b.

(** A call *)
Record job : Type := mkjob
  { j_mode : mode; j_scheme : Z; j_amps : list R; j_times : list R; j_pumps : Z; j_thresh : R;
    j_tau : R * R; j_cap : R * R; j_off : R * R; j_both : option above }.
Definition curve3_t := (R -> three -> R) -> list R -> list R -> three -> three -> three -> option (three * (err * err * err)).
Definition curve5_t := (R -> five -> R) -> list R -> list R -> five -> five -> five -> option (five * (err * err * err * err * err)).
Definition run (c3 : curve3_t) (c5 : curve5_t) (j : job) : result outcome :=
  match j_mode j with
  | Timed => trap_fit c3 c5 (j_scheme j) (j_amps j) (j_times j) (j_pumps j) (j_thresh j) (fst (j_tau j)) (snd (j_tau j)) (fst (j_cap j)) (snd (j_cap j)) (fst (j_off j)) (snd (j_off j)) (j_both j)
  | Const => trap_fit_const c3 c5 (j_scheme j) (j_amps j) (j_times j) (j_pumps j) (j_thresh j) (fst (j_tau j)) (snd (j_tau j)) (fst (j_cap j)) (snd (j_cap j)) (fst (j_off j)) (snd (j_off j)) (j_both j)
  end.

(** The refusals, in order. *)
Definition lacks (b : option above) : Prop := match b with None => False | Some b => ab_amp b = None \/ ab_t b = None end.
Definition uneven (b : option above) : Prop :=
  match b with None => False | Some b => exists x y, ab_amp b = Some x /\ ab_t b = Some y /\ List.length x <> List.length y end.
Definition refusals (j : job) : list (Prop * exn) :=
  [ (~ (1 <= j_scheme j <= 4)%Z, TypeError);
    ((exists l, (List.length l <= 5)%nat /\ incl (j_times j) l), IndexError);
    (List.length (j_amps j) <> List.length (j_times j), ValueError);
    (~ (0 < j_pumps j)%Z, TypeError);
    (j_thresh j < 0, TypeError); (1 < j_thresh j, ValueError);
    (fst (j_tau j) < 0, TypeError); (snd (j_tau j) < 0, TypeError); (snd (j_tau j) <= fst (j_tau j), ValueError);
    (fst (j_cap j) < 0, TypeError); (snd (j_cap j) < 0, TypeError); (snd (j_cap j) <= fst (j_cap j), ValueError);
    (snd (j_off j) <= fst (j_off j), ValueError);
    (lacks (j_both j), KeyError); (uneven (j_both j), ValueError) ].
Definition refused_in (l : list (Prop * exn)) (e : exn) : Prop :=
  exists l1 P l2, l = l1 ++ (P, e) :: l2 /\ P /\ Forall (fun q => ~ fst q) l1.
Definition refused (j : job) (e : exn) : Prop := refused_in (refusals j) e.
Definition accepted (j : job) : Prop := Forall (fun q => ~ fst q) (refusals j).
(** The two lists of a pixel that is bright both ways *)
Definition both_of (j : job) : option (list R * list R) :=
  match j_both j with Some b => match ab_amp b, ab_t b with Some x, Some y => Some (x, y) | _, _ => None end | None => None end.

(** Bounds and starting points *)
Definition nudge (z : R) (by_ : R) (top : R) : R := if Req_EM_T z 0 then Rmin by_ top else z.
Definition off0 (j : job) : R := nudge ((fst (j_off j) + snd (j_off j)) / 2) 1 (snd (j_off j)).
Definition tau_lo (j : job) : R := nudge (fst (j_tau j)) (/ 10 ^ 7) (snd (j_tau j)).
(** Start with the lower ([false]) or the upper ([true]) release time *)
Definition start1 (j : job) (up : bool) : three :=
  (off0 j,
   match j_mode j with
   | Timed => (fst (j_cap j) + snd (j_cap j)) / 2
   | Const => if Rle_dec (fst (j_cap j)) 1 then (if Rle_dec 1 (snd (j_cap j)) then 1 else fst (j_cap j)) else fst (j_cap j)
   end, if up then snd (j_tau j) else tau_lo j).
Definition start2 (j : job) (up : bool) : five :=
  let tl := tau_lo j in
  let tu := snd (j_tau j) in
  match j_mode j with
  | Timed =>
    let cl := nudge (fst (j_cap j)) (/ 10 ^ 12) (snd (j_cap j)) in
    let cu := snd (j_cap j) in
    if up then (off0 j, cl, tu, cu, tl) else (off0 j, cu, tl, cl, tu)
  | Const =>
    let c := snd (fst (start1 j up)) in
    if up then (off0 j, c, tu, c, tl) else (off0 j, c, tl, c, tu)
  end.
Definition lower1 (j : job) : three := (fst (j_off j), fst (j_cap j), fst (j_tau j)).
Definition upper1 (j : job) : three := (snd (j_off j), snd (j_cap j), snd (j_tau j)).
Definition lower2 (j : job) : five := (fst (j_off j), fst (j_cap j), fst (j_tau j), fst (j_cap j), fst (j_tau j)).
Definition upper2 (j : job) : five := (snd (j_off j), snd (j_cap j), snd (j_tau j), snd (j_cap j), snd (j_tau j)).

(** The kinds of trap a scheme can show, alone and in pairs *)
Definition early (j : job) : bool := (j_scheme j <=? 2)%Z.
Definition alone (j : job) : list nat := if early j then [1; 2]%nat else [3; 2]%nat.
Definition paired (j : job) : list (nat * nat) := if early j then [(1, 1); (1, 2); (2, 2)]%nat else [(3, 3); (2, 3); (2, 2)]%nat.

Section SPEC.
Variable c3 : curve3_t.
Variable c5 : curve5_t.

(** The attempts, the preferred first: for equal goodness the upper start is preferred, and the kinds in order. *)
Definition attempts1 (j : job) : list (nat * option (three * (err * err * err))) :=
  flat_map (fun k => map (fun up => (k, c3 (curve1 (j_mode j) (IZR (j_pumps j)) k) (j_times j) (j_amps j) (lower1 j) (upper1 j) (start1 j up))) [true; false]) (alone j).
Definition attempts2 (j : job) : list ((nat * nat) * option (five * (err * err * err * err * err))) :=
  flat_map (fun kk => map (fun up => (kk, c5 (curve2 (j_mode j) (IZR (j_pumps j)) (fst kk) (snd kk)) (j_times j) (j_amps j) (lower2 j) (upper2 j) (start2 j up))) [true; false]) (paired j).
Definition good1 (j : job) (q : nat * (three * (err * err * err))) : R :=
  goodness 3 (fun t => curve1 (j_mode j) (IZR (j_pumps j)) (fst q) t (fst (snd q))) (j_times j) (j_amps j).
Definition good2 (j : job) (q : (nat * nat) * (five * (err * err * err * err * err))) : R :=
  goodness 5 (fun t => curve2 (j_mode j) (IZR (j_pumps j)) (fst (fst q)) (snd (fst q)) t (fst (snd q))) (j_times j) (j_amps j).

(** All the attempts gave a fit; one of them did not. *)
Definition all_done {K A} (att : list (K * option A)) (done : list (K * A)) : Prop := att = map (fun q => (fst q, Some (snd q))) done.
Definition some_failed {K A} (att : list (K * option A)) : Prop := exists k, In (k, None) att.
(** The first of the greatest *)
Definition first_best {A} (g : A -> R) (l : list A) (x : A) : Prop :=
  exists l1 l2, l = l1 ++ x :: l2 /\ Forall (fun y => g y < g x) l1 /\ Forall (fun y => g y <= g x) l2.
Definition found {K A} (j : job) (att : list (K * option A)) (g : K * A -> R) (x : K * A) : Prop :=
  varied (j_amps j) /\ exists done, all_done att done /\ first_best g done x /\ j_thresh j <= g x.
Definition none_good {K A} (j : job) (att : list (K * option A)) (g : K * A -> R) : Prop :=
  exists done, all_done att done /\ (varied (j_amps j) -> Forall (fun q => g q < j_thresh j) done).

Definition stdev (v : err) : err := match v with Some x => Some (sqrt x) | None => None end.
Definition answer1 (q : nat * (three * (err * err * err))) : outcome :=
  let '(k, ((_, c, u), (_, vc, vu))) := q in Traps [(k, [(c, stdev vc, u, stdev vu)])].
(** The time of the first of the greatest amplitudes *)
Definition brightest (amp t : list R) (x : R) : Prop := exists a, first_best fst (combine amp t) (a, x).
Definition answer2 (b : option (list R * list R)) (q : (nat * nat) * (five * (err * err * err * err * err))) (o : outcome) : Prop :=
  let '((k1, k2), ((_, c, u, c2, u2), (_, vc, vu, vc2, vu2))) := q in
  let e1 := (c, stdev vc, u, stdev vu) in
  let e2 := (c2, stdev vc2, u2, stdev vu2) in
  match b with
  | None => o = Traps (if Nat.eqb k1 k2 then [(k1, [e1; e2])] else [(k1, [e1]); (k2, [e2])])
  | Some (amp, t) =>
    exists x, brightest amp t x /\
      (Rabs (x / peak k1 - u) <= Rabs (x / peak k2 - u2) /\ o = Split (k1, e1) (k2, e2) \/
       Rabs (x / peak k2 - u2) < Rabs (x / peak k1 - u) /\ o = Split (k2, e2) (k1, e1))
  end.

(** Equal amplitudes that the first pair of kinds fits exactly from the lower start: the last lines are passed
    without a warning. *)
Definition exact_first (j : job) : Prop :=
  match paired j with
  | kk :: _ =>
    exists p v, c5 (curve2 (j_mode j) (IZR (j_pumps j)) (fst kk) (snd kk)) (j_times j) (j_amps j) (lower2 j) (upper2 j) (start2 j false) = Some (p, v) /\
      Forall (fun q => curve2 (j_mode j) (IZR (j_pumps j)) (fst kk) (snd kk) (fst q) p = snd q) (combine (j_times j) (j_amps j))
  | [] => False
  end.

Inductive ends2 (j : job) (b : option (list R * list R)) : outcome -> Prop :=
| E_failed2 : some_failed (attempts2 j) -> ends2 j b FitFailed
| E_pair : forall q o, found j (attempts2 j) (good2 j) q -> answer2 b q o -> ends2 j b o
| E_none : none_good j (attempts2 j) (good2 j) -> ~ (~ varied (j_amps j) /\ exact_first j) -> ends2 j b NoneAbove
| E_silent : none_good j (attempts2 j) (good2 j) -> ~ varied (j_amps j) -> exact_first j -> ends2 j b FellOff.
Inductive ends (j : job) : option (list R * list R) -> outcome -> Prop :=
| E_failed1 : some_failed (attempts1 j) -> ends j None FitFailed
| E_single : forall q, found j (attempts1 j) (good1 j) q -> ends j None (answer1 q)
| E_then : forall o, none_good j (attempts1 j) (good1 j) -> ends2 j None o -> ends j None o
| E_both : forall b o, ends2 j (Some b) o -> ends j (Some b) o.
End SPEC.

(** The traps of an outcome, with their kinds *)
Definition traps_of (o : outcome) : list (nat * entry) :=
  match o with
  | Traps d => flat_map (fun q => map (fun e => (fst q, e)) (snd q)) d
  | Split a b => [a; b]
  | _ => []
  end.

(** curve_fit that keeps to its bounds; curve_fit that also refuses to start outside them, or at a zero. *)
Definition le3 (a b : three) : Prop := let '(x, y, z) := a in let '(x', y', z') := b in x <= x' /\ y <= y' /\ z <= z'.
Definition le5 (a b : five) : Prop :=
  let '(x, y, z, u, v) := a in let '(x', y', z', u', v') := b in x <= x' /\ y <= y' /\ z <= z' /\ u <= u' /\ v <= v'.
Definition bounded3 (c : curve3_t) : Prop := forall f t a lo hi p0 p v, c f t a lo hi p0 = Some (p, v) -> le3 lo p /\ le3 p hi.
Definition bounded5 (c : curve5_t) : Prop := forall f t a lo hi p0 p v, c f t a lo hi p0 = Some (p, v) -> le5 lo p /\ le5 p hi.
Definition nonzero3 (a : three) : Prop := let '(x, y, z) := a in x <> 0 /\ y <> 0 /\ z <> 0.
Definition nonzero5 (a : five) : Prop := let '(x, y, z, u, v) := a in x <> 0 /\ y <> 0 /\ z <> 0 /\ u <> 0 /\ v <> 0.
Definition same3 (ok : three -> three -> three -> Prop) (c c' : curve3_t) : Prop :=
  forall f t a lo hi p0, ok lo hi p0 -> c f t a lo hi p0 = c' f t a lo hi p0.
Definition same5 (ok : five -> five -> five -> Prop) (c c' : curve5_t) : Prop :=
  forall f t a lo hi p0, ok lo hi p0 -> c f t a lo hi p0 = c' f t a lo hi p0.
Definition inside3 (lo hi p0 : three) : Prop := le3 lo p0 /\ le3 p0 hi.
Definition inside5 (lo hi p0 : five) : Prop := le5 lo p0 /\ le5 p0 hi.
