(** Fits of the trap-pumping amplitudes against the phase time: corgidrp/pump_trap_calibration.py P1..P2_P3 31-186,
    trap_fit 552-1198, trap_fit_const 1200-1989.

    Floats are real numbers without rounding.  Not modelled: arguments of other types than numbers, lists of
    numbers and a dictionary with 'amp' and 't' (refused by the checks); infinite and NaN arguments (curve_fit
    refuses arrays with them); fitted time constants that are exactly zero.  scipy's curve_fit is an unknown: it is
    given the model function, the data, the bounds and the starting point, and either raises or returns as many
    parameters as the starting point has, and the diagonal of the covariance, where None is the infinity it puts
    when the covariance cannot be estimated.  [curve3] is curve_fit with three parameters (one trap), [curve5] with
    five (two traps). *)
From Coq Require Import List Arith Bool Reals ZArith.
From Verif Require Import Base.
Import ListNotations.
Local Open Scope R_scope.

Definition three := (R * R * R)%type.
Definition five := (R * R * R * R * R)%type.
Definition err := option R.

(** 31-46 *)
Definition P1 (num_pumps t offset tauc tau : R) : R :=
  let pc := 1 - exp (- t / tauc) in
  offset + (num_pumps * pc * (exp (- t / tau) - exp (- 2 * t / tau))).
(** 48-67 *)
Definition P1_P1 (num_pumps t offset tauc tau tauc2 tau2 : R) : R :=
  let pc := 1 - exp (- t / tauc) in
  let pc2 := 1 - exp (- t / tauc2) in
  offset + num_pumps * pc * (exp (- t / tau) - exp (- 2 * t / tau)) +
  num_pumps * pc2 * (exp (- t / tau2) - exp (- 2 * t / tau2)).
(** 70-85 *)
Definition P2 (num_pumps t offset tauc tau : R) : R :=
  let pc := 1 - exp (- t / tauc) in
  offset + (num_pumps * pc * (exp (- 2 * t / tau) - exp (- 3 * t / tau))).
(** 87-106 *)
Definition P1_P2 (num_pumps t offset tauc tau tauc2 tau2 : R) : R :=
  let pc := 1 - exp (- t / tauc) in
  let pc2 := 1 - exp (- t / tauc2) in
  offset + num_pumps * pc * (exp (- t / tau) - exp (- 2 * t / tau)) +
  num_pumps * pc2 * (exp (- 2 * t / tau2) - exp (- 3 * t / tau2)).
(** 108-127 *)
Definition P2_P2 (num_pumps t offset tauc tau tauc2 tau2 : R) : R :=
  let pc := 1 - exp (- t / tauc) in
  let pc2 := 1 - exp (- t / tauc2) in
  offset + num_pumps * pc * (exp (- 2 * t / tau) - exp (- 3 * t / tau)) +
  num_pumps * pc2 * (exp (- 2 * t / tau2) - exp (- 3 * t / tau2)).
(** 129-144 *)
Definition P3 (num_pumps t offset tauc tau : R) : R :=
  let pc := 1 - exp (- t / tauc) in
  offset + (num_pumps * pc * (exp (- t / tau) - exp (- 4 * t / tau))).
(** 146-165 *)
Definition P3_P3 (num_pumps t offset tauc tau tauc2 tau2 : R) : R :=
  let pc := 1 - exp (- t / tauc) in
  let pc2 := 1 - exp (- t / tauc2) in
  offset + num_pumps * pc * (exp (- t / tau) - exp (- 4 * t / tau)) +
  num_pumps * pc2 * (exp (- t / tau2) - exp (- 4 * t / tau2)).
(** 167-186 *)
Definition P2_P3 (num_pumps t offset tauc tau tauc2 tau2 : R) : R :=
  let pc := 1 - exp (- t / tauc) in
  let pc2 := 1 - exp (- t / tauc2) in
  offset + num_pumps * pc * (exp (- 2 * t / tau) - exp (- 3 * t / tau)) +
  num_pumps * pc2 * (exp (- t / tau2) - exp (- 4 * t / tau2)).

(** The functions of the same names inside trap_fit_const: 1327-1341, 1343-1360, 1362-1376, 1378-1395, 1397-1414,
    1416-1430, 1432-1449, 1451-1468, in this order; num_pumps is an argument of the enclosing function *)
Definition c_P1 (num_pumps t offset pc tau : R) : R :=
  offset + (num_pumps * pc * (exp (- t / tau) - exp (- 2 * t / tau))).
Definition c_P1_P1 (num_pumps t offset pc tau pc2 tau2 : R) : R :=
  offset + num_pumps * pc * (exp (- t / tau) - exp (- 2 * t / tau)) +
  num_pumps * pc2 * (exp (- t / tau2) - exp (- 2 * t / tau2)).
Definition c_P2 (num_pumps t offset pc tau : R) : R :=
  offset + (num_pumps * pc * (exp (- 2 * t / tau) - exp (- 3 * t / tau))).
Definition c_P1_P2 (num_pumps t offset pc tau pc2 tau2 : R) : R :=
  offset + num_pumps * pc * (exp (- t / tau) - exp (- 2 * t / tau)) +
  num_pumps * pc2 * (exp (- 2 * t / tau2) - exp (- 3 * t / tau2)).
Definition c_P2_P2 (num_pumps t offset pc tau pc2 tau2 : R) : R :=
  offset + num_pumps * pc * (exp (- 2 * t / tau) - exp (- 3 * t / tau)) +
  num_pumps * pc2 * (exp (- 2 * t / tau2) - exp (- 3 * t / tau2)).
Definition c_P3 (num_pumps t offset pc tau : R) : R :=
  offset + (num_pumps * pc * (exp (- t / tau) - exp (- 4 * t / tau))).
Definition c_P3_P3 (num_pumps t offset pc tau pc2 tau2 : R) : R :=
  offset + num_pumps * pc * (exp (- t / tau) - exp (- 4 * t / tau)) +
  num_pumps * pc2 * (exp (- t / tau2) - exp (- 4 * t / tau2)).
Definition c_P2_P3 (num_pumps t offset pc tau pc2 tau2 : R) : R :=
  offset + num_pumps * pc * (exp (- 2 * t / tau) - exp (- 3 * t / tau)) +
  num_pumps * pc2 * (exp (- t / tau2) - exp (- 4 * t / tau2)).

Definition Rsum (l : list R) : R := fold_right Rplus 0 l.
(** 737 (1522): np.sum((amps - np.mean(amps))**2) *)
Definition total (amps : list R) : R :=
  let m := Rsum amps / INR (List.length amps) in Rsum (map (fun a => (a - m) ^ 2) amps).
(** 753-754: np.sum((fit - amps)**2) *)
Definition residue (f : R -> R) (times amps : list R) : R :=
  Rsum (map (fun q => (f (fst q) - snd q) ^ 2) (combine times amps)).

(** The adjusted R^2 as a float: a division by a total of zero gives an infinity or, for 0/0, NaN *)
Inductive rsq : Type := Num (x : R) | NegInf | NotNum.
(** 755-760; [p] is len(popt), less than the number of times *)
Definition r_value (n p : nat) (ssres sstot : R) : rsq :=
  if Req_EM_T sstot 0 then (if Req_EM_T ssres 0 then NotNum else NegInf)
  else Num (1 - (ssres / sstot) * (INR n - 1) / (INR n - INR p)).
Definition rgt (a b : rsq) : bool :=
  match a, b with
  | Num x, Num y => if Rlt_dec y x then true else false
  | Num _, NegInf => true
  | _, _ => false
  end.
Definition req (a b : rsq) : bool :=
  match a, b with
  | Num x, Num y => if Req_EM_T x y then true else false
  | NegInf, NegInf => true
  | _, _ => false
  end.
(** Python's max: the first, unless a later one is greater *)
Definition pymax (a b : rsq) : rsq := if rgt b a then b else a.
Definition reaches (a : rsq) (thresh : R) : bool := match a with Num x => if Rle_dec thresh x then true else false | _ => false end.
Definition below (a : rsq) (thresh : R) : bool :=
  match a with Num x => if Rlt_dec x thresh then true else false | NegInf => true | NotNum => false end.

(** [cap, cap_err, tau, tau_err], where cap is the capture time constant or the capture probability *)
Definition entry := (R * err * R * err)%type.
(** What is returned.  The first three are None: after the warning that curve_fit failed, after the warning that no
    fit is good enough, and at the end of the function.  Then the dictionary of a single or double fit, and
    {'a': {k: [e]}, 'b': {k': [e']}} *)
Inductive outcome : Type :=
| FitFailed | NoneAbove | FellOff
| Traps (d : list (nat * list entry))
| Split (a b : nat * entry).

(** A model of two traps: the kinds of the first and the second, the function, and the phase times of the peaks in
    units of tau used to tell 'a' from 'b' *)
Record pair_model : Type := mkpair { m_k1 : nat; m_k2 : nat; m_f : R -> R -> R -> R -> R -> R -> R; m_w1 : R; m_w2 : R }.

(** both_a, with the keys that may be missing *)
Record above : Type := mkabove { ab_amp : option (list R); ab_t : option (list R) }.

(** np.sqrt of an element of the diagonal *)
Definition dev (v : err) : err := option_map sqrt v.

(** max_a_ind[0] of np.where(amp_a == np.max(amp_a))[0], and t_a of it; np.max of an empty list raises *)
Fixpoint top_time (best : R * R) (l : list (R * R)) : R :=
  match l with [] => snd best | q :: r => top_time (if Rlt_dec (fst best) (fst q) then q else best) r end.
Definition peak_time (amp t : list R) : result R :=
  match combine amp t with [] => Raise ValueError | q :: r => Ok (top_time q r) end.

Section FIT.
Variable curve3 : (R -> three -> R) -> list R -> list R -> three -> three -> three -> option (three * (err * err * err)).
Variable curve5 : (R -> five -> R) -> list R -> list R -> five -> five -> five -> option (five * (err * err * err * err * err)).

Definition one (f : R -> R -> R -> R -> R) (t : R) (p : three) : R := let '(o, c, u) := p in f t o c u.
Definition two (f : R -> R -> R -> R -> R -> R -> R) (t : R) (p : five) : R := let '(o, c, u, c2, u2) := p in f t o c u c2 u2.

(** 743-765 and each repetition of it: two fits, and the better of them.  None: curve_fit raised.  The chosen fit is
    None when neither equality holds (popt1 stays unbound) *)
Definition choose {P C : Type} (n p : nat) (sstot : R) (ssres : P -> R) (fl fu : option (P * C)) : option (rsq * option (P * C)) :=
  match fl, fu with
  | Some l, Some u =>
    let rl := r_value n p (ssres (fst l)) sstot in
    let ru := r_value n p (ssres (fst u)) sstot in
    let r := pymax rl ru in
    let c := if req r rl then Some l else None in
    Some (r, if req r ru then Some u else c)
  | _, _ => None
  end.
(** A local variable that may be unbound *)
Definition local {A} (o : option A) : result A := match o with Some a => Ok a | None => Raise UnboundLocalError end.

(** What the two functions give to curve_fit: the bounds and the starting points for one trap and for two *)
Record starts : Type := mkstarts
  { s_lo1 : three; s_hi1 : three; s_p1l : three; s_p1u : three; s_lo2 : five; s_hi2 : five; s_p2l : five; s_p2u : five }.

(** 794-803: {k: [[tauc, tauc_err, tau, tau_err]]} *)
Definition single (k : nat) (c : three * (err * err * err)) : outcome :=
  let '((_, tauc, tau), (_, vc, vt)) := c in Traps [(k, [(tauc, dev vc, tau, dev vt)])].
(** 891-920, 922-945, 947-970: the two traps of a pair, told apart for a pixel that is bright both ways *)
Definition double (both_a : option (list R * list R)) (m : pair_model) (c : five * (err * err * err * err * err)) : result outcome :=
  let '((_, tauc, tau, tauc2, tau2), (_, vc, vt, vc2, vt2)) := c in
  let e1 := (tauc, dev vc, tau, dev vt) in
  let e2 := (tauc2, dev vc2, tau2, dev vt2) in
  match both_a with
  | Some (amp_a, t_a) =>
    do t <- peak_time amp_a t_a;
    let a_tau := t / m_w1 m in
    let a_tau2 := t / m_w2 m in
    Ok (if Rle_dec (Rabs (a_tau - tau)) (Rabs (a_tau2 - tau2)) then Split (m_k1 m, e1) (m_k2 m, e2) else Split (m_k2 m, e2) (m_k1 m, e1))
  | None => Ok (Traps (if Nat.eqb (m_k1 m) (m_k2 m) then [(m_k1 m, [e1; e2])] else [(m_k1 m, [e1]); (m_k2 m, [e2])]))
  end.

(** 805-970 and 1038-1198 (1590-1761, 1829-1989): two traps *)
Definition pairs (st : starts) (times amps : list R) (thresh : R) (both_a : option (list R * list R)) (m1 m2 m3 : pair_model) : result outcome :=
  let n := List.length times in
  let sstot := total amps in
  let fit m := choose n 5 sstot (fun p => residue (fun t => two (m_f m) t p) times amps)
    (curve5 (two (m_f m)) times amps (s_lo2 st) (s_hi2 st) (s_p2l st)) (curve5 (two (m_f m)) times amps (s_lo2 st) (s_hi2 st) (s_p2u st)) in
  match fit m1 with
  | None => Ok FitFailed
  | Some (r1, c1) =>
    match fit m2 with
    | None => Ok FitFailed
    | Some (r2, c2) =>
      match fit m3 with
      | None => Ok FitFailed
      | Some (r3, c3) =>
        let r := pymax (pymax r1 r2) r3 in
        if below r thresh then Ok NoneAbove
        else if req r r1 then do c <- local c1; double both_a m1 c
        else if req r r2 then do c <- local c2; double both_a m2 c
        else if req r r3 then do c <- local c3; double both_a m3 c
        else Ok FellOff
      end
    end
  end.

(** 739-970 and 972-1198 (1524-1761, 1763-1989): one trap first, unless the pixel is bright both ways *)
Definition search (st : starts) (times amps : list R) (thresh : R) (both_a : option (list R * list R))
    (k1 : nat) (f1 : R -> R -> R -> R -> R) (k2 : nat) (f2 : R -> R -> R -> R -> R) (m1 m2 m3 : pair_model) : result outcome :=
  let n := List.length times in
  let sstot := total amps in
  let fit f := choose n 3 sstot (fun p => residue (fun t => one f t p) times amps)
    (curve3 (one f) times amps (s_lo1 st) (s_hi1 st) (s_p1l st)) (curve3 (one f) times amps (s_lo1 st) (s_hi1 st) (s_p1u st)) in
  match both_a with
  | Some _ => pairs st times amps thresh both_a m1 m2 m3
  | None =>
    match fit f1 with
    | None => Ok FitFailed
    | Some (r1, c1) =>
      match fit f2 with
      | None => Ok FitFailed
      | Some (r2, c2) =>
        let r := pymax r1 r2 in
        if reaches r thresh && req r r1 then do c <- local c1; Ok (single k1 c)
        else if reaches r thresh && req r r2 then do c <- local c2; Ok (single k2 c)
        else pairs st times amps thresh both_a m1 m2 m3
      end
    end
  end.

(** 629-675 (1276-1322): the checks of both functions; the checked range of the second parameter is called tauc in
    the one and pc in the other.  What is returned is both_a with its two lists *)
Definition checks (scheme : Z) (amps times : list R) (num_pumps : Z) (thresh tau_min tau_max cap_min cap_max off_min off_max : R)
    (both_a : option above) : result (option (list R * list R)) :=
  if negb (Z.eqb scheme 1) && negb (Z.eqb scheme 2) && negb (Z.eqb scheme 3) && negb (Z.eqb scheme 4) then Raise TypeError
  else if (List.length (nodup Req_EM_T times) <? 6)%nat then Raise IndexError
  else if negb (List.length amps =? List.length times)%nat then Raise ValueError
  else if (num_pumps <=? 0)%Z then Raise TypeError
  else if Rlt_dec thresh 0 then Raise TypeError
  else if Rlt_dec 1 thresh then Raise ValueError
  else if Rlt_dec tau_min 0 then Raise TypeError
  else if Rlt_dec tau_max 0 then Raise TypeError
  else if Rle_dec tau_max tau_min then Raise ValueError
  else if Rlt_dec cap_min 0 then Raise TypeError
  else if Rlt_dec cap_max 0 then Raise TypeError
  else if Rle_dec cap_max cap_min then Raise ValueError
  else if Rle_dec off_max off_min then Raise ValueError
  else match both_a with
       | None => Ok None
       | Some b =>
         match ab_amp b, ab_t b with
         | Some x, Some y => if negb (List.length x =? List.length y)%nat then Raise ValueError else Ok (Some (x, y))
         | _, _ => Raise KeyError
         end
       end.

(** 688-690 (1479-1481) *)
Definition offset_start (off_min off_max : R) : R :=
  let offset0 := (off_min + off_max) / 2 in
  if Req_EM_T offset0 0 then Rmin (1 + (off_min + off_max) / 2) off_max else offset0.
(** 705-707 (1492-1494) *)
Definition tau_low (tau_min tau_max : R) : R := if Req_EM_T tau_min 0 then Rmin (tau_min + / 10000000) tau_max else tau_min.
(** 700-702 *)
Definition tauc_low (tauc_min tauc_max : R) : R := if Req_EM_T tauc_min 0 then Rmin (tauc_min + / 1000000000000) tauc_max else tauc_min.
(** 685-734 *)
Definition fit_starts (tau_min tau_max tauc_min tauc_max off_min off_max : R) : starts :=
  let offset0 := offset_start off_min off_max in
  let tauc0 := (tauc_min + tauc_max) / 2 in
  let tauc0l := tauc_low tauc_min tauc_max in
  let tauc0u := tauc_max in
  let tau0l := tau_low tau_min tau_max in
  let tau0u := tau_max in
  mkstarts (off_min, tauc_min, tau_min) (off_max, tauc_max, tau_max) (offset0, tauc0, tau0l) (offset0, tauc0, tau0u)
    (off_min, tauc_min, tau_min, tauc_min, tau_min) (off_max, tauc_max, tau_max, tauc_max, tau_max)
    (offset0, tauc0u, tau0l, tauc0l, tau0u) (offset0, tauc0l, tau0u, tauc0u, tau0l).
(** 1476-1519 *)
Definition const_starts (tau_min tau_max pc_min pc_max off_min off_max : R) : starts :=
  let offset0 := offset_start off_min off_max in
  let pc0 := if Rlt_dec 1 pc_min then pc_min else if Rlt_dec pc_max 1 then pc_min else 1 in
  let tau0l := tau_low tau_min tau_max in
  let tau0u := tau_max in
  mkstarts (off_min, pc_min, tau_min) (off_max, pc_max, tau_max) (offset0, pc0, tau0l) (offset0, pc0, tau0u)
    (off_min, pc_min, tau_min, pc_min, tau_min) (off_max, pc_max, tau_max, pc_max, tau_max)
    (offset0, pc0, tau0l, pc0, tau0u) (offset0, pc0, tau0u, pc0, tau0l).

(** 552-1198 *)
Definition trap_fit (scheme : Z) (amps times : list R) (num_pumps : Z) (thresh tau_min tau_max tauc_min tauc_max off_min off_max : R)
    (both_a : option above) : result outcome :=
  do b <- checks scheme amps times num_pumps thresh tau_min tau_max tauc_min tauc_max off_min off_max both_a;
  let st := fit_starts tau_min tau_max tauc_min tauc_max off_min off_max in
  let N := IZR num_pumps in
  if Z.eqb scheme 1 || Z.eqb scheme 2 then
    search st times amps thresh b 1 (P1 N) 2 (P2 N)
      (mkpair 1 1 (P1_P1 N) (ln 2) (ln 2)) (mkpair 1 2 (P1_P2 N) (ln 2) (ln (3 / 2))) (mkpair 2 2 (P2_P2 N) (ln (3 / 2)) (ln (3 / 2)))
  else
    search st times amps thresh b 3 (P3 N) 2 (P2 N)
      (mkpair 3 3 (P3_P3 N) (2 * ln 2 / 3) (2 * ln 2 / 3)) (mkpair 2 3 (P2_P3 N) (ln (3 / 2)) (2 * ln 2 / 3)) (mkpair 2 2 (P2_P2 N) (ln (3 / 2)) (ln (3 / 2))).

(** 1200-1989 *)
Definition trap_fit_const (scheme : Z) (amps times : list R) (num_pumps : Z) (thresh tau_min tau_max pc_min pc_max off_min off_max : R)
    (both_a : option above) : result outcome :=
  do b <- checks scheme amps times num_pumps thresh tau_min tau_max pc_min pc_max off_min off_max both_a;
  let st := const_starts tau_min tau_max pc_min pc_max off_min off_max in
  let N := IZR num_pumps in
  if Z.eqb scheme 1 || Z.eqb scheme 2 then
    search st times amps thresh b 1 (c_P1 N) 2 (c_P2 N)
      (mkpair 1 1 (c_P1_P1 N) (ln 2) (ln 2)) (mkpair 1 2 (c_P1_P2 N) (ln 2) (ln (3 / 2))) (mkpair 2 2 (c_P2_P2 N) (ln (3 / 2)) (ln (3 / 2)))
  else
    search st times amps thresh b 3 (c_P3 N) 2 (c_P2 N)
      (mkpair 3 3 (c_P3_P3 N) (2 * ln 2 / 3) (2 * ln 2 / 3)) (mkpair 2 3 (c_P2_P3 N) (ln (3 / 2)) (2 * ln 2 / 3)) (mkpair 2 2 (c_P2_P2 N) (ln (3 / 2)) (ln (3 / 2))).
End FIT.
