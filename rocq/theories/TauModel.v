(** Energy level and cross section of a trap from its release times: corgidrp/pump_trap_calibration.py tau_temp
    262-293, sig_tau_temp 295-332, fit_cs 1991-2119, and the end of tpump_analysis 3115-3163.

    Floats are real numbers without rounding.  A result that numpy would make infinite or NaN (division by zero, root
    of a negative number) is None.  Not modelled: arguments of other types than numbers and lists of numbers (refused
    by the checks); the warnings.  scipy's curve_fit is an unknown: it is given the temperatures, the release times,
    their errors, the bounds, the starting point and absolute_sigma, and either raises (None) or returns two
    parameters and the diagonal of the covariance, where None is infinity; the entries of that diagonal are not
    negative. *)
From Coq Require Import List Arith Bool Reals ZArith.
From Verif Require Import Base.
Import ListNotations.
Local Open Scope R_scope.

Definition err := option R.

(** 281-285 *)
Definition k_ev : R := 86173 / 10 ^ 9.
Definition k_b : R := 1381 / 10 ^ 26.
Definition h_const : R := 6626 / 10 ^ 37.
Definition E_gap (T : R) : R := 11692 / 10000 - 49 / 100000 * T ^ 2 / (T + 655).
Definition m_e : R := 9109 / 10 ^ 34.
(** 286-288 *)
Definition m_l : R := 1963 / 10000 * m_e.
Definition m_t (T : R) : R := 1905 / 10000 * (11692 / 10000) * m_e / E_gap T.
Definition m_dc (T : R) : R := Rpower 6 (2 / 3) * Rpower (m_t T ^ 2 * m_l) (1 / 3).
(** 289-290 *)
Definition v_th (T : R) : R := sqrt (3 * k_b * T / m_dc T).
Definition N_c (T : R) : R := 2 * Rpower (2 * PI * m_dc T * k_b * T / (h_const ^ 2)) (3 / 2).
(** 262-293: np.e**x is [exp x]. *)
Definition tau_temp (T E c : R) : option R :=
  if Rlt_dec 0 T then
    if Req_EM_T (E_gap T) 0 then None else
    if Req_EM_T c 0 then None else
    Some (exp (E / (k_ev * T)) / (c * N_c T * v_th T * (/ 10 ^ 19)))
  else None.
(** 295-332: an infinite deviation gives an infinite one. *)
Definition sig_tau_temp (T E c : R) (sE sc : err) : option R :=
  match tau_temp T E c with
  | None => None
  | Some tau =>
    match sE, sc with
    | Some sE, Some sc =>
      let dcs := - tau / (c * (/ 10 ^ 19)) in
      let dE := tau / (k_ev * T) in
      Some (sqrt ((dcs * sc * (/ 10 ^ 19)) ^ 2 + (dE * sE) ^ 2))
    | _, _ => None
    end
  end.

(** 2117: the seven values; E, sig_E, cs, sig_cs, Rsq, tau and sig_tau at the input temperature.  An Rsq that is NaN
    or minus infinity is None. *)
Inductive fit : Type := NoFit | Fit (E : R) (sE : err) (cs : R) (scs : err) (Rsq tau sig : option R).
(** The arguments of fit_cs that all traps share *)
Record limits : Type := mklim { l_thresh : R; l_E : R * R; l_cs : R * R; l_T : R }.
Definition pair2 := (R * R)%type.
Definition curve_t := list R -> list R -> list err -> pair2 -> pair2 -> pair2 -> bool -> option (pair2 * (err * err)).

Section FIT.
(** np.finfo(float).eps *)
Variable eps : R.
Variable curve : curve_t.

(** 2047-2064 *)
Definition checks (taus : list R) (errs : list err) (temps : list R) (l : limits) : result unit :=
  if negb (List.length temps =? List.length taus)%nat then Raise ValueError else
  if negb (List.length errs =? List.length taus)%nat then Raise ValueError else
  if Rlt_dec (l_thresh l) 0 then Raise TypeError else
  if Rlt_dec 1 (l_thresh l) then Raise ValueError else
  if Rlt_dec (fst (l_E l)) 0 then Raise TypeError else
  if Rlt_dec (snd (l_E l)) 0 then Raise TypeError else
  if Rle_dec (snd (l_E l)) (fst (l_E l)) then Raise ValueError else
  if Rlt_dec (fst (l_cs l)) 0 then Raise TypeError else
  if Rlt_dec (snd (l_cs l)) 0 then Raise TypeError else
  if Rle_dec (snd (l_cs l)) (fst (l_cs l)) then Raise ValueError else
  if Rle_dec (l_T l) 0 then Raise TypeError else Ok tt.
(** 2079 *)
Definition no_zero (e : err) : err := match e with Some x => if Req_EM_T x 0 then Some eps else Some x | None => None end.
(** 2094: the sum of the deviations *)
Definition total_dev (v : err * err) : err := match v with (Some a, Some b) => Some (sqrt a + sqrt b) | _ => None end.
Definition at_least (x y : err) : bool :=
  match x, y with None, _ => true | Some _, None => false | Some a, Some b => if Rle_dec b a then true else false end.
(** 2110-2112: the squares of the differences *)
Fixpoint misfit (E c : R) (temps taus : list R) : option R :=
  match temps, taus with
  | T :: temps, u :: taus =>
    match tau_temp T E c, misfit E c temps taus with Some f, Some s => Some ((f - u) ^ 2 + s) | _, _ => None end
  | _, _ => Some 0
  end.
Definition mean (l : list R) : R := fold_right Rplus 0 l / INR (List.length l).
Definition sstot (taus : list R) : R := fold_right Rplus 0 (map (fun u => (u - mean taus) ^ 2) taus).
(** 2115 *)
Definition r_sq (E c : R) (temps taus : list R) : option R :=
  match misfit E c temps taus with
  | None => None
  | Some s => if Req_EM_T (sstot taus) 0 then None
              else Some (1 - (s / sstot taus) * (INR (List.length temps) - 1) / (INR (List.length temps) - 2))
  end.
Definition dev (v : err) : err := option_map sqrt v.
(** 1991-2119 *)
Definition fit_cs (taus : list R) (errs : list err) (temps : list R) (l : limits) : result fit :=
  do _ <- checks taus errs temps l;
  if (List.length (nodup Req_EM_T temps) <? 3)%nat then Ok NoFit else
  let lo := (fst (l_E l), fst (l_cs l)) in
  let hi := (snd (l_E l), snd (l_cs l)) in
  let p0 := ((fst (l_E l) + snd (l_E l)) / 2, (fst (l_cs l) + snd (l_cs l)) / 2) in
  let errs := map no_zero errs in
  match curve temps taus errs lo hi p0 true with
  | None => Ok NoFit
  | Some (pt, vt) =>
    match curve temps taus errs lo hi p0 false with
    | None => Ok NoFit
    | Some (pf, vf) =>
      let '(p, v) := if at_least (total_dev vt) (total_dev vf) then (pt, vt) else (pf, vf) in
      let E := fst p in
      let sE := dev (fst v) in
      let cs := snd p * (/ 10 ^ 15) in
      let scs := option_map (fun s => s * (/ 10 ^ 15)) (dev (snd v)) in
      Ok (Fit E sE cs scs (r_sq (fst p) (snd p) temps taus)
            (tau_temp (l_T l) E (cs * 10 ^ 15))
            (sig_tau_temp (l_T l) E (cs * 10 ^ 15) sE (option_map (fun s => s * 10 ^ 15) scs)))
    end
  end.

(** A trap of the dictionary: its temperatures, release times and their deviations *)
Record trap : Type := mktrap { t_T : list R; t_tau : list R; t_sig : list err }.
(** 3135-3138 *)
Definition kept (th : R) (f : fit) : list (R * R) :=
  match f with
  | Fit E _ cs _ (Some r) _ _ => if Rle_dec th r then [(E, cs)] else []
  | _ => []
  end.
(** 3115-3140: the fits of all the traps, in order, and the energies and cross sections of the good ones. *)
Fixpoint fit_all {K} (l : limits) (d : list (K * trap)) : result (list (K * trap * fit) * list (R * R)) :=
  match d with
  | [] => Ok ([], [])
  | (k, t) :: d =>
    do f <- fit_cs (t_tau t) (t_sig t) (t_T t) l;
    do r <- fit_all l d;
    Ok ((k, t, f) :: fst r, kept (l_thresh l) f ++ snd r)
  end.
End FIT.

(** numpy.histogram2d with bins [n] and range [0, top]: edges, and the number of the edge below a value (counted
    from one; a value equal to the last edge belongs to the last bin). *)
Definition edge (n : Z) (top : R) (i : Z) : R := IZR i * top / IZR n.
Definition upto (n : Z) : list Z := map Z.of_nat (seq 0 (Z.to_nat n)).
Definition digit (n : Z) (top x : R) : Z :=
  let d := Z.of_nat (List.length (filter (fun i => if Rle_dec (edge n top i) x then true else false) (upto (n + 1)))) in
  if Req_EM_T x (edge n top n) then (d - 1)%Z else d.
Definition cell (nE nc : Z) (topE topc : R) (i j : Z) (v : list (R * R)) : nat :=
  List.length (filter (fun q => (Z.eqb (digit nE topE (fst q)) (i + 1)) && (Z.eqb (digit nc topc (snd q)) (j + 1)))%bool v).
Definition maximum (x : R) (l : list R) : R := fold_right Rmax x l.
(** 3141-3163: rows of density, energy and cross section. *)
Definition densities (nE nc : Z) (area : R) (v : list (R * R)) : list (R * R * R) :=
  match v with
  | [] => []
  | q :: v' =>
    let topE := Rmax 1 (maximum (fst q) (map fst v')) + 1 / 2 / IZR nE in
    let topc := Rmax (/ 10 ^ 14) (maximum (snd q) (map snd v')) + / 10 ^ 14 * (1 / 2) / IZR nc in
    flat_map (fun i => flat_map (fun j =>
      match cell nE nc topE topc i j v with
      | O => []
      | m => [(INR m / area, (edge nE topE (i + 1) + edge nE topE i) / 2, (edge nc topc (j + 1) + edge nc topc j) / 2)]
      end) (upto nc)) (upto nE)
  end.
