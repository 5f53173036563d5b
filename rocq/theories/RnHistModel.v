(** The read noise from a Gaussian: corgidrp/calibrate_kgain.py 154-226 gauss, sgaussfit, Single_peakfit, histc_roi and their use
    in calibrate_kgain, 458-459 and 519-524; np.histogram of an array with given edges.

    A pixel is a real number or None: NaN, or an infinite value, which like NaN is in no bin.  Floats are not rounded.  The reliable prescan is
    the list of its pixels (its geometry is in SliceModel).  scipy's curve_fit, [fit], is arbitrary: from the locations, the
    counts and the starting values it makes amplitude, mean and width, or it raises (as for fewer than three bins).  Not
    modelled: the second value of sgaussfit, which Single_peakfit does not use. *)
From Coq Require Import List Arith Bool Reals ZArith.
From Verif Require Import Base CombineModel FlatModel.
Import ListNotations.
Local Open Scope R_scope.

(** ** The edges, 458: np.array(range(rn_bins1, rn_bins2)); 459: all but the last *)
Definition rn_bins (a b : Z) : list Z := map (fun k => (a + Z.of_nat k)%Z) (seq 0 (Z.to_nat (b - a))).
Definition bin_locs (e : list Z) : list Z := removelast e.

(** ** np.histogram with edges: blocks of 65536 values are sorted, NaN last, and searched *)
Definition vle (a b : val) : bool :=
  match a, b with _, None => true | None, Some _ => false | Some x, Some y => if Rle_dec x y then true else false end.
Fixpoint insert (x : val) (l : list val) : list val :=
  match l with [] => [x] | y :: t => if vle x y then x :: l else y :: insert x t end.
Definition sort (l : list val) : list val := fold_right insert [] l.
Definition below_edge (e : Z) (v : val) : bool := match v with Some x => if Rlt_dec x (IZR e) then true else false | None => false end.
Definition upto_edge (e : Z) (v : val) : bool := match v with Some x => if Rle_dec x (IZR e) then true else false | None => false end.
(** searchsorted in a sorted array: the first place that does not hold; numpy finds it by bisection *)
Fixpoint place (q : val -> bool) (l : list val) : nat :=
  match l with [] => O | x :: t => if q x then S (place q t) else O end.
(** _search_sorted_inclusive: left of the edges, right of the last one *)
Fixpoint inclusive (edges : list Z) (l : list val) : list Z :=
  match edges with
  | [] => []
  | e :: t => match t with
              | [] => [Z.of_nat (place (upto_edge e) l)]
              | _ => Z.of_nat (place (below_edge e) l) :: inclusive t l
              end
  end.
Fixpoint plus (l m : list Z) : list Z := match l, m with x :: t, y :: u => (x + y)%Z :: plus t u | _, _ => [] end.
Fixpoint diff (l : list Z) : list Z :=
  match l with x :: t => match t with y :: _ => (y - x)%Z :: diff t | [] => [] end | [] => [] end.
Fixpoint blocks (fuel n : nat) (l : list val) : list (list val) :=
  match fuel, l with
  | O, _ | _, [] => []
  | S k, _ => firstn n l :: blocks k n (skipn n l)
  end.
Fixpoint falls (e : list Z) : bool :=
  match e with x :: t => match t with y :: _ => ((y <? x)%Z || falls t)%bool | [] => false end | [] => false end.
Definition block : nat := Z.to_nat 65536.
Definition histogram (l : list val) (edges : list Z) : result (list Z) :=
  if falls edges then Raise ValueError
  else Ok (diff (fold_left (fun c b => plus c (inclusive edges (sort b))) (blocks (List.length l) block l) (map (fun _ => 0%Z) edges))).

(** ** histc_roi, 208-226; the frame is given by the pixels of its prescan *)
Definition histc_roi (prescan : list val) (edges : list Z) : result (list Z) := histogram prescan edges.

(** ** gauss, 154-166 *)
Definition gauss (p : R * R * R) (x : R) : R :=
  let '(amp, mean, sigma) := p in amp * exp (- (1 / 2) * (x - mean) ^ 2 / sigma ^ 2).

(** ** Single_peakfit, 186-206: np.max of nothing raises; np.argmax is the first *)
Fixpoint best_from (v : Z) (i j : nat) (l : list Z) : Z * nat :=
  match l with [] => (v, i) | y :: t => if (v <? y)%Z then best_from y j (S j) t else best_from v i (S j) t end.
Section Fit.
Variable fit : list Z -> list Z -> R * R * R -> result (R * R * R).
Definition single_peakfit (xdata ydata : list Z) : result R :=
  match ydata with
  | [] => Raise ValueError
  | y :: t =>
    let '(astart, i) := best_from y 0 1 t in
    match nth_error xdata i with
    | None => Raise IndexError
    | Some mustart => do est <- fit xdata ydata (IZR astart, IZR mustart, 10); let '(_, _, sigma) := est in Ok sigma
    end
  end.
(** 519-524, before the division by the root of two *)
Definition rn_width (prescan : list val) (ab : Z * Z) : result R :=
  let e := rn_bins (fst ab) (snd ab) in
  do c <- histc_roi prescan e; single_peakfit (bin_locs e) c.
End Fit.
