(** Relative gains: detector.py get_relgains 16-79. *)
From Coq Require Import List Arith Bool QArith.
From Verif Require Import Base FloatModel.
Import ListNotations.
Local Open Scope nat_scope.

(** The calibration table: gains (column headers), counts (row headers) and one
    row of relative gains per count; all values finite. *)
Record relcal : Type := mkrel { rc_gains : list Q; rc_counts : list Q; rc_table : list (list Q) }.

(** np.any(np.diff(ax) <= 0) *)
Fixpoint not_increasing (l : list Q) : bool :=
  match l with
  | x :: ((y :: _) as t) => Qle_bool y x || not_increasing t
  | _ => false
  end.

(** scipy interp1d(kind='linear') and the linear spline share this formula:
    searchsorted (left), clip the index to 1 .. n-1, line through the two
    neighbours; outside the axis the edge value.  None if the axis has fewer
    than two points or the values run out. *)
Definition searchsorted (xs : list Q) (x : Q) : nat := List.length (filter (fun a => negb (Qle_bool x a)) xs).
Definition clip (lo hi n : nat) : nat := min hi (max lo n).

Definition line (x0 y0 x1 y1 x : Q) : Q := ((y1 - y0) / (x1 - x0) * (x - x0) + y0)%Q.

Definition interp (xs ys : list Q) (x : Q) : option Q :=
  let n := List.length xs in
  if n <? 2 then None else
  let hi := clip 1 (n - 1) (searchsorted xs x) in
  match nth_error xs (hi - 1), nth_error ys (hi - 1), nth_error xs hi, nth_error ys hi,
        nth_error xs 0, nth_error ys 0, nth_error xs (n - 1), nth_error ys (n - 1) with
  | Some xlo, Some ylo, Some xhi, Some yhi, Some xf, Some yf, Some xl, Some yl =>
    Some (if negb (Qle_bool xf x) then yf else if negb (Qle_bool x xl) then yl else line xlo ylo xhi yhi x)
  | _, _, _, _, _, _, _, _ => None
  end.

(** Column [j] of the table. *)
Definition column (t : list (list Q)) (j : nat) : list (option Q) := map (fun r => nth_error r j) t.
Definition all_above1 (l : list (option Q)) : bool := forallb (fun o => match o with Some y => negb (Qle_bool y 1) | None => false end) l.
Definition all_below1 (l : list (option Q)) : bool := forallb (fun o => match o with Some y => negb (Qle_bool 1 y) | None => false end) l.

Fixpoint mapM {A B} (f : A -> option B) (l : list A) : option (list B) :=
  match l with
  | [] => Some []
  | x :: t => match f x, mapM f t with Some y, Some r => Some (y :: r) | _, _ => None end
  end.

(** ff at a pixel value: +-inf are out of bounds, NaN gives NaN. *)
Definition interp_fl (xs ys : list Q) (x : fl) : option fl :=
  match x with
  | NaN => Some NaN
  | Inf true => option_map Fin (nth_error ys 0)
  | Inf false => option_map Fin (nth_error ys (List.length xs - 1))
  | Fin q => option_map Fin (interp xs ys q)
  end.

(** get_relgains 38-79 for a frame of pixels; a table with fewer than two gains
    or counts makes the spline construction fail (its own exception class,
    PyException here).  np.min over a table without rows is a ValueError. *)
Definition get_relgains (cal : option relcal) (g : Q) (frame : list fl) : result (list fl) :=
  match cal with
  | None => Ok (map (fun _ => Fin 1) frame)
  | Some c =>
    if not_increasing (rc_gains c) then Raise ValueError
    else if not_increasing (rc_counts c) then Raise ValueError
    else if Nat.eqb (List.length (rc_counts c)) 0 then Raise ValueError
    else if existsb (fun j => all_above1 (column (rc_table c) j) || all_below1 (column (rc_table c) j)) (seq 0 (List.length (rc_gains c)))
    then Raise ValueError
    else if (List.length (rc_gains c) <? 2) || (List.length (rc_counts c) <? 2) then Raise PyException
    else match mapM (fun row => interp (rc_gains c) row g) (rc_table c) with
         | None => Raise PyException
         | Some curve =>
           match mapM (interp_fl (rc_counts c) curve) frame with
           | None => Raise PyException
           | Some l => Ok l
           end
         end
  end.
