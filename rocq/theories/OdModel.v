(** The optical density of an ND filter at a new place: corgidrp/nd_filter_calibration.py
    load_transformation_matrix_from_fits 17-31, interpolate_od 68-95, calculate_od_at_new_location 355-402;
    corgidrp/data.py NDFilterSweetSpotDataset 2454-2465 and interpolate_od 2488-2502.

    Values are those of FlatModel: a real number or None (NaN).  scipy's interpolations are unknown functions of the
    places, of the values and of the place asked for, that may raise: [linear] (LinearNDInterpolator, which griddata uses
    for its method 'linear'), [nearest] and [cubic].  Places are asked for one at a time.  An HDU has no data, or a matrix
    of numbers given by its rows; a matrix has rows of one length.  The centroid is that of C57. *)
From Coq Require Import List Arith Bool Reals String.
From Verif Require Import Base DqModel CombineModel FlatModel CtModel.
Import ListNotations.
Local Open Scope R_scope.

Record clean : Type := mkclean { c_data : img; c_h : option R; c_v : option R }.
(** Rows are OD, x and y. *)
Record sweet : Type := mksweet { w_rows : list (list val); w_h : option R; w_v : option R }.
(** 17-31: None is np.array(None) *)
Definition load_matrix (hdus : list (option (list (list R)))) : result (option (list (list R))) :=
  match hdus with
  | Some m :: _ => Ok (Some m)
  | None :: d :: _ => Ok d
  | _ => Raise IndexError
  end.
(** m @ v for a matrix of rows and a vector of two *)
Fixpoint times (m : list (list R)) (h v : R) : result (list R) :=
  match m with
  | [] => Ok []
  | [a; b] :: m' => do r <- times m' h v; Ok (a * h + b * v :: r)
  | _ => Raise ValueError
  end.
Definition item (l : list R) (k : nat) : result R := match nth_error l k with Some x => Ok x | None => Raise IndexError end.
Definition card (o : option R) : R := match o with Some x => x | None => 0 end.
Definition points_of (rows : list (list val)) : list (val * val) := map (fun r => (nth 1 r None, nth 2 r None)) rows.
Definition ods_of (rows : list (list val)) : list val := map (fun r => nth 0 r None) rows.

Section Od.
  Variables linear nearest cubic : list (val * val) -> list val -> val -> val -> result val.

  (** scipy's griddata *)
  Definition griddata (pts : list (val * val)) (vals : list val) (x y : val) (method : string) : result val :=
    if String.eqb method "linear" then linear pts vals x y else
    if String.eqb method "nearest" then nearest pts vals x y else
    if String.eqb method "cubic" then cubic pts vals x y else Raise ValueError.
  (** 68-95 *)
  Definition interpolate_od (rows : list (list val)) (x y : val) (method : string) : result val := griddata (points_of rows) (ods_of rows) x y method.
  (** data.py 2454-2459 *)
  Definition make_sweet (rows : list (list val)) (h v : option R) : result sweet :=
    if forallb (fun r => Nat.eqb (List.length r) 3) rows then Ok (mksweet rows h v) else Raise ValueError.
  (** data.py 2488-2502 *)
  Definition sweet_od (w : sweet) (x y : val) (method : string) : result val := linear (points_of (w_rows w)) (ods_of (w_rows w)) x y.
  (** 355-402 *)
  Definition calculate_od (frame : option clean) (hdus : list (option (list (list R)))) (w : sweet) : result val :=
    do m <- load_matrix hdus;
    match frame with
    | None => Raise UnboundLocalError
    | Some c =>
      do p <- centroid_with_roi (c_data c) 5;
      do m <- match m with Some m => Ok m | None => Raise ValueError end;
      do e <- times m (card (c_h c) - card (w_h w)) (card (c_v c) - card (w_v w));
      do ex <- item e 0;
      do ey <- item e 1;
      interpolate_od (w_rows w) (vadd (fst p) (Some ex)) (vadd (snd p) (Some ey)) "linear"
    end.
End Od.
