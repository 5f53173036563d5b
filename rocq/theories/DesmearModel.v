(** desmear, corgidrp/l2a_to_l2b.py 388-425.  An image is its list of rows, all
    of the same length.  The header card DESMEAR and the history message are not
    modelled; errors and DQ are not touched. *)
From Coq Require Import List Arith Bool QArith ZArith.
From Verif Require Import Base FloatModel DqModel.
Import ListNotations.
Local Open Scope nat_scope.

Definition image := list (list fl).
Record dframe : Type := mkd { d_img : image; d_exptime : option Q }.

(** Pointwise operation on two arrays of the same shape. *)
Definition zipw {A B C} (f : A -> B -> C) (l : list A) (m : list B) : list C :=
  map (fun p => f (fst p) (snd p)) (combine l m).

(** 414-415: rowreadtime_sec/exptime_sec*((1 + rowreadtime_sec/exptime_sec)**((s+1)-(r+1)-1)) *)
Definition coef (a : Q) (r s : nat) : Q :=
  a * Qpower (1 + a) (Z.of_nat s + 1 - (Z.of_nat r + 1) - 1).

Definition width (im : image) : nat := match im with [] => 0 | row :: _ => List.length row end.

(** 412-415 *)
Definition columnsum (a : Q) (im : image) (r : nat) : list fl :=
  fold_left (fun acc s => zipw fadd acc (map (fmul (Fin (coef a r s))) (nth s im [])))
            (seq 0 (S r)) (repeat (Fin 0) (width im)).

(** 409-417 *)
Definition desmear_img (a : Q) (im : image) : image :=
  zipw (zipw fsub) im (map (columnsum a im) (seq 0 (List.length im))).

(** 407-417, one frame.  Python raises ZeroDivisionError (here PyException) when
    EXPTIME is 0 and when 0.0 is raised to a negative power, if there is a row. *)
Definition desmear_frame (rowread : Q) (f : dframe) : result dframe :=
  do t <- getkey (d_exptime f);
  match d_img f with
  | [] => Ok f
  | _ :: _ => if Qeq_bool t 0 || Qeq_bool (1 + rowread / t) 0 then Raise PyException
              else Ok (mkd (desmear_img (rowread / t) (d_img f)) (d_exptime f))
  end.

(** 388-425: ROWREADT may be missing in the detector parameters. *)
Definition desmear (rowreadt : option Q) (fs : list dframe) : result (list dframe) :=
  do rt <- getkey rowreadt; mapR (desmear_frame rt) fs.
