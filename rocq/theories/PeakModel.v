(** The search of stars in an image: corgidrp/astrom.py find_source_locations 293-413.

    Floats are real numbers without rounding; None is NaN.  An image is a function of row and column, read inside its
    shape only (SpotModel).  pyklip's gaussfit2d is an unknown function of the frame and the guess.  Of the width of the
    mask only values above -1 are modelled: of others Python's negative slice bounds would have to be followed. *)
From Coq Require Import List Arith Bool Reals ZArith.
From Verif Require Import Base DqModel SpotModel BendModel.
Import ListNotations.
Local Open Scope R_scope.

(** A pixel: row, column. *)
Notation cell := (nat * nat)%type.
Definition cells (im : image) : list cell := list_prod (seq 0 (ny im)) (seq 0 (nx im)).
Definition same_cell (p q : cell) : bool := (Nat.eqb (fst p) (fst q) && Nat.eqb (snd p) (snd q))%bool.
(** np.nanmax *)
Definition nanmax (vs : list num) : num :=
  fold_left (fun m v => match m, v with None, _ => v | _, None => m | Some a, Some b => Some (Rmax a b) end) vs None.
Definition equals (a b : num) : bool := match a, b with Some x, Some y => if Req_EM_T x y then true else false | _, _ => false end.
(** 317-325: the first of the brightest pixels.  nanmax of no values is a ValueError; without an equal pixel ind[1][0] is
    an IndexError. *)
Definition brightest (im : image) : result cell :=
  match cells im with
  | [] => Raise ValueError
  | _ =>
    match find (fun p => equals (px im (fst p) (snd p)) (nanmax (map (fun p => px im (fst p) (snd p)) (cells im)))) (cells im) with
    | Some p => Ok p
    | None => Raise IndexError
    end
  end.

(** 335-381: the bounds of the mask in one direction: at the lower edge, at the upper edge, between.  The code writes the
    same three cases for rows inside each of those for columns. *)
Definition bounds (f : R) (n x : nat) : Z * Z :=
  if Rlt_dec (INR x - f) 0 then (0, Z.of_nat x + trunc f + 1)%Z else
  if Rlt_dec (INR n - 1) (INR x + f) then (Z.of_nat x - trunc f, Z.of_nat n)%Z else
  (Z.of_nat x - trunc f, Z.of_nat x + trunc f + 1)%Z.
Definition within (b : Z * Z) (i : nat) : bool := ((fst b <=? Z.of_nat i) && (Z.of_nat i <? snd b))%Z.
(** 383-385 *)
Definition erase (f : R) (im : image) (p : cell) : image :=
  mkimage (ny im) (nx im) (fun i j => if (within (bounds f (ny im) (fst p)) i && within (bounds f (nx im) (snd p)) j)%bool then Some 0 else px im i j).
(** 315-387: [i] sources have been found, [prev] is the last of them *)
Fixpoint hunt (f : R) (rest i : nat) (prev : option cell) (im : image) : result (list cell) :=
  match rest with
  | O => Ok []
  | S rest' =>
    do p <- brightest im;
    if (Nat.ltb 2 i && match prev with Some q => same_cell q p | None => false end)%bool then Ok [] else
    do l <- hunt f rest' (S i) (Some p) (erase f im p);
    Ok (p :: l)
  end.

(** 398-400: the frame with 25 pixels of zeros around it *)
Definition padded (im : image) : image :=
  mkimage (ny im + 50) (nx im + 50) (fun i j => if (Nat.leb 25 i && Nat.ltb i (ny im + 25) && Nat.leb 25 j && Nat.ltb j (nx im + 25))%bool then px im (i - 25) (j - 25) else Some 0).
(** 293-413: columns x and y.  The padded frame has rows and columns exchanged, so only square images fit into it. *)
Definition find_source_locations (gauss : image -> R -> R -> result (num * num)) (im : image) (threshold : Z) (fwhm mask_rad : R) : result (list (num * num)) :=
  if (threshold <? 0)%Z then Raise ValueError else
  do ps <- hunt (fwhm * mask_rad) (Z.to_nat threshold) 0 None im;
  if negb (Nat.eqb (ny im) (nx im)) then Raise ValueError else
  mapR (fun p => do r <- gauss (padded im) (INR (snd p) + 25) (INR (fst p) + 25); Ok (nsub (fst r) (Some 25), nsub (snd r) (Some 25))) ps.
