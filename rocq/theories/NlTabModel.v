(** The table of nonlinearity: corgidrp/calibrate_nonlin.py check_nonlin_params 46-116 and calibrate_nonlin 235, 325-353, 368-376,
    380-397, 444-471, 553-576, 693-733, 761-838.

    Unknown functions, that may raise: numpy's histogram [hist] (its bins as pairs of left edge and count), the straight line of
    polyfit [fit] (slope and intercept), the smoothing [lowess] of the gains against the signals (the second column of what it
    returns, that is ordered by signal) and interp1d with extrapolation [interp].  The checks of stacks and exposure times
    before (265-322) are C50, the drift correction that gives the corrected signals of a gain in the order of their exposure
    times is C40.  Values are real numbers or None: NaN, or infinite after a division by 0.  Settings are integers or floats
    (of Python), infinities left out, or something else; regions have no negative numbers.  CalNonlinException is PyException.
    Plots, print-outs and warnings are left out. *)
From Coq Require Import List Arith Bool Reals ZArith String.
From Verif Require Import Base DqModel CombineModel FindModel FlatModel CtModel CropModel.
Import ListNotations.
Local Open Scope R_scope.

Inductive num : Type := NInt (z : Z) | NFloat (x : val) | NOther.
Definition worth (n : num) : val := match n with NInt z => Some (IZR z) | NFloat x => x | NOther => None end.
Definition is_num (n : num) : bool := match n with NOther => false | _ => true end.

(** ** 52-116 *)
Definition param_names : list string :=
  ["rowroi1"; "rowroi2"; "colroi1"; "colroi2"; "rowback11"; "rowback12"; "rowback21"; "rowback22"; "colback11"; "colback12"; "colback21"; "colback22";
   "min_exp_time"; "num_bins"; "min_bin"; "min_mask_factor"]%string.
Definition check_nonlin_params (d : string -> option num) : result unit :=
  if negb (forallb (fun k => match d k with Some _ => true | None => false end) param_names) then Raise ValueError else
  if negb (forallb (fun k => match d k with Some v => is_num v | None => false end) param_names) then Raise TypeError else Ok tt.

(** ** 325-353 *)
Record nopts : Type := mknopts { n_norm : num; n_min : num; n_max : num; n_frac : num; n_low : num; n_upp : num; n_up1 : num; n_up2 : num; n_lo1 : num; n_lo2 : num }.
(** a < b and a <= b of Python: false with a NaN *)
Definition under (a b : val) : bool := match a, b with Some x, Some y => if Rlt_dec x y then true else false | _, _ => false end.
Definition upto (a b : val) : bool := match a, b with Some x, Some y => if Rle_dec x y then true else false | _, _ => false end.
(** check.py real_positive_scalar 50-72, real_nonnegative_scalar 225-247 *)
Definition positive (n : num) : result unit := if negb (is_num n) then Raise TypeError else if upto (worth n) (Some 0) then Raise TypeError else Ok tt.
Definition nonnegative (n : num) : result unit := if negb (is_num n) then Raise TypeError else if under (worth n) (Some 0) then Raise TypeError else Ok tt.
(** check.py positive_scalar_integer 250-272 *)
Definition positive_int (n : num) : result Z := match n with NInt z => if (z <=? 0)%Z then Raise TypeError else Ok z | _ => Raise TypeError end.
Definition checks (o : nopts) : result Z :=
  do z <- positive_int (n_norm o);
  if negb (z mod 20 =? 0)%Z then Raise PyException else
  do _ <- positive (n_min o);
  do _ <- positive (n_max o);
  if upto (worth (n_max o)) (worth (n_min o)) then Raise PyException else
  if under (Some (IZR z)) (worth (n_min o)) || under (worth (n_max o)) (Some (IZR z)) then Raise PyException else
  do _ <- nonnegative (n_low o);
  do _ <- nonnegative (n_upp o);
  if upto (worth (n_upp o)) (worth (n_low o)) then Raise PyException else
  if negb (forallb is_num [n_frac o; n_low o; n_upp o; n_up1 o; n_up2 o; n_lo1 o; n_lo2 o]) then Raise TypeError else Ok z.

(** ** Regions 368-376: range of two settings *)
Definition span (a b : num) : result (nat * nat) := match a, b with NInt x, NInt y => Ok (Z.to_nat x, Z.to_nat y) | _, _ => Raise TypeError end.
(** ** The mean frame 380-397 *)
Definition vmean (l : list val) : val := vdiv (vsum l) (Some (INR (List.length l))).
Definition mean_frame (l : list img) : result img :=
  match l with [] => Raise IndexError | f :: _ => Ok (mkimg (rows f) (cols f) (fun i j => vmean (map (fun g => pix g i j) l))) end.
Definition cells (r c : nat * nat) : list (nat * nat) := list_prod (seq (fst r) (snd r - fst r)) (seq (fst c) (snd c - fst c)).
(** 448: an empty list of rows or columns is an array of floats, that is no index *)
Definition roi_values (f : img) (r c : nat * nat) : result (list val) :=
  if (snd r <=? fst r)%nat || (snd c <=? fst c)%nat || (rows f <? snd r)%nat || (cols f <? snd c)%nat then Raise IndexError
  else Ok (map (fun p => pix f (fst p) (snd p)) (cells r c)).
(** 455, 464: the first of the largest and the first of the smallest counts *)
Fixpoint top (b : R * nat) (l : list (R * nat)) : R * nat := match l with [] => b | x :: t => if (snd b <? snd x)%nat then top x t else top b t end.
Fixpoint low (b : R * nat) (l : list (R * nat)) : R * nat := match l with [] => b | x :: t => if (snd x <? snd b)%nat then low x t else low b t end.
(** 450-468 *)
Definition threshold (bins : list (R * nat)) (min_bin factor : val) : result val :=
  match filter (fun b => upto min_bin (Some (fst b))) bins with
  | [] => Raise ValueError
  | b :: t =>
    let m := fst (top b t) in
    match filter (fun b => upto min_bin (Some (fst b)) && upto (Some (fst b)) (Some m)) bins with
    | [] => Raise ValueError
    | b :: t => Ok (vmul factor (Some (fst (low b t))))
    end
  end.
(** 471 *)
Definition lit (f : img) (t : val) (i j : nat) : bool := negb (under (pix f i j) t).
(** 558-570: the mean of a slice, cut at the edge of the frame; the first and last of an empty range are no rows *)
Definition patch (f : img) (r c : nat * nat) : result val :=
  if (snd r <=? fst r)%nat || (snd c <=? fst c)%nat then Raise IndexError
  else Ok (vmean (map (fun p => pix f (fst p) (snd p)) (cells (fst r, Nat.min (snd r) (rows f)) (fst c, Nat.min (snd c) (cols f))))).
(** 563-576 *)
Definition positives (l : list val) : list val := filter (fun v => under (Some 0) v) l.
Definition signal (lit : nat -> nat -> bool) (r1 c1 r2 c2 : nat * nat) (f : img) : result val :=
  do b1 <- patch f r1 c1;
  do b2 <- patch f r2 c2;
  let back := vdiv (vadd b1 b2) (Some 2) in
  let vs := map (fun p => vmul (vsub (pix f (fst p) (snd p)) back) (Some (if lit (fst p) (snd p) then 1 else 0))) (spots f) in
  match positives vs with [] => Ok None | l => Ok (vmean l) end.

(** 235, 368-376: the regions, rows and columns.  A setting is there once the names are checked. *)
Definition setting (d : string -> option num) (k : string) : num := match d k with Some v => v | None => NOther end.
Record regs : Type := mkregs { g_row : nat * nat; g_col : nat * nat; g_row1 : nat * nat; g_row2 : nat * nat; g_col1 : nat * nat; g_col2 : nat * nat }.
Definition regions (d : string -> option num) : result regs :=
  do r <- span (setting d "rowroi1") (setting d "rowroi2");
  do c <- span (setting d "colroi1") (setting d "colroi2");
  do r1 <- span (setting d "rowback11") (setting d "rowback12");
  do r2 <- span (setting d "rowback21") (setting d "rowback22");
  do c1 <- span (setting d "colback11") (setting d "colback12");
  do c2 <- span (setting d "colback21") (setting d "colback22");
  Ok (mkregs r c r1 r2 c1 c2).

Section Nonlin.
  Variable hist : list val -> num -> result (list (R * nat)).
  Variable fit : list R -> list val -> result (val * val).
  Variable lowess : num -> list val -> list val -> result (list val).
  Variable interp : list val -> list val -> result (R -> val).
  Variable drift : list (R * R * val) -> result (list R * list val).

  (** 380-471: the mask *)
  Definition mask_of (d : string -> option num) (g : regs) (l : list img) : result (nat -> nat -> bool) :=
    do f <- mean_frame l;
    do vs <- roi_values f (g_row g) (g_col g);
    do bins <- hist vs (setting d "num_bins");
    do t <- threshold bins (worth (setting d "min_bin")) (worth (setting d "min_mask_factor"));
    Ok (lit f t).

  (** 695, 709: np.polyval *)
  Definition line (p : val * val) (t : R) : val := vadd (vmul (fst p) (Some t)) (snd p).
  (** 696 *)
  Definition rel_err (y y0 : val) : val := option_map Rabs (vdiv (vsub y y0) y).
  (** 697 *)
  Definition rms (l : list val) : val := option_map sqrt (vmean (map (fun v => vmul v v) l)).
  (** 702-707 *)
  Definition cut_of (a b : num) {X} (l : list X) : result (list X) := match a, b with NInt x, NInt y => Ok (slice x y l) | _, _ => Raise TypeError end.
  Definition second_fit (o : nopts) (e : val) (ts : list R) (ys : list val) : result (val * val) :=
    if under e (worth (n_low o)) then fit ts ys
    else if upto (worth (n_low o)) e && under e (worth (n_upp o)) then
      do t <- cut_of (n_lo1 o) (n_up1 o) ts; do y <- cut_of (n_lo1 o) (n_up1 o) ys; fit t y
    else do t <- cut_of (n_lo2 o) (n_up2 o) ts; do y <- cut_of (n_lo2 o) (n_up2 o) ys; fit t y.
  Fixpoint map2 {A B C} (f : A -> B -> C) (l : list A) (m : list B) : list C := match l, m with a :: l, b :: m => f a b :: map2 f l m | _, _ => [] end.
  (** 762 *)
  Definition grid : list Z := map (fun k => (20 * (Z.of_nat k + 1))%Z) (seq 0 (Z.to_nat 700)).
  (** 693-807 for the exposure times and corrected signals of a gain; polyfit wants as many of the ones as of the others *)
  Definition column (o : nopts) (z : Z) (ts : list R) (ys : list val) : result (R -> val) :=
    if negb (Nat.eqb (List.length ts) (List.length ys)) then Raise TypeError else
    do p0 <- fit ts ys;
    let e := rms (map2 rel_err ys (map (line p0) ts)) in
    do p1 <- second_fit o e ts ys;
    let gain := map2 vdiv ys (map (line p1) ts) in
    do sm <- lowess (n_frac o) gain ys;
    match ys with
    | [] => Raise ValueError
    | _ =>
      do f <- interp ys sm;
      if existsb (Z.eqb z) grid then Ok (fun c => vdiv (Some 1) (vdiv (f c) (f (IZR z)))) else Raise IndexError
    end.
  (** 553-807 for a gain: frames with exposure time and time *)
  Definition gain_column (o : nopts) (z : Z) (m : nat -> nat -> bool) (g : regs) (fs : list (R * R * img)) : result (R -> val) :=
    do sg <- mapR (fun f => do v <- signal m (g_row1 g) (g_col1 g) (g_row2 g) (g_col2 g) (snd f); Ok (fst f, v)) fs;
    do p <- drift sg;
    column o z (fst p) (snd p).
  (** The whole; sets have a gain each (317), and there is one (269) *)
  Definition calibrate_nonlin (d : string -> option num) (o : nopts) (means : list img) (sets : list (R * list (R * R * img))) : result (list (list val)) :=
    do _ <- check_nonlin_params d;
    match sets with
    | [] => Raise PyException
    | _ =>
      do z <- checks o;
      do g <- regions d;
      do m <- mask_of d g means;
      do cs <- mapR (fun s => gain_column o z m g (snd s)) sets;
      let kept := filter (fun c => upto (worth (n_min o)) (Some (IZR c)) && upto (Some (IZR c)) (worth (n_max o))) grid in
      Ok ((None :: map (fun s => Some (fst s)) sets) :: map (fun c => Some (IZR c) :: map (fun f => f (IZR c)) cs) kept)
    end.
End Nonlin.
