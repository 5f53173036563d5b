(** Distortion of images: corgidrp/l3_to_l4.py distortion_correction 20-90; corgidrp/astrom.py fit_distortion_solution
    574-668, compute_distortion 961-1001 and the coefficients without distortion of boresight_calibration 1141-1146.

    Floats are real numbers without rounding; None is NaN or an infinity, and any arithmetic with it gives None.  An
    image is a function of row and column, read inside its shape only (SpotModel).  numpy's legval2d is the sum of
    products of Legendre polynomials; integers of numpy are of 64 bits and wrap.  scipy's map_coordinates and leastsq
    are unknowns.  The frames of a dataset have their data, errors, flags and history; other headers are not touched. *)
From Coq Require Import List Arith Bool Reals ZArith String.
From Verif Require Import Base DqModel AngleModel SpotModel.
Import ListNotations.
Local Open Scope R_scope.

(** Legendre polynomials by the recursion numpy uses: those of degrees n and n + 1. *)
Fixpoint legs (n : nat) (x : R) : R * R :=
  match n with
  | O => (1, x)
  | S m => let '(a, b) := legs m x in (b, ((2 * INR m + 3) * x * b - (INR m + 1) * a) / (INR m + 2))
  end.
Definition leg (n : nat) (x : R) : R := fst (legs n x).
(** np.polynomial.legendre.legval2d(x, y, c) for a k by k array c *)
Definition legval2d (k : nat) (c : nat -> nat -> num) (x y : R) : num :=
  nsum_to k (fun i => nsum_to k (fun j => nmul (c i j) (Some (leg i x * leg j y)))).

(** 500**(total_orders), of numpy's 64-bit integers: l3_to_l4.py 60, astrom.py 600-601 *)
Definition wrap64 (z : Z) : Z := ((z + 2 ^ 63) mod 2 ^ 64 - 2 ^ 63)%Z.
Definition scale (k : nat) : Z := wrap64 (500 ^ Z.of_nat k).
(** params.reshape(k, k) / 500**(total_orders) *)
Definition coeffs (k : nat) (l : list num) : result (nat -> nat -> num) :=
  if Nat.eqb (List.length l) (k * k) then Ok (fun i j => ndiv (nth (i * k + j) l None) (Some (IZR (scale (i + j))))) else Raise ValueError.

(** int(...): towards zero; NaN is a ValueError (an infinity an OverflowError, not told apart here) *)
Definition trunc (r : R) : Z := if Rle_dec 0 r then Int_part r else (- Int_part (- r))%Z.

Record frame : Type := mkframe { f_data : image; f_err : nat -> nat -> num; f_dq : nat -> nat -> Z; f_hist : list string }.

Section Bend.
  Variable mapc : image -> num -> num -> num.

  (** 41-84: one image.  Of a negative order the shapes of reshape are refused, or (order -1) legval2d fails on the empty
      array.  Images that are not square: the n by n grid minus the map of the image is refused by numpy or, with a
      single row or column, gives an image that update_after_processing_step refuses. *)
  Definition bend (im : image) (cs : list num) (order : Z) : result image :=
    if (order <? -1)%Z then Raise ValueError else
    if (order =? -1)%Z then Raise IndexError else
    let k := Z.to_nat (order + 1) in
    do cx <- coeffs k (firstn (k * k) cs);
    do cy <- coeffs k (skipn (k * k) cs);
    if negb (Nat.eqb (ny im) (nx im)) then Raise ValueError else
    Ok (mkimage (ny im) (nx im) (fun i j =>
      let n := Nat.max (ny im) (nx im) in
      let y := INR i - INR (n / 2) in
      let x := INR j - INR (n / 2) in
      let dx := nsub (legval2d k cx x y) (Some x) in
      let dy := nsub (legval2d k cy x y) (Some y) in
      mapc im (nsub (Some (INR i)) dy) (nsub (Some (INR j)) dx))).
  (** 20-90 *)
  Definition distortion_correction (frames : list frame) (coefficients : list num) : result (list frame) :=
    match rev coefficients with
    | [] => Raise IndexError
    | None :: _ => Raise ValueError
    | Some o :: rest =>
      do ims <- mapR (fun f => bend (f_data f) (rev rest) (trunc o)) frames;
      Ok (map (fun fi => mkframe (snd fi) (f_err (fst fi)) (f_dq (fst fi)) (f_hist (fst fi) ++ ["Distortion correction completed"%string])) (combine frames ims))
    end.
End Bend.

(** astrom.py 1143-1145 and 988-992: the coefficients without distortion *)
Definition default_coeffs (o : nat) : list R :=
  let fp := ((o + 1) * (o + 1))%nat in
  repeat 0 (o + 1) ++ [500] ++ repeat 0 (fp - o - 2) ++ [0; 500] ++ repeat 0 (fp - 2).

(** A pair of stars: the position of the first, the measured offset of the second, separation and position angle on the
    sky, errors of the offset. *)
Record pair : Type := mkpair { p_x : R; p_y : R; p_dx : R; p_dy : R; p_sep : R; p_pa : R; p_ex : R; p_ey : R }.
(** np.arctan(sin / cos) *)
Definition arctan_of (s c : R) : R := if Req_EM_T c 0 then (if Rlt_dec s 0 then - (PI / 2) else PI / 2) else atan (s / c).
Definition nsqrt (a : num) : num := match a with Some x => if Rle_dec 0 x then Some (sqrt x) else None | None => None end.
(** 603-663: the residuals of one pair *)
Definition residual (k : nat) (cx cy : nat -> nat -> num) (ps rot : R) (p : pair) : num * num :=
  let x1 := p_x p - 511 in
  let y1 := p_y p - 511 in
  let x2 := x1 + p_dx p in
  let y2 := y1 + p_dy p in
  let ox := nsub (legval2d k cx x2 y2) (legval2d k cx x1 y1) in
  let oy := nsub (legval2d k cy x2 y2) (legval2d k cy x1 y1) in
  let true_sep := ndiv (Some (p_sep p)) (Some ps) in
  let true_pa := p_pa p - rot in
  let sep := nsqrt (nadd (nmul ox ox) (nmul oy oy)) in
  let pa := lift2 (fun ox oy => deg (arctan2 (- ox) oy)) ox oy in
  let res_sep := nsub sep true_sep in
  let res_pa := option_map (fun pa => arctan_of (sin (rad (pa - true_pa))) (cos (rad (pa - true_pa)))) pa in
  let sep_err := Some ((p_ex p + p_ey p) / 2) in
  let pa_err := ndiv sep_err true_sep in
  (ndiv res_sep sep_err, ndiv res_pa pa_err).
(** 574-668 *)
Definition fit_distortion_solution (params : list num) (o : nat) (ps rot : R) (pairs : list pair) : result (list num) :=
  let k := (o + 1)%nat in
  do cx <- coeffs k (firstn (k * k) params);
  do cy <- coeffs k (skipn (k * k) params);
  let res := map (residual k cx cy ps rot) pairs in
  Ok (map fst res ++ map snd res).
(** 961-1001 *)
Definition compute_distortion (leastsq : (list num -> result (list num)) -> list R -> result (list R)) (o : nat) (ps rot : R) (pairs : list pair) (guess : option (list R)) : result (list R * nat) :=
  let start := match guess with Some g => g | None => default_coeffs o end in
  do c <- leastsq (fun params => fit_distortion_solution params o ps rot pairs) start;
  Ok (c, o).
(** boresight_calibration 1138-1150: the end of the calibration data *)
Definition distortion_part (c : list R * nat) : list num := map Some (fst c) ++ [Some (INR (snd c))].
