(** Location of the star between satellite spots: corgidrp/star_center.py circle 182-257, find_optimum_1d 260-294,
    find_optimum_2d 297-386, _roi_mask_for_spots 389-483, _cost_func_spots 486-505,
    calc_star_location_and_spot_separation 508-620, calc_star_location_from_spots 623-763, calc_spot_separation
    766-903, star_center_from_satellite_spots 906-1036; corgidrp/l3_to_l4.py find_star 235-237.

    Floats are real numbers without rounding; None is NaN or an infinity, and any arithmetic with it gives None, any
    comparison with it is false.  An array of [ny] rows and [nx] columns is a function of the row and of the column,
    read inside its shape only.  np.polyfit of order 2 and np.linalg.lstsq are unknowns that may raise; so is
    scipy's minimize.  Numbers of steps, of iterations and of subpixels are natural numbers (negative ones are refused
    by numpy or by range as zero is).  The dictionary of tuning parameters has all its keys, except where noted. *)
From Coq Require Import List Arith Bool Reals ZArith.
From Verif Require Import Base DqModel.
Import ListNotations.
Local Open Scope R_scope.

Notation num := (option R).
Definition lift2 (f : R -> R -> R) (a b : num) : num := match a, b with Some x, Some y => Some (f x y) | _, _ => None end.
Definition nadd := lift2 Rplus.
Definition nsub := lift2 Rminus.
Definition nmul := lift2 Rmult.
Definition nopp (a : num) : num := option_map Ropp a.
Definition nabs (a : num) : num := option_map Rabs a.
Definition ndiv (a b : num) : num :=
  match a, b with Some x, Some y => if Req_EM_T y 0 then None else Some (x / y) | _, _ => None end.
Definition nlt (a b : num) : bool :=
  match a, b with Some x, Some y => if Rlt_dec x y then true else false | _, _ => false end.
Definition rle (x y : R) : bool := if Rle_dec x y then true else false.
Definition rlt (x y : R) : bool := if Rlt_dec x y then true else false.

Record image : Type := mkimage { ny : nat; nx : nat; px : nat -> nat -> num }.

Fixpoint sum_to (n : nat) (f : nat -> R) : R := match n with O => 0 | S k => sum_to k f + f k end.
Fixpoint nsum_to (n : nat) (f : nat -> num) : num := match n with O => Some 0 | S k => nadd (nsum_to k f) (f k) end.

(** np.linspace(a, b, n)[i] *)
Definition linspace (a b : R) (n i : nat) : R := a + INR i * ((b - a) / (INR n - 1)).

(** 213-221 *)
Definition coord (n : nat) (shear : R) (i : nat) : R :=
  (if Nat.even n then linspace (- INR n / 2) (INR n / 2 - 1) n i
   else linspace (- (INR n - 1) / 2) ((INR n - 1) / 2) n i) - shear.
(** 235-239; with one subpixel linspace has one point, the start. *)
Definition sub_coord (n k : nat) : R :=
  (if Nat.eqb n 1 then - (INR n - 1) / 2 else linspace (- (INR n - 1) / 2) ((INR n - 1) / 2) n k) * (1 / INR n).
(** 247-255 *)
Definition gray (n : nat) (r xc yc : R) : R :=
  sum_to n (fun l => sum_to n (fun k => if rle (sqrt ((sub_coord n k + xc) ^ 2 + (sub_coord n l + yc) ^ 2)) r then 1 else 0)) / (INR n * INR n).
(** 182-257: x[1] of a narrower array is an IndexError, 1.0 / float(0) a ZeroDivisionError (of which there is no kind
    here: PyException).  With a centre that is NaN no comparison holds, every pixel is gray and no subpixel inside. *)
Definition circle (nx ny : nat) (r : R) (xs ys : num) (n : nat) : result (nat -> nat -> R) :=
  if Nat.ltb nx 2 then Raise IndexError else
  if Nat.eqb n 0 then Raise PyException else
  Ok (fun i j =>
    match xs, ys with
    | Some xs, Some ys =>
      let x := coord nx xs j in let y := coord ny ys i in
      let rho := sqrt (x * x + y * y) in
      let half := sqrt 2 * (coord nx xs 1 - coord nx xs 0) in
      if rlt (r + half) (Rabs rho) then 0 else
      if rlt (Rabs rho) (r - half) then 1 else gray n r x y
    | _, _ => 0
    end).

Definition radians (d : R) : R := d * (PI / 180).

(** 441-475, 720-754, 858-891: the sum of the circles at the spots. *)
Fixpoint roi_mask (ny nx : nat) (rots : list R) (sep xo yo : num) (r : R) (n : nat) (acc : nat -> nat -> R) : result (nat -> nat -> R) :=
  match rots with
  | [] => Ok acc
  | deg :: rest =>
    let rot := radians deg in
    let yp := nadd (nmul (Some (sin rot)) sep) yo in
    let xp := nadd (nmul (Some (cos rot)) sep) xo in
    let ym := nadd (nmul (Some (sin (rot + PI))) sep) yo in
    let xm := nadd (nmul (Some (cos (rot + PI))) sep) xo in
    do p <- circle nx ny r xp yp n;
    do m <- circle nx ny r xm ym n;
    roi_mask ny nx rest sep xo yo r n (fun i j => acc i j + p i j + m i j)
  end.
(** np.sum(roi_mask * spotArray) *)
Definition flux (img : image) (mask : nat -> nat -> R) : num :=
  nsum_to (ny img) (fun i => nsum_to (nx img) (fun j => nmul (Some (mask i j)) (px img i j))).
Definition masked_flux (img : image) (rots : list R) (sep xo yo : num) (r : R) (n : nat) : result num :=
  do m <- roi_mask (ny img) (nx img) rots sep xo yo r n (fun _ _ => 0);
  Ok (flux img m).

(** 389-483 and 486-505 *)
Record fixed : Type := mkfixed { fx_img : image; fx_rots : list R; fx_r : R; fx_n : nat }.
Definition roi_mask_for_spots (optim : list num) (f : fixed) : result (num * (nat -> nat -> R)) :=
  match optim with
  | [x; y; sep] =>
    do m <- roi_mask (ny (fx_img f)) (nx (fx_img f)) (fx_rots f) sep x y (fx_r f) (fx_n f) (fun _ _ => 0);
    Ok (nopp (flux (fx_img f) m), m)
  | _ => Raise ValueError
  end.
Definition cost_func_spots (optim : list num) (f : fixed) : result num :=
  do r <- roi_mask_for_spots optim f; Ok (fst r).

(** np.max: NaN if there is one *)
Definition nmax2 (a b : num) : num := lift2 Rmax a b.
Definition nmax (l : list num) : result num :=
  match l with [] => Raise ValueError | x :: t => Ok (fold_left nmax2 t x) end.
(** np.argmax: the first NaN if there is one, else the first largest *)
Definition beats (a best : num) : bool :=
  match best, a with None, _ => false | Some _, None => true | Some b, Some x => rlt b x end.
Fixpoint argmax_from (best : num) (ibest i : nat) (l : list num) : nat :=
  match l with
  | [] => ibest
  | x :: t => if beats x best then argmax_from x i (S i) t else argmax_from best ibest (S i) t
  end.
Definition argmax (l : list num) : result nat :=
  match l with [] => Raise ValueError | x :: t => Ok (argmax_from x 0 1 t) end.

(** np.finfo(float).eps and .resolution *)
Definition eps : R := / 2 ^ 52.
Definition resolution : R := / 10 ^ 15.

Record tuning : Type := mktuning { t_sep : R; t_r : R; t_rots : list R; t_sub : nat; t_steps : nat; t_step : R; t_iter : nat }.

Section Spot.
  (** np.polyfit(x, y, 2) and np.linalg.lstsq(A, y)[0] *)
  Variable polyfit : list num -> list num -> result (num * num * num).
  Variable lstsq : list (list num) -> list num -> result (list num).

  (** 260-294 *)
  Definition find_optimum_1d (xs ys : list num) : result num :=
    if negb (Nat.eqb (length xs) (length ys)) then Raise ValueError else
    do m <- nmax ys;
    do p <- polyfit xs (map (fun y => ndiv y m) ys);
    let '(p0, p1, _) := p in
    if nlt (nabs p0) (Some eps) then Raise ValueError
    else Ok (ndiv (nopp p1) (nmul (Some 2) p0)).

  Definition shape {A} (a : list (list A)) : nat * nat := (length a, length (hd [] a)).
  (** the basis functions of 353-358 *)
  Definition basis (x y : num) : list num := [nmul x x; nmul x y; nmul y y; x; y; Some 1].
  (** the rows of A and the values where the mask is not zero, 361-372 *)
  Fixpoint picked {A} (a : list A) (mask : list Z) : list A :=
    match a, mask with
    | v :: a', k :: mask' => if Z.eqb k 0 then picked a' mask' else v :: picked a' mask'
    | _, _ => []
    end.
  (** 297-386; the mask holds integers.  reshape((nPix, 1)) is refused unless nPix is their number, or -1. *)
  Definition find_optimum_2d (xs ys : list num) (a : list (list num)) (mask : list (list Z)) : result (num * num) :=
    if negb (Nat.eqb (fst (shape a)) (fst (shape mask)) && Nat.eqb (snd (shape a)) (snd (shape mask))) then Raise ValueError else
    if negb (Nat.eqb (fst (shape a)) (length ys)) then Raise ValueError else
    if negb (Nat.eqb (snd (shape a)) (length xs)) then Raise ValueError else
    do m <- nmax (List.concat a);
    let npix := fold_left Z.add (List.concat mask) 0%Z in
    let rows := picked (flat_map (fun y => map (fun x => basis x y) xs) ys) (List.concat mask) in
    if negb (Z.eqb npix (Z.of_nat (length rows)) || Z.eqb npix (-1)) then Raise ValueError else
    do coeffs <- lstsq rows (picked (map (fun v => ndiv v m) (List.concat a)) (List.concat mask));
    match coeffs with
    | a :: b :: c :: d :: e :: _ =>
      let xden := nsub (nmul b b) (nmul (nmul (Some 4) a) c) in
      let yden := nmul (Some 2) c in
      if nlt (nabs xden) (Some (4 * resolution)) || nlt (nabs yden) (Some (2 * resolution)) then Raise ValueError else
      let xbest := ndiv (nsub (nmul (nmul (Some 2) c) d) (nmul e b)) xden in
      let ybest := ndiv (nopp (nadd (nmul b xbest) e)) yden in
      Ok (xbest, ybest)
    | _ => Raise ValueError
    end.

  (** 707-712, 850-852 *)
  Definition offsets (steps : nat) (step : R) (est : num) : list num :=
    map (fun k => nadd (Some (INR k * step - (INR steps - 1) / 2 * step)) est) (seq 0 steps).

  (** 713-760: one iteration *)
  Definition star_step (img : image) (xg yg : R) (t : tuning) (est : num * num) : result (num * num) :=
    let xv := offsets (t_steps t) (t_step t) (fst est) in
    let yv := offsets (t_steps t) (t_step t) (snd est) in
    do costs <- mapR (fun y => mapR (fun x => masked_flux img (t_rots t) (Some (t_sep t)) (nadd (Some xg) x) (nadd (Some yg) y) (t_r t) (t_sub t)) xv) yv;
    find_optimum_2d xv yv costs (map (map (fun _ => 1%Z)) costs).
  Fixpoint star_loop (img : image) (xg yg : R) (t : tuning) (k : nat) (est : num * num) : result (num * num) :=
    match k with
    | O => Ok est
    | S k' => do est' <- star_step img xg yg t est; star_loop img xg yg t k' est'
    end.
  (** 623-763 *)
  Definition calc_star_location (img : image) (xg yg : R) (t : tuning) : result (num * num) :=
    do est <- star_loop img xg yg t (t_iter t) (Some 0, Some 0);
    Ok (nadd (fst est) (Some xg), nadd (snd est) (Some yg)).

  (** 849-901: one iteration *)
  Definition sep_step (img : image) (xo yo : num) (t : tuning) (first : bool) (est : num) : result num :=
    let sv := offsets (t_steps t) (t_step t) est in
    do costs <- mapR (fun s => masked_flux img (t_rots t) s xo yo (t_r t) (t_sub t)) sv;
    if first && Nat.ltb 1 (t_iter t) then do i <- argmax costs; Ok (nth i sv None)
    else find_optimum_1d sv costs.
  Fixpoint sep_loop (img : image) (xo yo : num) (t : tuning) (k : nat) (first : bool) (est : num) : result num :=
    match k with
    | O => Ok est
    | S k' => do est' <- sep_step img xo yo t first est; sep_loop img xo yo t k' false est'
    end.
  (** 766-903 *)
  Definition calc_spot_separation (img : image) (xo yo : num) (t : tuning) : result num :=
    sep_loop img xo yo t (t_iter t) true (Some (t_sep t)).

  (** img_sat_spot - img_ref *)
  Definition difference (sat ref : image) : image := mkimage (ny sat) (nx sat) (fun i j => nsub (px sat i j) (px ref i j)).
  (** 1010-1025: relative to the centre of the image *)
  Definition spots (rots : list R) (theta : R) (sep xo yo : num) : list (num * num) :=
    flat_map (fun deg =>
      let th := (deg + theta) * PI / 180 in
      [(nadd (nmul sep (Some (cos th))) xo, nadd (nmul sep (Some (sin th))) yo);
       (nadd (nmul sep (Some (cos (th + PI)))) xo, nadd (nmul sep (Some (sin (th + PI)))) yo)]) rots.
  (** 906-1036: the star, and the spots *)
  Definition star_center (ref sat : image) (guess : R * R) (theta : R) (off sp : tuning) : result ((num * num) * list (num * num)) :=
    if negb (Nat.eqb (ny sat) (ny ref) && Nat.eqb (nx sat) (nx ref)) then Raise TypeError else
    let cx := INR (nx sat / 2) in
    let cy := INR (ny sat / 2) in
    let img := difference sat ref in
    do est <- calc_star_location img (fst guess - cx) (snd guess - cy) off;
    do sep <- calc_spot_separation img (fst est) (snd est) sp;
    Ok ((nadd (fst est) (Some cx), nadd (snd est) (Some cy)), spots (t_rots sp) theta sep (fst est) (snd est)).
  (** l3_to_l4.find_star 235-237 *)
  Definition guess_or_centre (guess : option (R * R)) (sat : image) : R * R :=
    match guess with Some g => g | None => (INR (nx sat / 2), INR (ny sat / 2)) end.

  (** 508-620: the tolerances and the method may be missing from the dictionary.  scipy's minimize is given the cost,
      the starting point and the bounds; it fails or returns a point. *)
  Section Joint.
    Context {M : Type}.
    Variable minimize : (list num -> result num) -> list R -> list (R * R) -> M -> result (option (list R)).
    Definition joint (img : image) (xg yg : R) (t : tuning) (offset_tol sep_tol : option R) (method : option M) : result ((R * R * R) * (nat -> nat -> R)) :=
      do ot <- getkey offset_tol;
      do st <- getkey sep_tol;
      do me <- getkey method;
      let f := mkfixed img (t_rots t) (t_r t) (t_sub t) in
      do r <- minimize (fun p => cost_func_spots p f) [xg; yg; t_sep t] [(xg - ot, xg + ot); (yg - ot, yg + ot); (t_sep t - st, t_sep t + st)] me;
      match r with
      | None => Raise ValueError
      | Some p =>
        match p with
        | a :: b :: c :: _ => do m <- roi_mask_for_spots (map Some p) f; Ok ((a, b, c), snd m)
        | _ => Raise IndexError
        end
      end.
  End Joint.
End Spot.
