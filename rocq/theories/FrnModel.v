(** Flux ratio noise curve: corgidrp/l4_to_tda.py compute_flux_ratio_noise 177-316.

    Values, arrays and measure_noise as in ThruModel.  Arbitrary are the star frames with the kernel density estimate
    and photutils' fit_2dgaussian on one, [gauss]: from the shape fitted and the start position (xypos) to the sources found with
    their x, y and flux; and the optical density of the ND filter at a point, [od].  scipy's interp1d sorts the
    abscissae (stable) and extends the outermost lines.  The tables have a fixed number of columns, requested_separations
    is not empty; the warnings and the header of the new extension are left out. *)
From Coq Require Import List Arith Bool Reals ZArith.
From Verif Require Import Base DqModel AngleModel NearModel CombineModel FindModel FlatModel ThruModel.
Import ListNotations.
Local Open Scope R_scope.

Definition vmul (a b : val) : val := match a, b with Some x, Some y => Some (x * y) | _, _ => None end.

(** ** interp1d(kind='linear', fill_value='extrapolate') *)
Fixpoint pinsert (p : R * val) (l : list (R * val)) : list (R * val) :=
  match l with [] => [p] | q :: t => if Rle_dec (fst p) (fst q) then p :: l else q :: pinsert p t end.
Definition psort (l : list (R * val)) : list (R * val) := fold_right pinsert [] l.
Definition line (a b : R * val) (x : R) : val :=
  match snd a, snd b with
  | Some p, Some q => if Req_EM_T (fst b - fst a) 0 then None else Some ((q - p) / (fst b - fst a) * (x - fst a) + p)
  | _, _ => None
  end.
(** np.searchsorted, clipped between 1 and the last index *)
Fixpoint segment (l : list (R * val)) (x : R) : val :=
  match l with
  | a :: ((b :: t) as r) => match t with [] => line a b x | _ => if Rle_dec x (fst b) then line a b x else segment r x end
  | _ => None
  end.
Definition interp (xs : list R) (ys : list val) (x : R) : val := segment (psort (combine xs ys)) x.

(** ** Frames: PLTSCALE, the table KL_THRU (separations; for each KL mode throughput and FWHM), the table CT_THRU, the star's place and the cube *)
Record frame : Type := mkframe { f_plate : option R; f_kl : option (list R * list (list (val * val))); f_ct : option (list R * list val);
                                 f_cen : option R * option R; f_cube : list img }.

(** 221-227: the smallest difference of consecutive separations *)
Fixpoint gaps (l : list R) : list R := match l with a :: ((b :: _) as r) => (b - a) :: gaps r | _ => [] end.
Definition rmin (l : list R) : result R := match l with [] => Raise ValueError | x :: t => Ok (fold_left Rmin t x) end.
Definition min_spacing (ct kl : list R) : result R := do a <- rmin (gaps ct); do b <- rmin (gaps kl); Ok (Rmin a b).

(** ** The star, 236-261 *)
Inductive num : Type := I (z : Z) | D (x : R).
Definition as_real (n : num) : R := match n with I z => IZR z | D x => x end.
(** np.where(data == data.max()): with a NaN there is none *)
Definition peak (f : img) : result (nat * nat) :=
  match all_some (map (fun q => pix f (fst q) (snd q)) (spots f)) with
  | None => Raise IndexError
  | Some [] => Raise ValueError
  | Some (x :: t) =>
    match filter (fun q => match pix f (fst q) (snd q) with Some v => reqb v (fold_left Rmax t x) | None => false end) (spots f) with
    | q :: _ => Ok q
    | [] => Raise IndexError
    end
  end.
Definition odd_size (n : nat) : nat := if Nat.even n then (n - 1)%nat else n.
(** Indexing: a float is refused, a negative integer counts from the end *)
Definition indexable (n : nat) (k : num) : bool := match k with I z => ((- Z.of_nat n <=? z) && (z <? Z.of_nat n))%Z | D _ => false end.

Section Run.
Variable S : Type.
Variable star : S -> img.
Variable gauss : S -> nat * nat -> R * R -> result (list (R * R * val)).
Variable od : R -> R -> val.

(** 236-243, and data[guess_row, guess_col] *)
Definition star_pos (s : S) (i : nat) (given : option (list num * list num)) : result (num * num) :=
  do pos <- match given with
            | None => do p <- peak (star s); Ok (I (Z.of_nat (fst p)), I (Z.of_nat (snd p)))
            | Some (a, b) => do r <- pick a i; do c <- pick b i; Ok (r, c)
            end;
  if (rltb (INR (rows (star s))) (as_real (fst pos)) || rltb (INR (cols (star s))) (as_real (snd pos)))%bool then Raise ValueError
  else if (indexable (odd_size (rows (star s))) (fst pos) && indexable (odd_size (cols (star s))) (snd pos))%bool then Ok pos
  else Raise IndexError.
(** 277-292 *)
Definition star_flux (s : S) (i : nat) (given : option (list num * list num)) : result val :=
  do pos <- star_pos s i given;
  do found <- gauss s (odd_size (rows (star s)), odd_size (cols (star s))) (as_real (fst pos), as_real (snd pos));
  do k <- argmin (map (fun q => sqrt ((fst (fst q) - as_real (snd pos)) ^ 2 + (snd (fst q) - as_real (fst pos)) ^ 2)) found);
  do q <- pick found k;
  Ok (vmul (od (fst (fst q)) (snd (fst q))) (snd q)).

(** 293-309.  Rows of the noise against rows of the table: one row is repeated *)
Definition broadcast {A B C} (f : A -> B -> C) (l : list A) (m : list B) : result (list C) :=
  if Nat.eqb (List.length l) (List.length m) then Ok (map (fun q => f (fst q) (snd q)) (combine l m))
  else match l, m with [a], _ => Ok (map (f a) m) | _, [b] => Ok (map (fun a => f a b) l) | _, _ => Raise ValueError end.
Definition frn_value (noise width flux tp ct : val) : val :=
  let Fp := match noise, width with Some a, Some w => Some (PI * a * w ^ 2 / (4 * ln 2)) | _, _ => None end in
  vdiv (vdiv Fp flux) (vmul tp ct).
(** One frame, with the separations and the half-width settled: the curve *)
Definition curve (plate : R) (kl : list R * list (list (val * val))) (ct : list R * list val) (noise : list (list val)) (flux : val) (req : list R) : result (list R * list R * list (list val)) :=
  do out <- broadcast (fun nz row => map (fun q => frn_value (snd q) (interp (fst kl) (map snd row) (fst q)) flux (interp (fst kl) (map fst row) (fst q)) (interp (fst ct) (snd ct) (fst q))) (combine req nz)) noise (snd kl);
  Ok (req, map (fun x => x * plate) req, out).
Definition one_frame (f : frame) (s : S) (i : nat) (given : option (list num * list num)) (req : option (list R)) (hw : option R)
    : result (list R * R * (list R * list R * list (list val))) :=
  do plate <- getkey (f_plate f); do kl <- getkey (f_kl f); do ct <- getkey (f_ct f);
  let r := match req with Some r => r | None => fst kl end in
  do gap <- min_spacing (fst ct) (fst kl);
  let h := match hw with Some h => h | None => gap / 2 end in
  if Rlt_dec 0 h then
    do m <- measure_noise (f_cen f) (f_cube f) r h [];
    let noise := map (fun k => map (fun row => match nth_error row k with Some v => v | None => None end) m) (seq 0 (List.length (f_cube f))) in
    do flux <- star_flux s i given;
    do c <- curve plate kl ct noise flux r;
    Ok (r, h, c)
  else Raise ValueError.
(** 207-315: the separations and the half-width of the first frame stay *)
Fixpoint frames_from (i : nat) (given : option (list num * list num)) (req : option (list R)) (hw : option R) (l : list (frame * S)) : result (list (list R * list R * list (list val))) :=
  match l with
  | [] => Ok []
  | (f, s) :: t => do q <- one_frame f s i given req hw; do rest <- frames_from (i + 1)%nat given (Some (fst (fst q))) (Some (snd (fst q))) t; Ok (snd q :: rest)
  end.
Definition compute_flux_ratio_noise (frames : list frame) (stars : list S) (given : option (list num * list num)) (req : option (list R)) (hw : option R) :=
  if negb (Nat.eqb (List.length frames) (List.length stars)) then Raise ValueError
  else frames_from 0 given req hw (combine frames stars).
End Run.
