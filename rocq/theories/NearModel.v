(** Nearest-neighbour lookups: corgidrp/corethroughput.py get_1d_ct 416-454,
    klip_fm.py get_closest_psf 12-44, data.py CoreThroughputCalibration.GetPSF
    1845-1986, measure_companions.py 436-445 (throughput of a KL mode).

    Floats are real numbers (no NaN, no rounding).  The positions of the table
    (ct_excam) are a list of points; the PSFs are of any type. *)
From Coq Require Import List Arith Bool Reals ZArith String.
From Verif Require Import Base DqModel AngleModel.
Import ListNotations.
Local Open Scope R_scope.

(** np.argmin: the first smallest; an empty array is a ValueError *)
Fixpoint argmin_from (best : nat) (v : R) (i : nat) (l : list R) : nat :=
  match l with [] => best | x :: t => if Rlt_dec x v then argmin_from i x (S i) t else argmin_from best v (S i) t end.
Definition argmin (l : list R) : result nat := match l with [] => Raise ValueError | x :: t => Ok (argmin_from 0 x 1 t) end.
Definition pick {A} (l : list A) (i : nat) : result A := match nth_error l i with Some x => Ok x | None => Raise IndexError end.

(** ** get_1d_ct *)
(** The header cards read: STARLOCX/Y and DETPIX0X/Y *)
Record ct_hdr : Type := mkct { starx : option R; stary : option R; det0x : option R; det0y : option R }.
Definition default0 (o : option R) : R := match o with Some x => x | None => 0 end.
Definition get_1d_ct (table : list ((R * R) * R)) (h : ct_hdr) (seps : list R) (nearest : bool) : result (list R * list R) :=
  do x <- getkey (starx h); do y <- getkey (stary h);
  let xcen := x + default0 (det0x h) + / 2 in
  let ycen := y + default0 (det0y h) + / 2 in
  let ct_seps := map (fun e => sqrt ((fst (fst e) - xcen) ^ 2 + (snd (fst e) - ycen) ^ 2)) table in
  if nearest then
    do cts <- mapR (fun sep => do i <- argmin (map (fun s => Rabs (sep - s)) ct_seps); do e <- pick table i; Ok (snd e)) seps;
    Ok (seps, cts)
  else Raise NotImplementedError.

(** ** get_closest_psf *)
Definition get_closest_psf {P} (positions : list (R * R)) (psfs : list P) (cenx ceny dx dy : R) : result P :=
  do i <- argmin (map (fun p => sqrt (((fst p - / 2 - cenx) - dx) ^ 2 + ((snd p - / 2 - ceny) - dy) ^ 2)) positions);
  pick psfs i.
(** inject_psf 64-73: the offset of the injected source, and the centre handed over *)
Definition injected_psf {P} (positions : list (R * R)) (psfs : list P) (h : ct_hdr) (roll sep pa : R) : result P :=
  let d := seppa2dxdy sep (pa - roll) in
  do x <- getkey (starx h); do y <- getkey (stary h);
  get_closest_psf positions psfs x y (fst d) (snd d).

(** ** GetPSF *)
(** np.round: half to even *)
Definition rint (x : R) : Z :=
  let z := Int_part x in
  if Rlt_dec (x - IZR z) (/ 2) then z
  else if Rlt_dec (/ 2) (x - IZR z) then (z + 1)%Z
  else if Z.even z then z else (z + 1)%Z.
Definition zmin (l : list Z) : option Z := match l with [] => None | x :: t => Some (fold_left Z.min t x) end.
(** np.argwhere(a == a.min()) *)
Definition argwhere_min (l : list Z) : list nat :=
  match zmin l with Some m => filter (fun i => match nth_error l i with Some x => Z.eqb x m | None => false end) (seq 0 (List.length l)) | None => [] end.
Definition radius (p : R * R) : R := sqrt (fst p ^ 2 + snd p ^ 2).
(** 1934-1973, one target.  [grid] are the positions relative to the mask. *)
Definition psf_at {P} (average : P -> P -> P) (grid : list (R * R)) (psfs : list P) (t : R * R) : result P :=
  let diff_r := map (fun g => rint (10 * Rabs (radius t - radius g) / 10)) grid in
  let idx := argwhere_min diff_r in
  match idx with
  | [] => Raise PyException
  | [i] => pick psfs i
  | _ =>
    if Req_EM_T (radius t) 0 then Raise ValueError      (* the bin is infinite, every difference NaN *)
    else
      let bin := 1 / 10 / radius t in
      let az i := match nth_error grid i with Some g => rint (Rabs (arctan2 (snd t) (fst t) - arctan2 (snd g) (fst g)) / bin) | None => 0%Z end in
      match argwhere_min (map az idx) with
      | [j] => do i <- pick idx j; pick psfs i
      | [j; k] => do i <- pick idx j; do i' <- pick idx k; do a <- pick psfs i; do b <- pick psfs i'; Ok (average a b)
      | _ => Raise ValueError
      end
  end.
Definition rmin (l : list R) : result R := match l with [] => Raise ValueError | x :: t => Ok (fold_left Rmin t x) end.
Definition rmax (l : list R) : result R := match l with [] => Raise ValueError | x :: t => Ok (fold_left Rmax t x) end.
(** 1904-1986, for coordinate arrays; [positions] are ct_excam, [fpm] the position
    of the mask during the core throughput observations *)
Definition get_psf {P} (average : P -> P -> P) (positions : list (R * R)) (psfs : list P) (fpm : R * R) (xs ys : list R) (polar : bool) : result (list P * list (R * R)) :=
  if negb (Nat.eqb (List.length xs) (List.length ys)) then Raise ValueError
  else
    let grid := map (fun p => (fst p - fst fpm, snd p - snd fpm)) positions in
    let radii := map radius grid in
    do lo <- rmin radii;
    let t1 := filter (fun t => if Rle_dec lo (radius t) then true else false) (combine xs ys) in
    if Nat.eqb (List.length t1) 0 then Raise ValueError
    else
      do hi <- rmax radii;
      let t2 := filter (fun t => if Rle_dec (radius t) hi then true else false) t1 in
      if Nat.eqb (List.length t2) 0 then Raise ValueError
      else if polar then do out <- mapR (psf_at average grid psfs) t2; Ok (out, t2)
      else Raise ValueError.

(** ** The throughput of a KL mode *)
(** measure_companions.py 436-445: [table] is the KL_THRU array, row 0 the separations,
    the others one KL mode each; only the first of each pair.  [mode] may be
    negative and then counts from the end. *)
Definition row_at {A} (l : list A) (i : Z) : result A :=
  let n := Z.of_nat (List.length l) in
  if (0 <=? i)%Z && (i <? n)%Z then pick l (Z.to_nat i) else if (-n <=? i)%Z && (i <? 0)%Z then pick l (Z.to_nat (n + i)) else Raise IndexError.
Definition kl_throughput (table : list (list R)) (mode : Z) (guess : R) : result R :=
  do seps <- row_at table 0;
  do i <- argmin (map (fun s => Rabs (s - guess)) seps);
  do row <- row_at table mode;
  pick row i.
