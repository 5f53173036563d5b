(** The bad pixel map: corgidrp/bad_pixel_calibration.py create_bad_pixel_map 5-59,
    detect_hot_warm_pixels_from_dark 61-82, detect_dead_pixels_from_flat 84-138.

    Images are lists of rows of equal length with at least one row; a value is a
    real number or NaN ([None]); infinities and rounding are not modelled.  fwidth
    is an integer.  The headers, history, file name and parents of the product
    (51-57) are not modelled here (C09, C10).  A noise map instead of a dark is
    replaced by the synthesized dark made for the flat's settings (27-29: C31). *)
From Coq Require Import List Arith Bool Reals ZArith NArith.
From Verif Require Import Base AngleModel.
Import ListNotations.
Local Open Scope R_scope.

Notation image := (list (list (option R))) (only parsing).

(** np.mean: NaN for an empty array or one with a NaN in it *)
Definition mean_nan (l : list (option R)) : option R := match all_some l with Some xs => meanR xs | None => None end.
(** np.std: the root of the mean squared deviation *)
Definition std_nan (l : list (option R)) : option R :=
  match all_some l with
  | Some xs => match meanR xs with
               | Some m => option_map sqrt (meanR (map (fun x => (x - m) * (x - m)) xs))
               | None => None
               end
  | None => None
  end.
(** comparisons with NaN are false *)
Definition above (v t : option R) : bool := match v, t with Some x, Some y => if Rlt_dec y x then true else false | _, _ => false end.
Definition below (v t : option R) : bool := match v, t with Some x, Some y => if Rlt_dec x y then true else false | _, _ => false end.

(** 79-80 *)
Definition hot_level (dark : image) (dthresh : R) : option R :=
  match mean_nan (List.concat dark), std_nan (List.concat dark) with Some m, Some s => Some (m + dthresh * s) | _, _ => None end.
Definition detect_hot (dark : image) (dthresh : R) : list (list bool) :=
  map (map (fun v => above v (hot_level dark dthresh))) dark.

Definition ncols {A} (img : list (list A)) : nat := match img with [] => 0%nat | r :: _ => List.length r end.
(** img[i, j] for indices inside the image *)
Definition at_z {A} (img : list (list (option A))) (i j : Z) : option A :=
  match nth_error img (Z.to_nat i) with Some row => match nth_error row (Z.to_nat j) with Some v => v | None => None end | None => None end.
(** 121-122 and 124-125: arange(fwidth) - fwidth//2 + p, those inside 0 .. n-1 *)
Definition window (fwidth : Z) (n p : nat) : list Z :=
  filter (fun t => Z.leb 0 t && Z.ltb t (Z.of_nat n)) (map (fun k => (Z.of_nat k - fwidth / 2 + Z.of_nat p)%Z) (seq 0 (Z.to_nat fwidth))).
(** 128-132 *)
Definition dead_at (flat : image) (ffrac : R) (fwidth : Z) (r c : nat) : bool :=
  let sub := flat_map (fun i => map (fun j => at_z flat i j) (window fwidth (ncols flat) c)) (window fwidth (List.length flat) r) in
  below (at_z flat (Z.of_nat r) (Z.of_nat c)) (option_map (Rmult ffrac) (mean_nan sub)).
Definition detect_dead (flat : image) (ffrac : R) (fwidth : Z) : list (list bool) :=
  map (fun r => map (fun c => dead_at flat ffrac fwidth r c) (seq 0 (ncols flat))) (seq 0 (List.length flat)).

Inductive dark_source : Type := Master (dark : list (list (option R))) | NoiseMap (synthesized : result (list (list (option R)))).
(** 36-47; a mask of another shape cannot index the map (line 44) *)
Definition create_bad_pixel_map (src : dark_source) (flat : image) (dthresh ffrac : R) (fwidth : Z) : result (list (list N)) :=
  do dark <- match src with Master d => Ok d | NoiseMap d => d end;
  let hot := map (map (fun h : bool => if h then 8%N else 0%N)) (detect_hot dark dthresh) in
  let dead := map (map (fun d : bool => if d then 4%N else 0%N)) (detect_dead flat ffrac fwidth) in
  if Nat.eqb (List.length dark) (List.length flat) && Nat.eqb (ncols dark) (ncols flat)
  then Ok (map (fun p => map (fun q => N.lor (fst q) (snd q)) (combine (fst p) (snd p))) (combine hot dead))
  else Raise IndexError.
