(** The source search: corgidrp/l4_to_tda.py find_source 431-494, find_source.py make_snmap 5-38
    and psf_scalesub 41-73.

    Images are lists of rows of equal length; a value is a real number or NaN ([None]);
    infinities and rounding are not modelled.  pyklip's calculate_cc and
    get_image_stat_map_perPixMasking are oracles ([cc], [stat]), as is the scale
    np.nanmedian(window / psf) ([scale]).  The PSF is a square array. *)
From Coq Require Import List Arith Bool Reals ZArith String Ascii.
From Verif Require Import Base NearModel.
Import ListNotations.
Local Open Scope R_scope.

Notation image := (list (list (option R))) (only parsing).
Definition ncol {A} (img : list (list A)) : nat := match img with [] => 0%nat | r :: _ => List.length r end.
(** every element with its row and column *)
Definition index {A} (l : list A) : list (nat * A) := combine (seq 0 (List.length l)) l.
Definition grid_map {A B} (f : nat -> nat -> A -> B) (img : list (list A)) : list (list B) :=
  map (fun ir => map (fun jv => f (fst ir) (fst jv) (snd jv)) (index (snd ir))) (index img).
(** distance of two array indices, as in np.sqrt((xx - cx)**2 + (yy - cy)**2) *)
Definition idist (i j ci cj : Z) : R := sqrt (IZR (j - cj) ^ 2 + IZR (i - ci) ^ 2).

(** ** The PSF, 455-470 *)
Definition boxsize (fwhm : R) : nat := let b := Z.to_nat (Int_part (fwhm * 3)) in if Nat.even b then S b else b.
Definition gaussian (fwhm : R) : list (list R) :=
  let b := boxsize fwhm in
  let sigma := fwhm / (2 * sqrt (2 * ln 2)) in
  let at_ i j := exp (- (IZR (Z.of_nat j - Z.of_nat (b / 2)) ^ 2 + IZR (Z.of_nat i - Z.of_nat (b / 2)) ^ 2) / (2 * sigma ^ 2)) in
  map (fun i => map (at_ i) (seq 0 b)) (seq 0 b).
(** The pixels of the box within half a width of its centre are set in a mask of the
    shape of the PSF; one outside that shape is an IndexError. *)
Definition mask_idx (fwhm : R) : list (nat * nat) :=
  let b := boxsize fwhm in let c := Z.of_nat (b / 2) in
  filter (fun p => if Rle_dec (idist (Z.of_nat (fst p)) (Z.of_nat (snd p)) c c) (fwhm * (1 / 2)) then true else false) (list_prod (seq 0 b) (seq 0 b)).
Definition binary_mask (fwhm : R) (psf : list (list R)) : result (list (list bool)) :=
  if forallb (fun p => Nat.ltb (fst p) (List.length psf) && Nat.ltb (snd p) (ncol psf)) (mask_idx fwhm)
  then Ok (grid_map (fun i j _ => existsb (fun p => Nat.eqb (fst p) i && Nat.eqb (snd p) j) (mask_idx fwhm)) psf)
  else Raise IndexError.

Section Search.
Variable cc : list (list bool) -> image -> image.
Variable stat : image -> option image -> Z -> image.
Variable scale : list (option R) -> list R -> option R.
Variable psf : list (list R).
Variable fwhm thr : R.
Variable mask : list (list bool).
Variable wop : option (list (list (option R))).      (* image_without_planet *)

(** make_snmap 25-33: the distance, rounded up, of the pixel with a value nearest to the centre;
    np.min of nothing is a ValueError *)
Definition ceil (x : R) : Z := (- Int_part (- x))%Z.
Definition finite_pixels (img : image) : list (nat * nat) :=
  filter (fun p => match nth_error img (fst p) with Some row => match nth_error row (snd p) with Some (Some _) => true | _ => false end | None => false end)
    (list_prod (seq 0 (List.length img)) (seq 0 (ncol img))).
Definition mask_radius (img : image) : result Z :=
  let ci := Z.of_nat (List.length img / 2) in let cj := Z.of_nat (ncol img / 2) in
  do m <- rmin (map (fun p => idist (Z.of_nat (fst p)) (Z.of_nat (snd p)) ci cj) (finite_pixels img));
  Ok (ceil m).
Definition make_snmap (img : image) : result image :=
  do r <- mask_radius img;
  Ok (stat (cc mask img) (option_map (cc mask) wop) r).

(** psf_scalesub.  A slice [start:stop] of an axis of length n, start possibly negative *)
Definition slice_lo (n start : Z) : Z := (if start <? 0 then Z.max 0 (n + start) else Z.min start n)%Z.
Definition slice_hi (n stop : Z) : Z := Z.min stop n.
Definition window (n : nat) (y : nat) : Z * Z :=
  let w := Z.of_nat (List.length psf / 2) in
  (slice_lo (Z.of_nat n) (Z.of_nat y - w), slice_hi (Z.of_nat n) (Z.of_nat y + w + 1)).
Definition within (w : Z * Z) (i : nat) : bool := (fst w <=? Z.of_nat i)%Z && (Z.of_nat i <? snd w)%Z.
Definition slice {A} (w : Z * Z) (l : list A) : list A := firstn (Z.to_nat (snd w - fst w)) (skipn (Z.to_nat (fst w)) l).
Definition region (img : image) (wy wx : Z * Z) : list (option R) := List.concat (map (slice wx) (slice wy img)).
Definition sub_opt (v s : option R) (p : R) : option R := match v, s with Some a, Some b => Some (a - p * b) | _, _ => None end.
(** The window and the PSF must have the same shape: ValueError otherwise *)
Definition psf_scalesub (img : image) (y x : nat) : result image :=
  let wy := window (List.length img) y in let wx := window (ncol img) x in
  let b := Z.of_nat (List.length psf) in
  if (snd wy - fst wy =? b)%Z && (snd wx - fst wx =? b)%Z then
    let s := scale (region img wy wx) (List.concat psf) in
    let c := Z.of_nat (List.length psf / 2) in
    Ok (grid_map (fun i j v =>
          if within wy i && within wx j then
            let a := (Z.of_nat i - fst wy)%Z in let b := (Z.of_nat j - fst wx)%Z in
            if Rlt_dec (idist a b c c) (fwhm * 1) then None
            else match nth_error psf (Z.to_nat a) with
                 | Some row => match nth_error row (Z.to_nat b) with Some p => sub_opt v s p | None => None end
                 | None => None
                 end
          else v) img)
  else Raise ValueError.

(** np.nanmax: NaN if there is no number, ValueError for an empty array; np.nanargmax: the first *)
Fixpoint max_from (best : option (nat * R)) (i : nat) (l : list (option R)) : option (nat * R) :=
  match l with
  | [] => best
  | None :: t => max_from best (S i) t
  | Some x :: t => max_from (match best with Some (_, v) => if Rlt_dec v x then Some (i, x) else best | None => Some (i, x) end) (S i) t
  end.
Definition nanmax (l : list (option R)) : result (option (nat * R)) := match l with [] => Raise ValueError | _ => Ok (max_from None 0 l) end.
Definition unravel (nc k : nat) : nat * nat := (k / nc, k mod nc)%nat.

(** 472-489.  [Running]: the loop has not ended after [fuel] rounds. *)
Inductive outcome : Type := Done (l : list (R * (nat * nat))) | Failed (e : exn) | Running.
Fixpoint search (fuel : nat) (img : image) : outcome :=
  match fuel with
  | O => Running
  | S f =>
    match make_snmap img with
    | Raise e => Failed e
    | Ok m =>
      match nanmax (List.concat m) with
      | Raise e => Failed e
      | Ok None => Done []
      | Ok (Some (k, sn)) =>
        if Rle_dec thr sn then
          if Rlt_dec thr sn then
            let p := unravel (ncol m) k in
            match psf_scalesub img (fst p) (snd p) with
            | Raise e => Failed e
            | Ok img' => match search f img' with Done l => Done ((sn, p) :: l) | o => o end
            end
          else search f img
        else Done []
      end
    end
  end.
End Search.

(** The whole: the mask, the search *)
Definition find_sources (cc : list (list bool) -> image -> image) (stat : image -> option image -> Z -> image) (scale : list (option R) -> list R -> option R)
  (img : image) (psf : option (list (list R))) (fwhm thr : R) (wop : option image) (fuel : nat) : outcome :=
  let p := match psf with Some p => p | None => gaussian fwhm end in
  match binary_mask fwhm p with
  | Raise e => Failed e
  | Ok mask => search cc stat scale p fwhm thr mask wop fuel img
  end.
