(** The injection of a PSF: corgidrp/klip_fm.py inject_psf 47-90, and injections one after the other as meas_klip_thrupt makes them.

    An array is its shape and its values at the indices (FlatModel); a value is a real number or None: NaN, or infinite after a
    division.  Floats are not rounded.  The frame is its array and the three cards that are read.  The table of core throughput
    is a list of positions and a list of PSFs.  Arbitrary is pyklip's inject_planet, [paint]: from the array, the centre, the
    model, the separation and the angle it makes the new array, or it raises.  The copy of the frame is the value returned
    (the heap is in DatasetModel).  Not modelled: the corners 79-85, which nothing reads. *)
From Coq Require Import List Arith Bool Reals ZArith.
From Verif Require Import Base AngleModel NearModel CombineModel FindModel FlatModel ThruModel.
Import ListNotations.
Local Open Scope R_scope.

Record source : Type := mksource { f_data : img; f_roll : option R; f_starx : option R; f_stary : option R }.
Record shot : Type := mkshot { s_amp : val; s_sep : R; s_pa : R }.

Section Inject.
Variable paint : img -> R * R -> img -> R -> R -> result img.
Variable positions : list (R * R).
Variable psfs : list img.

(** 76-77: a factor that is NaN or infinite makes NaN or infinite of all *)
Definition times (k v : val) : val := match k, v with Some a, Some x => Some (x * a) | _, _ => None end.
Definition scale (k : val) (m : img) : img := mkimg (rows m) (cols m) (fun r c => times k (pix m r c)).
Definition peak_of (m : img) : result val := do p <- nanmax (values m); Ok (option_map snd p).

(** 63-90: the frame, the model and its centre *)
Definition inject_psf (f : source) (s : shot) : result (source * (img * (R * R))) :=
  do roll <- getkey (f_roll f);
  let rel_pa := s_pa s - roll in
  let d := seppa2dxdy (s_sep s) rel_pa in
  do x <- getkey (f_starx f);
  do y <- getkey (f_stary f);
  do psf <- get_closest_psf positions psfs x y (fst d) (snd d);
  do peak <- peak_of psf;
  let model := scale (vdiv (s_amp s) peak) psf in
  do data <- paint (f_data f) (x, y) model (s_sep s) (rel_pa + 90);
  Ok (mksource data (f_roll f) (f_starx f) (f_stary f), (model, (x + fst d, y + snd d))).

(** klip_fm.py 264-302: each injection into the frame that the one before has made *)
Fixpoint inject_all (f : source) (l : list shot) : result (source * list (img * (R * R))) :=
  match l with
  | [] => Ok (f, [])
  | s :: t => do a <- inject_psf f s; do b <- inject_all (fst a) t; Ok (fst b, snd a :: snd b)
  end.
End Inject.
