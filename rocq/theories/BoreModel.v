(** The astrometric calibration of a dataset: corgidrp/astrom.py compute_boresight 803-888, format_distortion_inputs
    890-959, boresight_calibration 1004-1166.

    Floats are real numbers without rounding; None is NaN, and any arithmetic with it gives None.  Unknown functions:
    [solve] (find_source_locations, match_sources and compute_platescale_and_northangle of one frame: the matched stars,
    plate scale and north angle, numbers), [gauss] (pyklip's gaussfit2d), [sky2pix] (astropy's projection of a header),
    [offset_of] (measure_offset), [sky_sep] and [sky_pa] (separations and position angles of SkyCoord), [leastsq].
    The headers and file names of the products are those of C65; the checks of types are not modelled, and CDELT, which
    a header with CD does not use, is left out.  A card of a header refuses a NaN (ValueError): the corrected position of a
    frame is written as a card with the right ascension as value and the declination as comment (1155-1157), and only the
    former is looked at.  [frames_to_combine] is positive: with others the loop of 1064-1077 does
    not end or fails. *)
From Coq Require Import List Arith Bool Reals ZArith String.
From Verif Require Import Base DqModel SpotModel BendModel.
Import ListNotations.
Local Open Scope R_scope.

Record star : Type := mkstar { s_x : R; s_y : R; s_ra : R; s_dec : R }.
Record wcs : Type := mkwcs { cd11 : R; cd12 : R; cd21 : R; cd22 : R; crpix1 : R; crpix2 : R; crval1 : R; crval2 : R }.
Record gframe : Type := mkg { g_im : image; g_ra : option R; g_dec : option R; g_name : string }.

(** np.mean *)
Definition nmean (l : list num) : num := ndiv (fold_right nadd (Some 0) l) (Some (INR (List.length l))).
Definition rmean (l : list R) : R := fold_right Rplus 0 l / INR (List.length l).

(** 838-858: the header *)
Definition header_of (im : image) (target props : R * R) : wcs :=
  let a := snd props * PI / 180 in
  let s := fst props * (1 / 1000) / 3600 in
  mkwcs (- cos a * s) (sin a * s) (sin a * s) (cos a * s) (INR (nx im / 2)) (INR (ny im / 2)) (fst target) (snd target).
(** 832-835: the stars of the middle *)
Definition central (im : image) (st : star) : bool :=
  let qy := INR (ny im / 4) in
  let qx := INR (nx im / 4) in
  (if Rle_dec qx (s_x st) then true else false) && (if Rle_dec (s_x st) (INR (nx im) - qx) then true else false) &&
  (if Rle_dec qy (s_y st) then true else false) && (if Rle_dec (s_y st) (INR (ny im) - qy) then true else false).

Section Bore.
  Variable solve : gframe -> result (list star * (R * R)).
  Variable gauss : image -> R -> R -> result (num * num).
  Variable sky2pix : wcs -> R -> R -> num * num.
  Variable offset_of : image -> R -> R -> R -> R -> result ((R * R) * (R * R)).
  Variable sky_sep sky_pa : R -> R -> R -> R -> R.
  Variable leastsq : (list num -> result (list num)) -> list R -> result (list R).

  (** 803-888: offsets in degrees *)
  Definition compute_boresight (im : image) (stars : list star) (target props : R * R) : result (num * num) :=
    let w := header_of im target props in
    do offs <- mapR (fun st =>
      do c <- gauss im (s_x st) (s_y st);
      let p := sky2pix w (s_ra st) (s_dec st) in
      Ok (nsub (fst c) (fst p), nsub (snd c) (snd p))) (filter (central im) stars);
    let deg m := ndiv (nmul m (Some (fst props))) (Some 3600000) in
    Ok (deg (nmean (map fst offs)), deg (nmean (map snd offs))).

  (** 1094-1118: one frame *)
  Record sol : Type := mksol { o_corr : num * num; o_ps : R; o_north : R; o_off : num * num; o_stars : list star; o_target : star }.
  Definition measure (f : gframe) : result sol :=
    do ra <- getkey (g_ra f);
    do dec <- getkey (g_dec f);
    do r <- solve f;
    do b <- compute_boresight (g_im f) (fst r) (ra, dec) (snd r);
    Ok (mksol (nsub (Some ra) (fst b), nsub (Some dec) (snd b)) (fst (snd r)) (snd (snd r)) b (fst r)
      (mkstar (INR ((nx (g_im f) - 1) / 2)) (INR ((ny (g_im f) - 1) / 2)) ra dec)).

  (** 926-951: one pair *)
  Definition pair_of (perr : option R) (im : image) (t st : star) : result pair :=
    do r <- offset_of im (s_x st) (s_y st) (s_x st - s_x t) (s_y st - s_y t);
    let '((dx, dy), (ex, ey)) := r in
    let '(ex, ey) := match perr with None => (ex, ey) | Some e => (e, e) end in
    Ok (mkpair (s_x t) (s_y t) dx dy (sky_sep (s_ra t) (s_dec t) (s_ra st) (s_dec st)) (sky_pa (s_ra t) (s_dec t) (s_ra st) (s_dec st)) ex ey).
  (** 890-959: frames, matches and targets by index *)
  Fixpoint format_inputs (perr : option R) (frames : list gframe) (matches : list (list star)) (targets : list star) : result (list pair) :=
    match frames, matches, targets with
    | [], _, _ => Ok []
    | f :: fs, m :: ms, t :: ts =>
      do p <- mapR (pair_of perr (g_im f) t) m;
      do r <- format_inputs perr fs ms ts;
      Ok (p ++ r)
    | _ :: _, _, _ => Raise IndexError
    end.

  (** np.mean(sub_array, axis=0) *)
  Definition mean_image (l : list gframe) : image :=
    match l with
    | [] => mkimage 0 0 (fun _ _ => None)
    | f :: _ => mkimage (ny (g_im f)) (nx (g_im f)) (fun i j => nmean (map (fun g => px (g_im g) i j) l))
    end.
  (** 1055-1078: [count] frames are combined already; the number of frames is fuel enough *)
  Fixpoint combine_from (fuel k : nat) (frames : list gframe) (count : nat) : result (list gframe) :=
    if Nat.leb (List.length frames) count then Ok [] else
    match fuel with
    | O => Ok []
    | S fuel' =>
      let count' := (count + k)%nat in
      let '(sub, named) :=
        if Nat.leb (List.length frames) count' then (skipn (count' - k) frames, nth_error frames (List.length frames - 1))
        else (firstn k (skipn (count' - k) frames), nth_error frames count') in
      match nth_error frames (count' - k), named with
      | Some f0, Some fn =>
        do rest <- combine_from fuel' k frames count';
        Ok (mkg (mean_image sub) (g_ra f0) (g_dec f0) (g_name fn) :: rest)
      | _, _ => Raise IndexError
      end
    end.

  (** 1004-1166: the data of the calibration, and the corrected position of every frame *)
  Definition boresight_calibration (frames : list gframe) (field_matches : option nat) (frames_to_combine : option nat) (find_distortion : bool) (order : nat) (perr : option R) (guess : option (list R))
    : result (list num * list (num * num)) :=
    if match field_matches with Some n => (Nat.ltb 1 n && negb (Nat.eqb n (List.length frames)))%bool | None => false end then Raise TypeError else
    do dataset <- match frames_to_combine with Some k => combine_from (List.length frames) k frames 0 | None => Ok frames end;
    do sols <- mapR measure dataset;
    let avg_ra := nmean (map (fun s => fst (o_off s)) sols) in
    let avg_dec := nmean (map (fun s => snd (o_off s)) sols) in
    let ps := rmean (map o_ps sols) in
    let north := rmean (map o_north sols) in
    do dist <- (if find_distortion then
        do pairs <- format_inputs perr frames (map o_stars sols) (map o_target sols);
        compute_distortion leastsq order ((ps + ps) / 2) north pairs guess
      else Ok (default_coeffs order, order));
    match sols with
    | [] => Raise IndexError
    | s0 :: _ =>
      if existsb (fun s => match fst (o_corr s) with None => true | Some _ => false end) sols then Raise ValueError else
      Ok ([fst (o_corr s0); snd (o_corr s0); Some ps; Some ps; Some north; avg_ra; avg_dec] ++ distortion_part dist, map o_corr sols)
    end.
End Bore.
