(** Throughput of the PSF subtraction: corgidrp/klip_fm.py measure_noise 93-154, meas_klip_thrupt 157-518.

    An array is its shape and its values at the indices (FlatModel); a value is a real number or None: NaN, or infinite
    after a division.  Floats are not rounded.  Arbitrary are the frames and the PSF injection into one, [inject]
    (its places and its choice of a PSF are in AngleModel and NearModel), pyklip and the file it leaves, [klip], and
    pyklip's Gaussian fit, [fit].  A Dataset is not empty. *)
From Coq Require Import List Arith Bool Reals ZArith String.
From Verif Require Import Base DqModel AngleModel NearModel CombineModel FindModel FlatModel.
Import ListNotations.
Local Open Scope R_scope.

Definition rltb (x y : R) : bool := if Rlt_dec x y then true else false.
Definition reqb (x y : R) : bool := if Req_EM_T x y then true else false.

(** ** measure_noise.  [cen]: the cards STARLOCX and STARLOCY; a frame is a cube, one image for each KL mode. *)
Definition away (y x : nat) (cy cx : R) : R := sqrt ((INR y - cy) ^ 2 + (INR x - cx) ^ 2).
(** 127-142 *)
Definition kept (cx cy hw sep : R) (cands : list (R * R)) (p : nat * nat) : bool :=
  (rltb (away (fst p) (snd p) cy cx) (sep + hw) && rltb (sep - hw) (away (fst p) (snd p) cy cx) &&
  forallb (fun c => let q := seppa2xy (fst c) (snd c) cx cy in rltb (5 * hw) (away (fst p) (snd p) (snd q) (fst q))) cands)%bool.
(** 145 *)
Definition noise (cx cy hw : R) (cands : list (R * R)) (sep : R) (f : img) : val :=
  nanstd (map (fun p => pix f (fst p) (snd p)) (filter (kept cx cy hw sep cands) (spots f))).
Definition measure_noise (cen : option R * option R) (cube : list img) (seps : list R) (hw : R) (cands : list (R * R)) : result (list (list val)) :=
  do cx <- getkey (fst cen); do cy <- getkey (snd cen);
  Ok (map (fun sep => map (noise cx cy hw cands sep) cube) seps).
(** 151: stds_arr[:,klmode_index]; without separations the array has one axis only *)
Definition column (k : nat) (m : list (list val)) : result (list val) :=
  match m with [] => Raise IndexError | _ => mapR (fun row => pick row k) m end.

(** ** The separations and angles, 202-226 *)
Record hdr : Type := mkhdr { h_cfam : option string; h_plate : option R; h_lsam : option string; h_fpam : option string }.
(** d is the diameter, 573.8 nm the wavelength *)
Definition fwhm_mas : R := 122 / 100 * (5738 / 10 / 1000000000) / (236 / 100) * 206265 * 1000.
(** np.arange: ceil of the quotient; a zero step is a ZeroDivisionError *)
Definition arange (a b d : R) : result (list R) :=
  if Req_EM_T d 0 then Raise PyException
  else Ok (map (fun i => a + INR i * d) (seq 0 (Z.to_nat (ceil ((b - a) / d))))).
Definition auto_seps (h : hdr) (scale res : R) : result (list R) :=
  do l <- getkey (h_lsam h);
  if negb (String.eqb l "NFOV") then Raise NotImplementedError else
  do f <- getkey (h_fpam h);
  if negb (String.eqb f "HLC12_C2R1") then Raise NotImplementedError else
  arange (140 / scale) (450 / scale) res.
(** np.linspace(0,360,n+1)[:-1] *)
Definition auto_pas (n : nat) : list R := map (fun i => INR i * (360 / INR n)) (seq 0 n).

(** ** The injections, 229-307 *)
Definition pmod (a m : R) : R := a - m * IZR (Int_part (a / m)).
Definition loc := (R * R)%type.
Definition loc_eqb (a b : loc) : bool := reqb (fst a) (fst b) && reqb (snd a) (snd b).
Definition vscale (k : R) (v : val) : val := option_map (fun x => x * k) v.

Section Run.
Variable F : Type.
Variable roll_of : F -> option R.
Variable inject : F -> val -> loc -> result (F * img).
Variable K : Type.
Variable klip : K -> list F -> result (img * (R * R)).
Variable fit : img -> R * R -> R -> val -> val * val.   (* peak and FWHM *)

(** A frame, what is skipped, and what has been injected: the place, the peak and the model *)
Record placed : Type := mkplaced { p_loc : loc; p_peak : val; p_model : img }.
Definition state : Type := (F * list loc * list placed)%type.

(** 266-277 *)
Definition too_close (rolls : list R) (cands : list loc) (res : R) (l : loc) : bool :=
  existsb (fun c => existsb (fun _ => rltb (get_polar_dist c l) res) rolls) cands.
(** 258-288 *)
Definition visit_pa (first : bool) (rolls : list R) (cands : list loc) (res : R) (peak : val) (sep off : R) (st : state) (pa : R) : result state :=
  let '(f, skipped, done) := st in
  let l := (sep, pmod (pa + off) 360) in
  if existsb (loc_eqb l) skipped then Ok st
  else if (first && too_close rolls cands res l)%bool then Ok (f, skipped ++ [l], done)
  else do r <- inject f peak l; Ok (fst r, skipped, done ++ [mkplaced l peak (snd r)]).
Fixpoint visit_pas (first : bool) rolls cands res peak sep off (st : state) (pas : list R) : result state :=
  match pas with [] => Ok st | pa :: t => do st' <- visit_pa first rolls cands res peak sep off st pa; visit_pas first rolls cands res peak sep off st' t end.
(** 253-289: the separations with their noise *)
Fixpoint visit_seps (first : bool) rolls cands res (snr step : R) (pas : list R) (off : R) (st : state) (seps : list (R * val)) : result state :=
  match seps with
  | [] => Ok st
  | (sep, nz) :: t =>
    do st' <- visit_pas first rolls cands res (vscale snr nz) sep off st pas;
    visit_seps first rolls cands res snr step pas (off + step) st' t
  end.
(** 242-291: what is skipped in the first frame is skipped in the others *)
Fixpoint visit_frames (first : bool) rolls cands res snr (pas : list R) (seps : list (R * val)) (skipped : list loc) (fs : list F) : result (list (F * list placed)) :=
  match fs with
  | [] => Ok []
  | f :: t =>
    match pas with
    | [] => Raise PyException
    | _ => do st <- visit_seps first rolls cands res snr (360 / INR (List.length pas) / 3) pas 0 (f, skipped, []) seps;
           do rest <- visit_frames false rolls cands res snr pas seps (snd (fst st)) t;
           Ok ((fst (fst st), snd st) :: rest)
    end
  end.

(** ** The background, 325-337 *)
Definition clip (l : list val) : list val :=
  match nanstd l, nanmedian l with
  | Some s, Some m => map (fun v => match v with Some x => if Rlt_dec (3 * s) (Rabs (x - m)) then None else Some x | None => None end) l
  | _, _ => l
  end.
Definition values (f : img) : list val := map (fun p => pix f (fst p) (snd p)) (spots f).
Definition background (f : img) : val := nanmedian (Nat.iter 5 clip (values f)).
Definition levelled (f : img) : img := subtract f (background f).

(** ** The cutouts, 371-425.  A side of the window: size, pixels of the data, centre *)
Definition trunc (x : R) : Z := if Rlt_dec x 0 then (- Int_part (- x))%Z else Int_part x.
Definition span (size n : nat) (c : Z) : (Z * Z) * (Z * Z) :=
  let s := (c - Z.of_nat size / 2)%Z in let e := (s + Z.of_nat size)%Z in
  let lo := if (s <? 0)%Z then ((- s)%Z, 0%Z) else (0%Z, s) in
  let hi := if (Z.of_nat n <=? e)%Z then ((Z.of_nat size - (e - Z.of_nat n))%Z, Z.of_nat n) else (Z.of_nat size, e) in
  ((fst lo, fst hi), (snd lo, snd hi)).
(** The indices of the two slices; assigning one of length 1 repeats it *)
Definition slices (size n : nat) (c : Z) : (nat * nat) * (nat * nat) :=
  let p := span size n c in
  ((bound size (fst (fst p)), bound size (snd (fst p))), (bound n (fst (snd p)), bound n (snd (snd p)))).
Definition assignable (q : (nat * nat) * (nat * nat)) : bool :=
  (Nat.eqb (snd (snd q) - fst (snd q)) (snd (fst q) - fst (fst q)) || Nat.eqb (snd (snd q) - fst (snd q)) 1)%bool.
Definition source (q : (nat * nat) * (nat * nat)) (i : nat) : option nat :=
  if (Nat.leb (fst (fst q)) i && Nat.ltb i (snd (fst q)))%bool
  then Some (if Nat.eqb (snd (snd q) - fst (snd q)) 1 then fst (snd q) else fst (snd q) + (i - fst (fst q)))%nat else None.
Definition cutout (data : img) (size : nat * nat) (cy cx : Z) : result img :=
  let qy := slices (fst size) (rows data) cy in let qx := slices (snd size) (cols data) cx in
  if (assignable qy && assignable qx)%bool then
    Ok (mkimg (fst size) (snd size) (fun r c => match source qy r, source qx c with Some y, Some x => pix data y x | _, _ => None end))
  else Raise ValueError.
(** 377-387: the window of rows is placed with the number of columns; only a square model fits *)
Definition padded (m : img) : result img :=
  if Nat.eqb (rows m) (cols m) then
    let n := rows m in let a := (n - n / 2)%nat in
    Ok (mkimg (2 * n + 1) (2 * n + 1) (fun r c =>
      if (Nat.leb a r && Nat.ltb r (a + n) && Nat.leb a c && Nat.ltb c (a + n))%bool then pix m (r - a) (c - a) else Some 0))
  else Raise ValueError.

(** ** One injected source, 371-476 *)
Definition counts (q : val * val) : val :=
  match q with (Some peak, Some w) => Some (PI * peak * w ^ 2 / 4 / ln 2) | _ => None end.
Definition measure (fwhm : R) (guess : val) (data : img) (cen : R * R) (p : placed) : result (val * val) :=
  do m <- padded (p_model p);
  let q := seppa2xy (fst (p_loc p)) (snd (p_loc p)) (fst cen) (snd cen) in
  do c <- cutout data (rows m, cols m) (trunc (snd q)) (trunc (fst q));
  let centre := (INR (cols (p_model p)), INR (rows (p_model p))) in
  let pre := fit m centre fwhm guess in let post := fit c centre fwhm guess in
  Ok (vdiv (counts post) (counts pre), snd post).

(** ** One KL mode, 478-513: the separations with their throughput and FWHM *)
Fixpoint uinsert (x : R) (l : list R) : list R :=
  match l with [] => [x] | y :: t => if Req_EM_T x y then l else if Rlt_dec x y then x :: l else y :: uinsert x t end.
Definition unique (l : list R) : list R := fold_right uinsert [] l.
Definition at_sep (sep : R) (locs : list loc) (vs : list val) : val :=
  nanmedian (map (fun q => if Req_EM_T (fst (fst q)) sep then snd q else None) (combine locs vs)).
Definition tabulate (locs : list loc) (vs : list (val * val)) : list (val * val) :=
  map (fun sep => (at_sep sep locs (map fst vs), at_sep sep locs (map snd vs))) (unique (map fst locs)).

(** 232-513.  The guessed peak is that of the last separation.  Nothing injected: np.sum over the axes 2 and 3 of an array with two. *)
Definition one_mode (cen : option R * option R) (cube : list img) (fs : list F) (seps pas : list R) (cands : list loc) (snr fwhm res : R) (k : nat) (klmode : K) : result (list (val * val)) :=
  do rolls <- mapR (fun f => getkey (roll_of f)) fs;
  do m <- measure_noise cen cube seps fwhm cands;
  do nz <- column k m;
  do out <- visit_frames true rolls cands res snr pas (combine seps nz) [] fs;
  match out with
  | [] => Raise IndexError
  | (_, []) :: _ => Raise IndexError
  | (_, done) :: _ =>
    do d <- klip klmode (map fst out);
    let guess := vscale snr (last nz None) in
    do vs <- mapR (measure fwhm guess (levelled (fst d)) (snd d)) done;
    Ok (tabulate (map p_loc done) vs)
  end.
Fixpoint all_modes (one : nat -> K -> result (list (val * val))) (k : nat) (l : list K) : result (list (list (val * val))) :=
  match l with [] => Ok [] | m :: t => do a <- one k m; do r <- all_modes one (S k) t; Ok (a :: r) end.

(** 196-518; the header is that of the first frame *)
Definition meas_klip_thrupt (h : hdr) (cen : option R * option R) (cube : list img) (fs : list F) (numbasis : list K)
    (snr spacing : R) (n_pas : nat) (seps pas : option (list R)) (cands : list loc) : result (list R * list (list (val * val))) :=
  do c <- getkey (h_cfam h);
  if negb (String.eqb c "1F") then Raise NotImplementedError else
  do scale <- getkey (h_plate h);
  if Req_EM_T scale 0 then Raise PyException else
  let fwhm := fwhm_mas / scale in let res := spacing * fwhm in
  do ss <- match seps with Some s => Ok s | None => auto_seps h scale res end;
  let ps := match pas with Some p => p | None => auto_pas n_pas end in
  do tables <- all_modes (one_mode cen cube fs ss ps cands snr fwhm res) 0 numbasis;
  do out <- mapR (fun t => mapR (fun i => pick t i) (seq 0 (List.length ss))) tables;
  Ok (ss, out).
End Run.
