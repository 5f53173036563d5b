(** Photometry of a star and the flux calibration factor: corgidrp/fluxcal.py aper_phot 275-344, phot_by_gauss2d_fit
    347-409, calibrate_fluxcal_aper 412-517, calibrate_fluxcal_gauss2d 520-612; astrom.py centroid_with_roi 38-82 with an
    initial guess; data.py FluxcalFactor 1345-1436.

    Values are those of FlatModel: a real number or None (NaN or an infinity).  Unknown functions, that may raise: the pixel of
    the target from its coordinates and the WCS, counted from 0, [wcs_at]; photutils' LocalBackground of the radii
    [local_back]; the share of each pixel in the aperture [overlap] (None: the aperture misses the image), of the method and
    the number of subpixels; its Gaussian fit [gauss_fit]; the curves of the filter and the star [curves] (C42), with the flux
    and the irradiance in the band.  do_photometry sums the share times the value over the pixels of positive share that are
    not masked, and errors in quadrature with the same shares, as in photutils.  The radius of the region of interest is a
    natural number.  Of the headers only the cards named here are modelled, those of texts and of one number; history, parents,
    file names, version and time are not. *)
From Coq Require Import List Arith Bool Reals ZArith String.
From Verif Require Import Base DqModel CombineModel FlatModel NearModel CtModel CompModel.
Import ListNotations.
Local Open Scope R_scope.

Inductive cval : Type := CText (s : string) | CNum (v : val).
Definition cards : Type := list (string * cval).
Fixpoint get (k : string) (h : cards) : option cval := match h with [] => None | (a, v) :: t => if String.eqb a k then Some v else get k t end.
Fixpoint put (k : string) (v : cval) (h : cards) : cards :=
  match h with [] => [(k, v)] | (a, w) :: t => if String.eqb a k then (a, v) :: t else (a, w) :: put k v t end.
Record shot : Type := mkshot { t_data : img; t_err : img; t_dq : nat -> nat -> Z; t_ext : cards; t_errh : cards }.
Definition masked (s : shot) (i j : nat) : bool := negb (Z.eqb (t_dq s i j) 0).

(** ** astrom.py 54-81.  A negative stop of a slice is counted from the end *)
Definition box (n : nat) (k : Z) (r : nat) : list nat :=
  let lo := Z.max 0 (k - Z.of_nat r) in
  let hi := Z.min (Z.of_nat n) (k + Z.of_nat r + 1) in
  let hi := if (hi <? 0)%Z then Z.max 0 (Z.of_nat n + hi) else hi in
  seq (Z.to_nat lo) (Z.to_nat hi - Z.to_nat lo).
Definition centroid_about (f : img) (r : nat) (gx gy : R) : val * val :=
  let x := rint gx in
  let y := rint gy in
  let ps := list_prod (box (rows f) y r) (box (cols f) x r) in
  let total := vsum (map (at_ f) ps) in
  if is_zero total then (Some (IZR x), Some (IZR y))
  else (vdiv (vsum (map (fun q => vmul (Some (INR (snd q))) (at_ f q)) ps)) total,
        vdiv (vsum (map (fun q => vmul (Some (INR (fst q))) (at_ f q)) ps)) total).
Definition centroid (f : img) (r : nat) (guess : option (option R * option R)) : result (val * val) :=
  match guess with
  | Some (Some x, Some y) => Ok (centroid_about f r x y)
  | _ => centroid_with_roi f r
  end.
Definition less (f : img) (b : val) : img := mkimg (rows f) (cols f) (fun i j => vsub (pix f i j) b).
(** do_photometry *)
Definition taken (s : shot) (w : nat -> nat -> R) : list (nat * nat) :=
  filter (fun p => (if Rlt_dec 0 (w (fst p) (snd p)) then true else false) && negb (masked s (fst p) (snd p))) (spots (t_data s)).
Definition weighed (w : nat -> nat -> R) (f : nat -> nat -> val) (ps : list (nat * nat)) : val :=
  vsum (map (fun p => vmul (Some (w (fst p) (snd p))) (f (fst p) (snd p))) ps).

Record aset : Type := mkaset { a_radius : R; a_fee : R; a_method : string; a_sub : nat; a_back : bool; a_in : R; a_out : R; a_centring : string; a_roi : nat; a_guess : option (option R * option R) }.
Record gset : Type := mkgset { g_fwhm : R; g_shape : option Z; g_back : bool; g_in : R; g_out : R; g_centring : string; g_roi : nat; g_guess : option (option R * option R) }.
(** 458-469 and 563-572 *)
Definition default_aset : aset := mkaset 5 1 "subpixel" 5 false 5 10 "xy" 5 None.
Definition default_gset : gset := mkgset 3 None false 5 10 "xy" 5 None.
Definition photometry : Type := (val * val * option val)%type.
Record product : Type := mkproduct { f_fac : val; f_err : val; f_nd : string; f_filter : cval; f_ext : cards }.

Section Phot.
  Variable wcs_at : shot -> result (R * R).
  Variable local_back : R -> R -> img -> (nat -> nat -> bool) -> val -> val -> result val.
  Variable overlap : string -> nat -> R -> val -> val -> nat -> nat -> result (option (nat -> nat -> R)).
  Variable gauss_fit : img -> val -> val -> R -> Z -> (nat -> nat -> bool) -> img -> result (val * val).
  Variable curve : Type.
  Variable curves : shot -> result curve.
  Variables band_flux band_irr : curve -> val.

  (** 309-319 and 374-384: the pixel of the WCS is asked for counted from 1 *)
  Definition centre (s : shot) (centring : string) (roi : nat) (guess : option (option R * option R)) : result (val * val) :=
    if String.eqb centring "wcs" then do p <- wcs_at s; Ok (Some (fst p + 1), Some (snd p + 1))
    else if String.eqb centring "xy" then centroid (t_data s) roi guess
    else Raise ValueError.
  (** 322-326 and 389-392 *)
  Definition unback (s : shot) (b : bool) (r_in r_out : R) (x y : val) : result (option val) :=
    if b then do v <- local_back r_in r_out (t_data s) (masked s) x y; Ok (Some v) else Ok None.
  Definition data_of (s : shot) (b : option val) : img := match b with Some v => less (t_data s) v | None => t_data s end.
  (** 302-344 *)
  Definition aper_phot (s : shot) (a : aset) : result photometry :=
    if (if Rle_dec (a_fee a) 0 then true else false) || (if Rlt_dec 1 (a_fee a) then true else false) then Raise ValueError else
    do p <- centre s (a_centring a) (a_roi a) (a_guess a);
    do b <- unback s (a_back a) (a_in a) (a_out a) (fst p) (snd p);
    do w <- overlap (a_method a) (a_sub a) (a_radius a) (fst p) (snd p) (rows (t_data s)) (cols (t_data s));
    let '(sum, err) := match w with
                       | None => (None, None)
                       | Some w => (weighed w (pix (data_of s b)) (taken s w), vsqrt (weighed w (fun i j => vsq (pix (t_err s) i j)) (taken s w)))
                       end in
    Ok (vdiv sum (Some (a_fee a)), vdiv err (Some (a_fee a)), b).
  (** 373-409; np.finfo(np.float32).eps is 2^-23 *)
  Definition filled (f : img) : img := mkimg (rows f) (cols f) (fun i j => match pix f i j with Some x => if Req_EM_T x 0 then Some (/ 2 ^ 23) else Some x | None => None end).
  Definition phot_by_gauss2d_fit (s : shot) (g : gset) : result photometry :=
    do p <- centre s (g_centring g) (g_roi g) (g_guess g);
    do b <- unback s (g_back g) (g_in g) (g_out g) (fst p) (snd p);
    let shape := match g_shape g with Some n => n | None => (Z.of_nat (rows (t_data s)) - 1)%Z end in
    do r <- gauss_fit (data_of s b) (fst p) (snd p) (g_fwhm g) shape (masked s) (filled (t_err s));
    Ok (fst r, snd r, b).

  (** data.py 1370-1386, 1421-1429; the header is that of the image *)
  Definition nd_of (name : cval) : string := match name with CText t => if String.prefix "ND" t then t else "ND0"%string | CNum _ => "ND0"%string end.
  Definition new_factor (h : cards) (fac err : val) : cards * result product :=
    match match get "FPAMNAME" h with Some n => Some n | None => get "FSAMNAME" h end with
    | None => (h, Raise ValueError)
    | Some n => match get "CFAMNAME" h with
                | None => (h, Raise ValueError)
                | Some c => let h' := put "DATALVL" (CText "CAL") (put "DATATYPE" (CText "FluxcalFactor") h) in (h', Ok (mkproduct fac err (nd_of n) c h'))
                end
    end.
  (** 452-517 and 555-612: the image as it is left and what is returned.  The product has the header of the image. *)
  Definition calibrate (phot : shot -> result photometry) (s : shot) (what : string) : shot * result product :=
    match curves s with
    | Raise e => (s, Raise e)
    | Ok c =>
      match (if String.eqb what "flux" then Some (band_flux c, "erg/(s * cm^2 * AA)/(electron/s)"%string)
             else if String.eqb what "irr" then Some (band_irr c, "erg/(s * cm^2)/(electron/s)"%string) else None) with
      | None => (s, Raise ValueError)
      | Some (flux, unit) =>
        let s := mkshot (t_data s) (t_err s) (t_dq s) (put "BUNIT" (CText unit) (t_ext s)) (put "BUNIT" (CText unit) (t_errh s)) in
        match phot s with
        | Raise e => (s, Raise e)
        | Ok (n, e, b) =>
          let '(h, r) := new_factor (t_ext s) (vdiv flux n) (vmul (vdiv flux (vsq n)) e) in
          match r with
          | Raise e => (mkshot (t_data s) (t_err s) (t_dq s) h (t_errh s), Raise e)
          | Ok p => let h := match b with Some v => put "LOCBACK" (CNum v) h | None => h end in
                    (mkshot (t_data s) (t_err s) (t_dq s) h (t_errh s), Ok (mkproduct (f_fac p) (f_err p) (f_nd p) (f_filter p) h))
          end
        end
      end
    end.
  Definition calibrate_fluxcal_aper (s : shot) (what : string) (a : option aset) : shot * result product :=
    calibrate (fun s => aper_phot s (match a with Some a => a | None => default_aset end)) s what.
  Definition calibrate_fluxcal_gauss2d (s : shot) (what : string) (g : option gset) : shot * result product :=
    calibrate (fun s => phot_by_gauss2d_fit s (match g with Some g => g | None => default_gset end)) s what.
End Phot.
