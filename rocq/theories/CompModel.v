(** The measurement of companions: corgidrp/measure_companions.py measure_companions 15-234, measure_counts 258-279,
    get_photometry_kwargs 281-300.

    Values are those of FlatModel: a real number or None (NaN or an infinity), and any arithmetic with None gives None.
    Unknown functions, that may raise: pyklip's gaussfit2d [gauss] of an image, the guessed x, y, width and height (search
    radius 7, refined); GetPSF of the core throughput calibration [psf_at] (C38) of the place relative to the star; the
    optical density of the ND calibration [od] (C73); the magnitude of the host star from its spectrum [host_mag] (C42);
    the two photometries of an image about a place [aper] and [gauss2d].  Positions are real numbers.  KL_THRU has a row of
    separations, which increase, and a row of throughputs for each KL mode.  What astropy's Table does with no rows, and
    printing, are not modelled. *)
From Coq Require Import List Arith Bool Reals ZArith String.
From Verif Require Import Base DqModel CombineModel FlatModel FluxModel NearModel CardModel CtModel.
Import ListNotations.
Local Open Scope R_scope.

Record fit : Type := mkfit { f_peak : val; f_fwhm : val; f_x : val; f_y : val }.
Inductive kw : Type := KNum (x : R) | KBool (b : bool) | KText (s : string).
Definition kwargs : Type := list (string * kw).
Inductive cid : Type := Card (k : string) | Index (i : nat).
Record comp : Type := mkcomp { p_id : cid; p_x : R; p_y : R }.
Record scene : Type := mkscene {
  s_host : img;                              (* host_star_image.data *)
  s_ct : list val;                           (* third row of ct_excam *)
  s_cube : list img;                         (* ct_cal.data *)
  s_star : option R * option R;              (* STARLOCX and STARLOCY *)
  s_header : header;                         (* psf_sub_image.ext_hdr *)
  s_frames : list img;                       (* psf_sub_image.data *)
  s_thru : option (list R * list (list R)) }. (* KL_THRU, if there *)
Record crow : Type := mkrow { r_id : cid; r_x : R; r_y : R; r_counts : val; r_ratio : val; r_mag : val }.

(** 281-300 *)
Definition get_photometry_kwargs (m : string) : result kwargs :=
  let common := [("centering_method", KText "xy"); ("centroid_roi_radius", KNum 5)]%string in
  if String.eqb m "gauss2d" then Ok ([("fwhm", KNum 4); ("background_sub", KBool true); ("r_in", KNum 5); ("r_out", KNum 10)]%string ++ common)
  else if String.eqb m "aperture" then Ok ([("encircled_radius", KNum 7); ("frac_enc_energy", KNum 1); ("subpixels", KNum 10); ("background_sub", KBool true); ("r_in", KNum 5); ("r_out", KNum 10)]%string ++ common)
  else Raise ValueError.
(** np.argmax: the first NaN if there is one, else the first of the largest *)
Definition over (a b : val) : bool := match a, b with Some x, Some y => if Rlt_dec x y then true else false | Some _, None => true | None, _ => false end.
Fixpoint argmax_from (best : val) (ibest i : nat) (l : list val) : nat :=
  match l with [] => ibest | v :: t => if over best v then argmax_from v i (S i) t else argmax_from best ibest (S i) t end.
Definition argmax (l : list val) : result nat := match l with [] => Raise ValueError | v :: t => Ok (argmax_from v 0 1 t) end.
Definition log10 (a : val) : val := match a with Some x => if Rlt_dec 0 x then Some (ln x / ln 10) else None | None => None end.
Definition vsq (a : val) : val := vmul a a.
Definition vsqrt (a : val) : val := match a with Some x => if Rle_dec 0 x then Some (sqrt x) else None | None => None end.
Definition times_img (f : img) (k : val) : img := mkimg (rows f) (cols f) (fun r c => vmul (pix f r c) k).
(** Python's index of an axis of length n *)
Definition axis (n : nat) (i : Z) : result nat :=
  if ((0 <=? i) && (i <? Z.of_nat n))%Z then Ok (Z.to_nat i) else if ((- Z.of_nat n <=? i) && (i <? 0))%Z then Ok (Z.to_nat (Z.of_nat n + i)) else Raise IndexError.
Definition pixel (f : img) (r c : Z) : result val := do i <- axis (rows f) r; do j <- axis (cols f) c; Ok (pix f i j).
Definition need (o : option R) : result R := match o with Some x => Ok x | None => Raise TypeError end.
(** np.interp at a value *)
Definition interp_at (seps row : list R) (x : val) : result val :=
  match combine seps row with [] => Raise ValueError | p :: l => Ok (option_map (interp p l) x) end.

Section Comp.
  Variable gauss : img -> val -> val -> val -> val -> result fit.
  Variable psf_at : R -> R -> result img.
  Variable od : option (val -> val -> val).
  Variable host_mag : result val.
  Variables aper gauss2d : kwargs -> img -> option (R * R) -> result val.

  (** 258-279 *)
  Definition measure_counts (f : img) (m : string) (at_ : option (R * R)) (kws : kwargs) : result val :=
    if String.eqb m "gauss2d" then gauss2d kws f at_ else if String.eqb m "aperture" then aper kws f at_ else Raise ValueError.
  (** A fit about the first of the brightest pixels *)
  Definition fit_peak (f : img) (fwhm : val) : result fit :=
    do p <- brightest f; gauss f (Some (INR (snd p))) (Some (INR (fst p))) fwhm (pix f (fst p) (snd p)).
  (** 64-91: the fit of the PSF of the best throughput, and the ratio of the host star to it *)
  Definition host_scale (s : scene) : result (fit * val) :=
    do h <- fit_peak (s_host s) (Some 3);
    let peak := match od with Some d => vdiv (f_peak h) (d (f_x h) (f_y h)) | None => f_peak h end in
    do i <- argmax (s_ct s);
    do f <- match nth_error (s_cube s) i with Some f => Ok f | None => Raise IndexError end;
    do c <- fit_peak f (Some 3);
    Ok (c, vdiv (vmul peak (vsq (f_fwhm h))) (vmul (f_peak c) (vsq (f_fwhm c)))).
  (** 94-109 *)
  Definition candidate (xs ys : R) (i : nat) (c : R * R) : comp :=
    let a := (snd c + 90) * PI / 180 in mkcomp (Index i) (xs + fst c * cos a) (ys + fst c * sin a).
  Fixpoint candidates_from (star : option R * option R) (i : nat) (l : list (R * R)) : result (list comp) :=
    match l with
    | [] => Ok []
    | c :: t => do xs <- need (fst star); do ys <- need (snd star); do r <- candidates_from star (S i) t; Ok (candidate xs ys i c :: r)
    end.
  Definition companions (s : scene) (cand : option (list (R * R))) : result (list comp) :=
    match cand with
    | None => do l <- parse_companions (s_header s); Ok (map (fun q => mkcomp (Card (fst (fst q))) (snd q) (snd (fst q))) l)
    | Some l => candidates_from (s_star s) 0 l
    end.
  (** 138-162 *)
  Definition with_l4 (s : scene) (xs ys : R) (mode : Z) (h : fit) (c : comp) : result (val * val) :=
    do f <- row_at (s_frames s) mode;
    do g <- pixel f (rint (p_y c)) (rint (p_x c));
    do m <- gauss f (Some (p_x c)) (Some (p_y c)) (f_fwhm h) g;
    let sep := vsqrt (vadd (vsq (vsub (f_x m) (Some xs))) (vsq (vsub (f_y m) (Some ys)))) in
    let counts := vdiv (vdiv (vmul (vmul (Some PI) (f_peak m)) (vsq (f_fwhm m))) (Some 4)) (Some (ln 2)) in
    do t <- match s_thru s with Some t => Ok t | None => Raise KeyError end;
    do row <- row_at (snd t) mode;
    do thrp <- interp_at (fst t) row sep;
    Ok (counts, vdiv (vdiv (f_peak m) thrp) (f_peak h)).
  (** 182-212 *)
  Definition without (s : scene) (mode : Z) (method : string) (kws : kwargs) (scaled : img) (c : comp) : result (val * val) :=
    do kws <- match kws with [] => get_photometry_kwargs method | _ => Ok kws end;
    do f <- row_at (s_frames s) mode;
    do a <- measure_counts f method (Some (p_x c, p_y c)) kws;
    do b <- measure_counts scaled method None kws;
    Ok (a, vdiv a b).
  (** 115-226: one companion.  [zp] is None without a flux calibration, Some None for one without ZP *)
  Definition measure_one (s : scene) (ct : fit) (scale : val) (thrp : string) (mode : Z) (method : string) (kws : kwargs) (calspec : bool) (zp : option (option R)) (c : comp) : result crow :=
    do xs <- need (fst (s_star s));
    do ys <- need (snd (s_star s));
    do p <- psf_at (p_x c - xs) (p_y c - ys);
    let scaled := times_img p scale in
    do h <- fit_peak scaled (f_fwhm ct);
    do r <- (if String.eqb thrp "L4" then with_l4 s xs ys mode h c
             else if String.eqb thrp "KLIP-FM" then Raise NotImplementedError
             else if String.eqb thrp "None" then without s mode method kws scaled c
             else Raise ValueError);
    do m <- (if calspec then do m <- host_mag; Ok (vsub m (vmul (Some (5 / 2)) (log10 (snd r))))
             else match zp with
                  | None => Raise ValueError
                  | Some None => Raise TypeError
                  | Some (Some z) => Ok (vadd (vmul (Some (- (5 / 2))) (log10 (fst r))) (Some z))
                  end);
    Ok (mkrow (p_id c) (p_x c) (p_y c) (fst r) (snd r) m).
  Definition measure_companions (s : scene) (thrp : string) (mode : Z) (method : string) (kws : kwargs) (calspec : bool) (zp : option (option R)) (cand : option (list (R * R))) : result (list crow) :=
    do hs <- host_scale s;
    do l <- companions s cand;
    mapR (measure_one s (fst hs) (snd hs) thrp mode method kws calspec zp) l.
End Comp.
