(** Fluxes and magnitudes: corgidrp/fluxcal.py 18-272 (spectra, band integrals, colour correction), 412-615
    (flux calibration factors); l4_to_tda.py determine_app_mag 15-85, determine_color_cor 87-136,
    convert_to_flux 138-170, determine_flux 320-388, calculate_zero_point 496-536; data.py FluxcalFactor 1362-1402.

    Numbers are reals; [None] stands for any result that is not a finite number.  Once a number has been divided by zero
    the result is None, also where further arithmetic with infinities would give a number.  Files, the network and the
    photometry of an image are given by an environment.  History, parents, file names and the time are not modelled. *)
From Coq Require Import List Arith Bool Reals String Ascii.
From Verif Require Import Base CosmicModel DqModel DarkModel UnitsModel.
Import ListNotations.
Local Open Scope R_scope.

(** ** scipy.integrate.simpson(y, x=x) of scipy 1.11 or later, on the points (x, y) *)
Definition over (a b : R) : R := if Req_EM_T b 0 then 0 else a / b.
Definition panel (p0 p1 p2 : R * R) : R :=
  let h0 := fst p1 - fst p0 in
  let h1 := fst p2 - fst p1 in
  let q := over h0 h1 in
  (h0 + h1) / 6 * (snd p0 * (2 - over 1 q) + snd p1 * ((h0 + h1) * over (h0 + h1) (h0 * h1)) + snd p2 * (2 - q)).
Fixpoint panels (l : list (R * R)) : R :=
  match l with p0 :: (p1 :: ((p2 :: _) as r)) => panel p0 p1 p2 + panels r | _ => 0 end.
Definition last_term (p0 p1 p2 : R * R) : R :=
  let h0 := fst p1 - fst p0 in
  let h1 := fst p2 - fst p1 in
  over (2 * h1 ^ 2 + 3 * h0 * h1) (6 * (h1 + h0)) * snd p2 + over (h1 ^ 2 + 3 * h0 * h1) (6 * h0) * snd p1 - over (h1 ^ 3) (6 * h0 * (h0 + h1)) * snd p0.
Definition simpson (l : list (R * R)) : R :=
  if Nat.even (List.length l) then
    match rev l with
    | p2 :: p1 :: p0 :: _ => panels (removelast l) + last_term p0 p1 p2
    | [p1; p0] => 1 / 2 * (fst p1 - fst p0) * (snd p1 + snd p0)
    | _ => 0
    end
  else panels l.
Definition mul (a b : list R) : list R := map (fun p => fst p * snd p) (combine a b).
Definition integral (y x : list R) : R := simpson (combine x y).

(** ** np.interp on the points p :: l, whose abscissae increase *)
Fixpoint interp (p : R * R) (l : list (R * R)) (x : R) : R :=
  match l with
  | [] => snd p
  | q :: t => if Rlt_dec x (fst q)
              then (if Rle_dec x (fst p) then snd p else (snd q - snd p) / (fst q - fst p) * (x - fst p) + snd p)
              else interp q t x
  end.

(** fluxcal.py 101-124, on the table of the file *)
Definition in_band (lo hi : R) (p : R * R) : bool := if Rle_dec (fst p) hi then if Rle_dec lo (fst p) then true else false else false.
Definition read_cal_spec (spec : list (R * R)) (grid : list R) : result (list R) :=
  match grid with
  | [] => Raise IndexError
  | g :: _ => match filter (in_band g (last grid g)) spec with
              | [] => Raise ValueError
              | p :: l => Ok (map (interp p l) grid)
              end
  end.
(** 126-143 *)
Definition band_flux (t f w : list R) : rl := rdiv (Some (integral (mul (mul f t) w) w)) (Some (integral (mul t w) w)).
(** 145-162 *)
Definition effective_lambda (t f w : list R) : rl := rdiv (Some (integral (mul (mul f t) (mul w w)) w)) (Some (integral (mul (mul f t) w) w)).
(** 164-179; the wavelengths are not zero *)
Definition pivot_lambda (t w : list R) : rl := rsqrt (rdiv (Some (integral (mul t w) w)) (Some (integral (mul t (map Rinv w)) w))).
(** 181-195 *)
Definition flux_ref (w f : list R) (x : R) : result R :=
  match combine w f with [] => Raise ValueError | p :: l => Ok (interp p l x) end.
(** 222-254 *)
Definition color_cor (t w fr : list R) (lam : R) (fs : list R) : result rl :=
  do a <- flux_ref w fs lam;
  do b <- flux_ref w fr lam;
  Ok (if Req_EM_T a 0 then None else if Req_EM_T b 0 then None
      else rdiv (Some (integral (map (fun y => y / a) (mul (mul w t) fs)) w)) (Some (integral (map (fun y => y / b) (mul (mul w t) fr)) w))).
(** 256-272 *)
Definition irradiance (t f w : list R) : R := integral (mul f t) w.
(** -2.5 np.log10: NaN or infinite unless the argument is positive *)
Definition magnitude (x : rl) : rl := match x with Some r => if Rlt_dec 0 r then Some (- (5 / 2) * (ln r / ln 10)) else None | None => None end.

(** ** Files *)
(** fluxcal.py 18-36 *)
Definition calspec_names : list (string * string) := [
  ("109 Vir", "109vir_stis_005.fits"); ("Vega", "alpha_lyr_stis_011.fits"); ("Eta Uma", "etauma_stis_008.fits"); ("Lam Lep", "lamlep_stis_008.fits"); ("KSI2 CETI", "ksi2ceti_stis_008.fits");
  ("TYC 4433-1800-1", "1808347_stiswfc_006.fits"); ("TYC 4205-1677-1", "1812095_stisnic_008.fits"); ("TYC 4212-455-1", "1757132_stiswfc_006.fits"); ("TYC 4209-1396-1", "1805292_stisnic_008.fits");
  ("TYC 4413-304-1", "p041c_stisnic_010.fits"); ("UCAC3 313-62260", "kf08t3_stisnic_005.fits"); ("BPS BS 17447-0067", "1802271_stiswfcnic_006.fits"); ("TYC 4424-1286-1", "1732526_stisnic_009.fits");
  ("GSC 02581-02323", "p330e_stiswfcnic_007.fits"); ("TYC 4207-219-1", "1740346_stisnic_005.fits")]%string.
(** [e_dir]: the files of the directory of filter curves as os.listdir gives them; [e_curve]: the columns lambda_nm and %T of such
    a file; [e_fetch]: the path to which a file of the CALSPEC archive is downloaded; [e_open]: the columns WAVELENGTH and FLUX of a
    FITS file. *)
Record env : Type := mkenv { e_dir : list string; e_curve : string -> list (R * R); e_fetch : string -> option string; e_open : string -> result (list (R * R)) }.
(** 40-62 *)
Definition lookup (s : string) : option string := option_map snd (find (fun p => String.eqb s (fst p)) calspec_names).
Definition get_calspec_file (E : env) (star : string) : result string :=
  match lookup star with
  | None => Raise ValueError
  | Some f => match e_fetch E f with Some p => Ok p | None => Raise PyException end
  end.
(** [f in name] *)
Fixpoint contains (f name : string) : bool := (prefix f name || match name with String _ t => contains f t | EmptyString => false end)%bool.
(** 64-83, the directory left out of the path *)
Definition filter_file (E : env) (cfam : option string) : result string :=
  do f <- getkey cfam;
  match filter (contains f) (e_dir E) with [] => Raise ValueError | n :: _ => Ok n end.
(** 85-99 *)
Definition filter_curve (E : env) (file : string) : list R * list R := (map (fun p => fst p * 10) (e_curve E file), map (fun p => snd p / 100) (e_curve E file)).
(** source_star.split(".")[-1] == "fits" *)
Fixpoint after_dot (s acc : string) : string :=
  match s with EmptyString => acc | String c t => if Ascii.eqb c "." then after_dot t t else after_dot t acc end.
Definition is_path (s : string) : bool := String.eqb (after_dot s s) "fits".
Definition star_file (E : env) (s : string) : result string := if is_path s then Ok s else get_calspec_file E s.
(** Opening and reading a spectrum on a grid. *)
Definition spectrum (E : env) (path : string) (w : list R) : result (list R) := do s <- e_open E path; read_cal_spec s w.

(** fluxcal.py 197-220 *)
Definition vega_mag (E : env) (flux : rl) (file : string) : result rl :=
  let '(w, t) := filter_curve E file in
  do vp <- get_calspec_file E "Vega";
  do v <- spectrum E vp w;
  Ok (magnitude (match band_flux t v w with Some b => rdiv flux (Some b) | None => None end)).

Section Frames.
Variable img : Type.
(** Photometry by aperture (false) or by a Gaussian fit (true): counts, error, background. *)
Variable phot : bool -> img -> result (R * R * R).
Record hframe : Type := mkh { h_img : img; h_target : option string; h_cfam : option string; h_colcor : option R; h_fpam : option string; h_fsam : option string }.

(** ** l4_to_tda.py 15-85: the value of APP_MAG *)
Definition app_mag_in (E : env) (file star : string) (scale : R) : result rl :=
  let '(w, t) := filter_curve E file in
  do sp <- star_file E star;
  do vp <- get_calspec_file E "Vega";
  do v <- spectrum E vp w;
  do s <- spectrum E sp w;
  Ok (magnitude (rdiv (Some (irradiance t (map (fun x => x * scale) s) w)) (Some (irradiance t v w)))).
Fixpoint same_source (E : env) (file target : string) (l : list hframe) : result unit :=
  match l with
  | [] => Ok tt
  | f :: r =>
    do n <- filter_file E (h_cfam f);
    do t <- getkey (h_target f);
    if negb (String.eqb n file) then Raise ValueError else if negb (String.eqb t target) then Raise ValueError else same_source E file target r
  end.
Definition app_mag (E : env) (l : list hframe) (star : string) (scale : R) : result rl :=
  match l with
  | [] => Raise IndexError
  | f0 :: _ =>
    do file <- filter_file E (h_cfam f0);
    do target <- getkey (h_target f0);
    do _ <- same_source E file target l;
    app_mag_in E file star scale
  end.
Definition app_mag_image (E : env) (f : hframe) (star : string) (scale : R) : result rl :=
  do file <- filter_file E (h_cfam f); app_mag_in E file star scale.

(** ** l4_to_tda.py 87-136: LAM_REF and COL_COR; the pivot wavelength is a number *)
Definition determine_color_cor (E : env) (l : list hframe) (ref_star source_star : string) : result (rl * rl) :=
  match l with
  | [] => Raise IndexError
  | f0 :: _ =>
    do file <- filter_file E (h_cfam f0);
    let '(w, t) := filter_curve E file in
    do rp <- star_file E ref_star;
    do sp <- star_file E source_star;
    do r <- spectrum E rp w;
    do s <- spectrum E sp w;
    match pivot_lambda t w with
    | Some lam => do k <- color_cor t w r lam s; Ok (Some lam, k)
    | None => Ok (None, None)
    end
  end.

(** ** Flux calibration factors, fluxcal.py 412-518 and 520-615.  First the cards written into the header of
    the image, which the product shares (those of time and version, history and LOCBACK left out). *)
Record factor : Type := mkfactor { k_fac : rl; k_err : rl; k_nd : string; k_filter : string }.
Definition nd_filter (f : hframe) : result string :=
  match h_fpam f with
  | Some n => Ok (if prefix "ND" n then n else "ND0"%string)
  | None => match h_fsam f with
            | Some n => Ok (if prefix "ND" n then n else "ND0"%string)
            | None => Raise ValueError
            end
  end.
Definition calibrate (gauss : bool) (E : env) (l : list hframe) (mode : string) : list (string * string) * result factor :=
  match l with
  | [] => ([], Raise IndexError)
  | f :: _ =>
    match (do star <- getkey (h_target f);
           do cfam <- getkey (h_cfam f);
           do file <- filter_file E (h_cfam f);
           let '(w, t) := filter_curve E file in
           do p <- get_calspec_file E star;
           do s <- spectrum E p w;
           if String.eqb mode "flux" then Ok (cfam, "erg/(s * cm^2 * AA)/(electron/s)"%string, band_flux t s w)
           else if String.eqb mode "irr" then Ok (cfam, "erg/(s * cm^2)/(electron/s)"%string, Some (irradiance t s w))
           else Raise ValueError) with
    | Raise e => ([], Raise e)
    | Ok (cfam, unit, flux) =>
      match (do v <- phot gauss (h_img f);
             let '(counts, err, _) := v in
             do nd <- nd_filter f;
             Ok (mkfactor (rdiv flux (Some counts)) (rmul (rdiv flux (Some (counts ^ 2))) (Some err)) nd cfam)) with
      | Ok k => ([("BUNIT", unit); ("DATATYPE", "FluxcalFactor"); ("DATALVL", "CAL")]%string, Ok k)
      | Raise e => ([("BUNIT", unit)]%string, Raise e)
      end
    end
  end.

(** ** l4_to_tda.py 320-388: the cards written to all the frames *)
Record cards : Type := mkcards { c_fac : rl; c_back : R; c_flux : rl; c_fluxerr : rl; c_mag : rl; c_magerr : rl }.
Definition mean (l : list R) : R := fold_right Rplus 0 l / INR (List.length l).
Definition determine_flux (E : env) (l : list hframe) (k : factor) (photo : string) (background : bool) : result cards :=
  match l with
  | [] => Raise IndexError
  | f0 :: _ =>
    let col := match h_colcor f0 with Some c => c | None => 1 end in
    let fac := rdiv (k_fac k) (Some col) in
    let facerr := rdiv (k_err k) (Some col) in
    do vs <- (if String.eqb photo "aperture" then mapR (fun f => phot false (h_img f)) l
              else if String.eqb photo "2dgauss" then mapR (fun f => phot true (h_img f)) l
              else Raise ValueError);
    let counts := mean (map (fun v => fst (fst v)) vs) in
    let err := mean (map (fun v => snd (fst v)) vs) in
    let back := if background then mean (map snd vs) else 0 in
    let flux := rmul (Some counts) fac in
    let fluxerr := rsqrt (rl_add (rmul (Some (err ^ 2)) (rl_sq fac)) (rmul (rl_sq facerr) (Some (counts ^ 2)))) in
    do file <- filter_file E (h_cfam f0);
    do m <- vega_mag E flux file;
    do _ <- getkey (h_target f0);
    Ok (mkcards (k_fac k) back flux fluxerr m (rdiv (rmul (Some (5 / 2 / ln 10)) fluxerr) flux))
  end.
(** ** l4_to_tda.py 496-536: a list of as many numbers as the photometry gives *)
Definition zero_point (E : env) (f : hframe) (star : string) (background : bool) : result (list rl) :=
  do m <- app_mag_image E f star 1;
  do v <- phot false (h_img f);
  let '(counts, err, back) := v in
  Ok (map (fun x => rl_add m (option_map Ropp (magnitude (Some x)))) ([counts; err] ++ if background then [back] else [])).
End Frames.

(** ** l4_to_tda.py 138-170: the frames with their COL_COR *)
Definition flux_frame (track : bool) (fac facerr : rl) (f : uframe) : result uframe :=
  let n := List.length (u_data f) in
  do e1 <- rescale (map (fun _ => fac) (u_data f)) n (u_err f);
  do e2 <- add_error track (map (fun d => rmul d facerr) (u_data f)) n e1;
  Ok (set_u f (map (fun d => rmul d fac) (u_data f)) e2).
Definition convert_to_flux (track : bool) (fac facerr : rl) (fs : list (option R * uframe)) : result (list (option R * uframe)) :=
  match fs with
  | [] => Raise IndexError
  | (c, _) :: _ =>
    let col := match c with Some x => x | None => 1 end in
    mapR (fun p => do o <- flux_frame track (rdiv fac (Some col)) (rdiv facerr (Some col)) (snd p); Ok (fst p, o)) fs
  end.
