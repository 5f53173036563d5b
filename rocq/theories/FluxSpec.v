(** Specification of fluxes and magnitudes. *)
From Coq Require Import List Arith Bool Reals String Ascii Sorting.
From Verif Require Import Base ComboSpec UnitsModel UnitsSpec FluxModel.
Import ListNotations.
Local Open Scope R_scope.

Definition increasing (x : list R) : Prop := StronglySorted Rlt x.
(** The grid starts at [x0], with the step [h]. *)
Definition even_grid (x0 h : R) (x : list R) : Prop := forall i y, nth_error x i = Some y -> y = x0 + INR i * h.
Definition times (a b : list R) : list R := map (fun p => fst p * snd p) (combine a b).

(** ** Areas under curves given by points, by Simpson's rule *)
Definition value (a b c x : R) : R := a * x ^ 2 + b * x + c.
Definition primitive (a b c x : R) : R := a * x ^ 3 / 3 + b * x ^ 2 / 2 + c * x.
Definition on_parabola (a b c : R) (p : R * R) : Prop := snd p = value a b c (fst p).
(** An odd number of points: the parabola through each point and its two successors, taken by two. *)
Inductive arcs : list (R * R) -> R -> Prop :=
| arcs_one p : arcs [p] 0
| arcs_more p0 p1 p2 r a b c v : on_parabola a b c p0 -> on_parabola a b c p1 -> on_parabola a b c p2 -> arcs (p2 :: r) v ->
    arcs (p0 :: p1 :: p2 :: r) (primitive a b c (fst p2) - primitive a b c (fst p0) + v).
(** An even number: the last interval with the parabola through the last three points; two points: a trapezium. *)
Inductive area_under : list (R * R) -> R -> Prop :=
| au_odd l v : arcs l v -> area_under l v
| au_two p0 p1 : area_under [p0; p1] ((fst p1 - fst p0) * (snd p0 + snd p1) / 2)
| au_even l p0 p1 p2 a b c v : on_parabola a b c p0 -> on_parabola a b c p1 -> on_parabola a b c p2 -> arcs (l ++ [p0; p1]) v ->
    area_under (l ++ [p0; p1; p2]) (v + (primitive a b c (fst p2) - primitive a b c (fst p1))).
Definition area (x y : list R) (v : R) : Prop := area_under (combine x y) v.

(** The curve s f + t g. *)
Definition lin (s t : R) (f g : list R) : list R := map (fun p => s * fst p + t * snd p) (combine f g).

(** ** Linear interpolation, constant outside *)
Definition interpolated (l : list (R * R)) (x y : R) : Prop :=
  (exists p r, l = p :: r /\ x <= fst p /\ y = snd p)
  \/ (exists p r, l = r ++ [p] /\ fst p <= x /\ y = snd p)
  \/ (exists u p q v, l = u ++ p :: q :: v /\ fst p <= x <= fst q /\ (y - snd p) * (fst q - fst p) = (snd q - snd p) * (x - fst p)).
(** The spectrum on the grid, from its samples between the ends of the grid. *)
Definition sampled (spec : list (R * R)) (grid out : list R) : Prop :=
  exists g l b, grid = g :: l /\ sieve (fun p => g <= fst p <= last grid g) spec b /\ b <> [] /\ Forall2 (interpolated b) grid out.

(** ** Band quantities on a grid w with the transmissions t *)
Definition quotient (x y : list R) (w : list R) (v : option R) : Prop :=
  exists n d, area w x n /\ area w y d /\ (d = 0 -> v = None) /\ (d <> 0 -> v = Some (n / d)).
Definition average_flux (t f w : list R) (v : option R) : Prop := quotient (times (times f t) w) (times t w) w v.
Definition mean_wavelength (t f w : list R) (v : option R) : Prop := quotient (times (times f t) (times w w)) (times (times f t) w) w v.
Definition pivot (t w : list R) (v : option R) : Prop :=
  exists q, quotient (times t w) (times t (map Rinv w)) w q
    /\ match q with Some x => (x < 0 -> v = None) /\ (0 <= x -> exists y, v = Some y /\ 0 <= y /\ y ^ 2 = x) | None => v = None end.
(** The colour correction at the wavelength [lam]: the ratio of the photon-weighted fluxes, each in units of the flux at [lam]. *)
Definition colour (t w r s : list R) (lam : R) (k : option R) : Prop :=
  exists a b, interpolated (combine w s) lam a /\ interpolated (combine w r) lam b
    /\ (a = 0 \/ b = 0 -> k = None)
    /\ (a <> 0 -> b <> 0 -> exists i j, area w (times (times w t) s) i /\ area w (times (times w t) r) j /\ (j = 0 -> k = None) /\ (j <> 0 -> k = Some ((i / a) / (j / b)))).
Definition is_magnitude (x : option R) (m : option R) : Prop :=
  match x with
  | Some r => (r <= 0 -> m = None) /\ (0 < r -> exists y, m = Some y /\ r = Rpower 10 (- (2 / 5) * y))
  | None => m = None
  end.

(** ** Files *)
Definition standards : list (string * string) := [
  ("109 Vir", "109vir_stis_005.fits"); ("Vega", "alpha_lyr_stis_011.fits"); ("Eta Uma", "etauma_stis_008.fits"); ("Lam Lep", "lamlep_stis_008.fits"); ("KSI2 CETI", "ksi2ceti_stis_008.fits");
  ("TYC 4433-1800-1", "1808347_stiswfc_006.fits"); ("TYC 4205-1677-1", "1812095_stisnic_008.fits"); ("TYC 4212-455-1", "1757132_stiswfc_006.fits"); ("TYC 4209-1396-1", "1805292_stisnic_008.fits");
  ("TYC 4413-304-1", "p041c_stisnic_010.fits"); ("UCAC3 313-62260", "kf08t3_stisnic_005.fits"); ("BPS BS 17447-0067", "1802271_stiswfcnic_006.fits"); ("TYC 4424-1286-1", "1732526_stisnic_009.fits");
  ("GSC 02581-02323", "p330e_stiswfcnic_007.fits"); ("TYC 4207-219-1", "1740346_stisnic_005.fits")]%string.
Definition occurs (s name : string) : Prop := exists a b, name = (a ++ s ++ b)%string.
(** The first file whose name contains the name of the filter. *)
Definition curve_of (E : env) (name file : string) : Prop :=
  exists before after, e_dir E = before ++ file :: after /\ occurs name file /\ forall n, In n before -> ~ occurs name n.
(** The directory that is shipped: the curves of the colour filters, and other files. *)
Definition colour_filters : list (string * string) := [
  ("1F", "transmission_ID-01_1F_v0.csv");
  ("2F", "transmission_ID-02_2F_v0.csv"); ("3F", "transmission_ID-03_3F_v0.csv"); ("4F", "transmission_ID-04_4F_v0.csv"); ("1A", "transmission_ID-05_1A_v0.csv"); ("1B", "transmission_ID-06_1B_v0.csv");
  ("1C", "transmission_ID-07_1C_v0.csv"); ("2A", "transmission_ID-08_2A_v0.csv"); ("2B", "transmission_ID-09_2B_v0.csv"); ("2C", "transmission_ID-10_2C_v0.csv");
  ("3A", "transmission_ID-11_3A_v0.csv"); ("3B", "transmission_ID-12_3B_v0.csv"); ("3D", "transmission_ID-14_3D_v0.csv"); ("3E", "transmission_ID-15_3E_v0.csv");
  ("4A", "transmission_ID-16_4A_v0.csv"); ("4B", "transmission_ID-17_4B_v0.csv"); ("4C", "transmission_ID-18_4C_v0.csv"); ("3C", "transmission_ID-21_3C_v0.csv"); ("3G", "transmission_ID-22_3G_v0.csv")]%string.
Definition other_files : list string := ["imaging_lens_v0.txt"; "pupil_lens_v0.txt"]%string.
(** The grid (from nanometres to Angstroems) and the transmissions (from per cent). *)
Definition band (E : env) (file : string) (w t : list R) : Prop :=
  List.length w = List.length t /\ e_curve E file = combine (map (fun x => x / 10) w) (map (fun x => x * 100) t).
(** The star is a standard star, or the path of a FITS file. *)
Definition standard (E : env) (star path : string) : Prop := exists file, In (star, file) standards /\ e_fetch E file = Some path.
Definition ends_in_fits (s : string) : Prop := s = "fits"%string \/ exists a, s = (a ++ ".fits")%string.
Definition spectrum_file (E : env) (star path : string) : Prop := ends_in_fits star /\ path = star \/ ~ ends_in_fits star /\ standard E star path.
Definition spectrum_on (E : env) (path : string) (w f : list R) : Prop := exists s, e_open E path = Ok s /\ sampled s w f.
Definition sorted_files (E : env) : Prop := (forall p s, e_open E p = Ok s -> increasing (map fst s)) /\ (forall f, increasing (map fst (e_curve E f))).

Section Spec.
Variable img : Type.
Variable phot : bool -> img -> result (R * R * R).
Notation hframe := (hframe img).

(** ** Magnitudes of a known spectrum *)
Definition magnitude_in (E : env) (file star : string) (scale : R) (m : option R) : Prop :=
  exists w t sp vp s v i j, band E file w t /\ spectrum_file E star sp /\ standard E "Vega" vp /\ spectrum_on E vp w v /\ spectrum_on E sp w s
    /\ area w (times (map (fun x => x * scale) s) t) i /\ area w (times v t) j /\ is_magnitude (if Req_EM_T j 0 then None else Some (i / j)) m.
Definition one_source (E : env) (file : string) (l : list hframe) : Prop :=
  exists t, Forall (fun f => h_target _ f = Some t /\ exists n, h_cfam _ f = Some n /\ curve_of E n file) l.

(** ** Colour correction of a dataset *)
Definition colour_cards (E : env) (l : list hframe) (ref_star source_star : string) (lam k : option R) : Prop :=
  exists f0 l' n file w t rp sp r s, l = f0 :: l' /\ h_cfam _ f0 = Some n /\ curve_of E n file /\ band E file w t /\ spectrum_file E ref_star rp /\ spectrum_file E source_star sp
    /\ spectrum_on E rp w r /\ spectrum_on E sp w s /\ pivot t w lam /\ match lam with Some x => colour t w r s x k | None => k = None end.

(** ** The flux of a standard star in its band, in both modes *)
Definition star_flux (E : env) (f : hframe) (mode : string) (flux : option R) : Prop :=
  exists star n file w t p s, h_target _ f = Some star /\ h_cfam _ f = Some n /\ curve_of E n file /\ band E file w t /\ standard E star p /\ spectrum_on E p w s
    /\ (mode = "flux"%string /\ average_flux t s w flux \/ mode = "irr"%string /\ exists i, area w (times s t) i /\ flux = Some i).
Definition neutral (f : hframe) (nd : string) : Prop :=
  exists n, (h_fpam _ f = Some n \/ h_fpam _ f = None /\ h_fsam _ f = Some n)
    /\ ((exists t, n = ("ND" ++ t)%string) /\ nd = n \/ (~ exists t, n = ("ND" ++ t)%string) /\ nd = "ND0"%string).
Definition unit_of (mode unit : string) : Prop :=
  mode = "flux"%string /\ unit = "erg/(s * cm^2 * AA)/(electron/s)"%string \/ mode = "irr"%string /\ unit = "erg/(s * cm^2)/(electron/s)"%string.
(** The cards the frame gets when a factor is made from it. *)
Definition marked (unit : string) : list (string * string) := [("BUNIT", unit); ("DATATYPE", "FluxcalFactor"); ("DATALVL", "CAL")]%string.
Definition factor_of (gauss : bool) (E : env) (l : list hframe) (mode : string) (k : factor) : Prop :=
  exists f r flux c e b, l = f :: r /\ star_flux E f mode flux /\ phot gauss (h_img _ f) = Ok (c, e, b) /\ neutral f (k_nd k) /\ h_cfam _ f = Some (k_filter k)
    /\ (flux = None \/ c = 0 -> k_fac k = None /\ k_err k = None)
    /\ (forall x, flux = Some x -> c <> 0 -> k_fac k = Some (x / c) /\ k_err k = Some (x / c * (e / c))).

(** ** The flux of a source from its counts *)
Definition is_mean_of (l : list R) (m : R) : Prop := m * INR (List.length l) = fold_right Rplus 0 l.
Definition flux_cards (E : env) (l : list hframe) (k : factor) (photo : string) (background : bool) (d : cards) : Prop :=
  exists f0 r gauss vs c e b n file w t vp v vega target,
    l = f0 :: r /\ (photo = "aperture"%string /\ gauss = false \/ photo = "2dgauss"%string /\ gauss = true)
    /\ Forall2 (fun f x => phot gauss (h_img _ f) = Ok x) l vs
    /\ is_mean_of (map (fun x => fst (fst x)) vs) c /\ is_mean_of (map (fun x => snd (fst x)) vs) e /\ is_mean_of (map snd vs) b
    /\ h_cfam _ f0 = Some n /\ curve_of E n file /\ band E file w t /\ standard E "Vega" vp /\ spectrum_on E vp w v /\ average_flux t v w vega
    /\ h_target _ f0 = Some target
    /\ c_fac d = k_fac k /\ c_back d = (if background then b else 0)
    /\ let col := match h_colcor _ f0 with Some x => x | None => 1 end in
       match k_fac k, k_err k with
       | Some fac, Some ferr => if Req_EM_T col 0 then c_flux d = None /\ c_fluxerr d = None /\ c_mag d = None /\ c_magerr d = None else
           exists s, c_flux d = Some (c * fac / col) /\ c_fluxerr d = Some s /\ 0 <= s /\ s ^ 2 = (e * fac / col) ^ 2 + (c * ferr / col) ^ 2
             /\ is_magnitude (match vega with Some y => if Req_EM_T y 0 then None else Some (c * fac / col / y) | None => None end) (c_mag d)
             /\ c_magerr d = (if Req_EM_T (c * fac / col) 0 then None else Some (5 / 2 / ln 10 * s / (c * fac / col)))
       | _, _ => True
       end.
(** The zero points: the magnitude of the star and of one count per second each of its counts, their error and their background. *)
Definition zero_points (E : env) (f : hframe) (star : string) (background : bool) (zs : list (option R)) : Prop :=
  exists n file m c e b, h_cfam _ f = Some n /\ curve_of E n file /\ magnitude_in E file star 1 m /\ phot false (h_img _ f) = Ok (c, e, b)
    /\ Forall2 (fun x z => match m with Some y => (x <= 0 -> z = None) /\ (0 < x -> exists u, z = Some u /\ x = Rpower 10 (2 / 5 * (u - y))) | None => z = None end)
         (c :: e :: if background then [b] else []) zs.
End Spec.

(** ** Images in flux units: pixels and all error layers are multiplied, and the error of the factor is added *)
Definition fluxed (track : bool) (n : nat) (fac ferr : R) (f o : uframe) : Prop :=
  same_meta f o /\ well_formed n o /\ List.length (u_err o) = (List.length (u_err f) + if track then 1 else 0)%nat
  /\ (forall i d e, pixel f i d e -> exists e', pixel o i (d * fac) e' /\ 0 <= e' /\ e' ^ 2 = (e * fac) ^ 2 + (d * ferr) ^ 2)
  /\ (forall i, nth_error (u_data f) i = Some None -> nth_error (u_data o) i = Some None /\ layer_px o 0 i None)
  /\ (forall i, layer_px f 0 i None -> layer_px o 0 i None)
  /\ (forall j i x, (0 < j)%nat -> layer_px f j i (Some x) -> layer_px o j i (Some (x * fac)))
  /\ (forall j i, (0 < j)%nat -> layer_px f j i None -> layer_px o j i None)
  /\ (track = true -> forall i d, nth_error (u_data f) i = Some (Some d) -> layer_px o (List.length (u_err f)) i (Some (d * ferr))).
(** COL_COR of the first frame, 1 if it has none. *)
Definition first_col (fs : list (option R * uframe)) (col : R) : Prop := exists c f r, fs = (c, f) :: r /\ (c = Some col \/ c = None /\ col = 1).
