(** What is measured of companions. *)
From Coq Require Import List Arith Bool Reals ZArith String.
From Verif Require Import Base DqModel CombineModel FlatModel FluxModel FluxSpec NearModel NearSpec CardModel CtModel CtSpec CompModel.
Import ListNotations.
Local Open Scope R_scope.

Definition fitter : Type := img -> val -> val -> val -> val -> result fit.
Definition meter : Type := kwargs -> img -> option (R * R) -> result val.
(** A fit that starts from the first of the brightest pixels. *)
Definition fitted (gauss : fitter) (f : img) (width : val) (r : fit) : Prop :=
  exists p, is_peak f p /\ gauss f (Some (INR (snd p))) (Some (INR (fst p))) width (value_of f p) = Ok r.
(** The first value that is NaN, or else the first of the largest. *)
Definition best (l : list val) (i : nat) : Prop :=
  (nth_error l i = Some None /\ forall j, (j < i)%nat -> nth_error l j <> Some None) \/
  (exists v, nth_error l i = Some (Some v) /\ forall j x, nth_error l j = Some x -> exists w, x = Some w /\ w <= v /\ ((j < i)%nat -> w < v)).
Definition unfiltered (od : option (val -> val -> val)) (h : fit) (v : val) : Prop :=
  (od = None /\ v = f_peak h) \/ exists d, od = Some d /\ v = quot (f_peak h) (d (f_x h) (f_y h)).
(** Height times square of the width. *)
Definition volume (peak fwhm : val) : val := prod peak (prod fwhm fwhm).
(** The PSF of the best throughput and how much brighter the host star is. *)
Definition scale_of (gauss : fitter) (od : option (val -> val -> val)) (s : scene) (c : fit) (k : val) : Prop :=
  exists h v i f, fitted gauss (s_host s) (Some 3) h /\ unfiltered od h v /\ best (s_ct s) i /\ nth_error (s_cube s) i = Some f /\ fitted gauss f (Some 3) c /\
    k = quot (volume v (f_fwhm h)) (volume (f_peak c) (f_fwhm c)).
(** ** Where companions are: from the cards, or at separations and position angles from +y towards -x *)
Definition in_degrees (a : R) : R := a * PI / 180.
Definition listed (s : scene) (cand : option (list (R * R))) (l : list comp) : Prop :=
  (cand = None /\ exists q, parse_companions (s_header s) = Ok q /\ Forall2 (fun a c => c = mkcomp (Card (fst (fst a))) (snd a) (snd (fst a))) q l) \/
  (exists cs, cand = Some cs /\ List.length l = List.length cs /\
     forall i sep pa, nth_error cs i = Some (sep, pa) -> exists xs ys, s_star s = (Some xs, Some ys) /\ nth_error l i = Some (mkcomp (Index i) (xs - sep * sin (in_degrees pa)) (ys + sep * cos (in_degrees pa)))).
(** ** One companion *)
Definition multiplied (k : val) (f : img) : img := mkimg (rows f) (cols f) (fun r c => prod (pix f r c) k).
Definition axis_names (n : nat) (z : Z) (k : nat) : Prop := (k < n)%nat /\ (z = Z.of_nat k \/ (z + Z.of_nat n = Z.of_nat k /\ z < 0))%Z.
Definition away (x y : val) (xs ys : R) (d : val) : Prop :=
  match x, y with Some a, Some b => d = Some (sqrt ((a - xs) ^ 2 + (b - ys) ^ 2)) | _, _ => d = None end.
Definition gaussian_counts (m : fit) (n : val) : Prop :=
  match f_peak m, f_fwhm m with Some p, Some w => n = Some (PI * p * w ^ 2 / (4 * ln 2)) | _, _ => n = None end.
Definition thru_at (seps row : list R) (d t : val) : Prop := seps <> [] /\ match d with Some x => exists y, t = Some y /\ interpolated (combine seps row) x y | None => t = None end.
Definition l4_measured (gauss : fitter) (s : scene) (xs ys : R) (mode : Z) (h : fit) (c : comp) (n r : val) : Prop :=
  exists f zy zx iy ix m d seps modes row t,
    named_by (s_frames s) mode f /\ rounds (p_y c) zy /\ rounds (p_x c) zx /\ axis_names (rows f) zy iy /\ axis_names (cols f) zx ix /\
    gauss f (Some (p_x c)) (Some (p_y c)) (f_fwhm h) (pix f iy ix) = Ok m /\ away (f_x m) (f_y m) xs ys d /\ gaussian_counts m n /\
    s_thru s = Some (seps, modes) /\ named_by modes mode row /\ thru_at seps row d t /\ r = quot (quot (f_peak m) t) (f_peak h).
Definition default_kwargs (m : string) (k : kwargs) : Prop :=
  (m = "gauss2d"%string /\ k = [("fwhm", KNum 4); ("background_sub", KBool true); ("r_in", KNum 5); ("r_out", KNum 10); ("centering_method", KText "xy"); ("centroid_roi_radius", KNum 5)]%string) \/
  (m = "aperture"%string /\ k = [("encircled_radius", KNum 7); ("frac_enc_energy", KNum 1); ("subpixels", KNum 10); ("background_sub", KBool true); ("r_in", KNum 5); ("r_out", KNum 10); ("centering_method", KText "xy"); ("centroid_roi_radius", KNum 5)]%string).
Definition counted (aper gauss2d : meter) (m : string) (k : kwargs) (f : img) (p : option (R * R)) (v : val) : Prop :=
  (m = "gauss2d"%string /\ gauss2d k f p = Ok v) \/ (m = "aperture"%string /\ aper k f p = Ok v).
Definition plain_measured (aper gauss2d : meter) (s : scene) (mode : Z) (m : string) (kws : kwargs) (scaled : img) (c : comp) (n r : val) : Prop :=
  exists k f b, ((kws <> [] /\ k = kws) \/ (kws = [] /\ default_kwargs m k)) /\ named_by (s_frames s) mode f /\ counted aper gauss2d m k f (Some (p_x c, p_y c)) n /\ counted aper gauss2d m k scaled None b /\ r = quot n b.
Definition log_of (a b : val) : Prop := match a with Some x => (0 < x /\ exists y, b = Some y /\ exp (y * ln 10) = x) \/ (x <= 0 /\ b = None) | None => b = None end.
Definition magnitude (host_mag : result val) (calspec : bool) (zp : option (option R)) (n r m : val) : Prop :=
  (calspec = true /\ exists h l, host_mag = Ok h /\ log_of r l /\ m = match h, l with Some a, Some b => Some (a - 5 / 2 * b) | _, _ => None end) \/
  (calspec = false /\ exists z l, zp = Some (Some z) /\ log_of n l /\ m = match l with Some b => Some (z - 5 / 2 * b) | None => None end).
Definition measured (gauss : fitter) (psf_at : R -> R -> result img) (host_mag : result val) (aper gauss2d : meter) (s : scene) (ct : fit) (k : val) (thrp : string) (mode : Z) (method : string) (kws : kwargs) (calspec : bool) (zp : option (option R)) (c : comp) (row : crow) : Prop :=
  exists xs ys p h, s_star s = (Some xs, Some ys) /\ psf_at (p_x c - xs) (p_y c - ys) = Ok p /\ fitted gauss (multiplied k p) (f_fwhm ct) h /\
    ((thrp = "L4"%string /\ l4_measured gauss s xs ys mode h c (r_counts row) (r_ratio row)) \/
     (thrp = "None"%string /\ plain_measured aper gauss2d s mode method kws (multiplied k p) c (r_counts row) (r_ratio row))) /\
    magnitude host_mag calspec zp (r_counts row) (r_ratio row) (r_mag row) /\ r_id row = p_id c /\ r_x row = p_x c /\ r_y row = p_y c.
(** ** Refusals, in the order in which they are met *)
Definition fit_refused (gauss : fitter) (f : img) (width : val) (e : exn) : Prop :=
  ((forall p, inside_of f p -> value_of f p = None) /\ e = ValueError) \/
  exists p, is_peak f p /\ gauss f (Some (INR (snd p))) (Some (INR (fst p))) width (value_of f p) = Raise e.
Definition scale_refused (gauss : fitter) (s : scene) (e : exn) : Prop :=
  fit_refused gauss (s_host s) (Some 3) e \/
  (exists h, fitted gauss (s_host s) (Some 3) h) /\
  ((s_ct s = [] /\ e = ValueError) \/
   exists i, best (s_ct s) i /\ ((nth_error (s_cube s) i = None /\ e = IndexError) \/ exists f, nth_error (s_cube s) i = Some f /\ fit_refused gauss f (Some 3) e)).
Definition star_missing (s : scene) : Prop := fst (s_star s) = None \/ snd (s_star s) = None.
Definition list_refused (s : scene) (cand : option (list (R * R))) (e : exn) : Prop :=
  (cand = None /\ parse_companions (s_header s) = Raise e) \/ ((exists c cs, cand = Some (c :: cs)) /\ star_missing s /\ e = TypeError).
Definition l4_refused (gauss : fitter) (s : scene) (mode : Z) (h : fit) (c : comp) (e : exn) : Prop :=
  ((forall f, ~ named_by (s_frames s) mode f) /\ e = IndexError) \/
  exists f zy zx, named_by (s_frames s) mode f /\ rounds (p_y c) zy /\ rounds (p_x c) zx /\
    ((((forall k, ~ axis_names (rows f) zy k) \/ (forall k, ~ axis_names (cols f) zx k)) /\ e = IndexError) \/
     exists iy ix, axis_names (rows f) zy iy /\ axis_names (cols f) zx ix /\
       (gauss f (Some (p_x c)) (Some (p_y c)) (f_fwhm h) (pix f iy ix) = Raise e \/
        (exists m, gauss f (Some (p_x c)) (Some (p_y c)) (f_fwhm h) (pix f iy ix) = Ok m) /\
        ((s_thru s = None /\ e = KeyError) \/
         exists seps modes, s_thru s = Some (seps, modes) /\
           (((forall row, ~ named_by modes mode row) /\ e = IndexError) \/ ((exists row, named_by modes mode row) /\ seps = [] /\ e = ValueError))))).
Definition no_method (m : string) : Prop := m <> "gauss2d"%string /\ m <> "aperture"%string.
Definition count_refused (aper gauss2d : meter) (m : string) (k : kwargs) (f : img) (p : option (R * R)) (e : exn) : Prop :=
  (m = "gauss2d"%string /\ gauss2d k f p = Raise e) \/ (m = "aperture"%string /\ aper k f p = Raise e) \/ (no_method m /\ e = ValueError).
Definition plain_refused (aper gauss2d : meter) (s : scene) (mode : Z) (m : string) (kws : kwargs) (scaled : img) (c : comp) (e : exn) : Prop :=
  (kws = [] /\ no_method m /\ e = ValueError) \/
  exists k, ((kws <> [] /\ k = kws) \/ (kws = [] /\ default_kwargs m k)) /\
    (((forall f, ~ named_by (s_frames s) mode f) /\ e = IndexError) \/
     exists f, named_by (s_frames s) mode f /\
       (count_refused aper gauss2d m k f (Some (p_x c, p_y c)) e \/
        (exists n, counted aper gauss2d m k f (Some (p_x c, p_y c)) n) /\ count_refused aper gauss2d m k scaled None e)).
Definition mag_refused (host_mag : result val) (calspec : bool) (zp : option (option R)) (e : exn) : Prop :=
  (calspec = true /\ host_mag = Raise e) \/ (calspec = false /\ zp = None /\ e = ValueError) \/ (calspec = false /\ zp = Some None /\ e = TypeError).
Definition refused (gauss : fitter) (psf_at : R -> R -> result img) (host_mag : result val) (aper gauss2d : meter) (s : scene) (ct : fit) (k : val) (thrp : string) (mode : Z) (method : string) (kws : kwargs) (calspec : bool) (zp : option (option R)) (c : comp) (e : exn) : Prop :=
  (star_missing s /\ e = TypeError) \/
  exists xs ys, s_star s = (Some xs, Some ys) /\
   (psf_at (p_x c - xs) (p_y c - ys) = Raise e \/
    exists p, psf_at (p_x c - xs) (p_y c - ys) = Ok p /\
     (fit_refused gauss (multiplied k p) (f_fwhm ct) e \/
      exists h, fitted gauss (multiplied k p) (f_fwhm ct) h /\
       ((thrp = "L4"%string /\ l4_refused gauss s mode h c e) \/
        (thrp = "None"%string /\ plain_refused aper gauss2d s mode method kws (multiplied k p) c e) \/
        (thrp = "KLIP-FM"%string /\ e = NotImplementedError) \/
        (thrp <> "L4"%string /\ thrp <> "None"%string /\ thrp <> "KLIP-FM"%string /\ e = ValueError) \/
        (exists n r, (thrp = "L4"%string /\ l4_measured gauss s xs ys mode h c n r) \/ (thrp = "None"%string /\ plain_measured aper gauss2d s mode method kws (multiplied k p) c n r)) /\
        mag_refused host_mag calspec zp e))).
(** The separations of the throughputs increase, and every row has one for each. *)
Definition thru_ok (s : scene) : Prop := forall seps modes, s_thru s = Some (seps, modes) -> increasing seps /\ forall row, In row modes -> List.length row = List.length seps.
(** ** Fits and brightness *)
(** A fit of an image [k] times as bright is [k] times as high. *)
Definition homogeneous (gauss : fitter) : Prop :=
  forall k f g x y w v r, 0 < k -> brighter k f g -> gauss f x y w v = Ok r -> gauss g x y w (option_map (Rmult k) v) = Ok (mkfit (option_map (Rmult k) (f_peak r)) (f_fwhm r) (f_x r) (f_y r)).
Definition linear_meter (m : meter) : Prop := forall q k f g p v, 0 < q -> brighter q f g -> m k f p = Ok v -> m k g p = Ok (option_map (Rmult q) v).
Definition with_host (s : scene) (f : img) : scene := mkscene f (s_ct s) (s_cube s) (s_star s) (s_header s) (s_frames s) (s_thru s).
Definition with_cube (s : scene) (l : list img) : scene := mkscene (s_host s) (s_ct s) l (s_star s) (s_header s) (s_frames s) (s_thru s).
Definition psfs_brighter (q : R) (f g : R -> R -> result img) : Prop := forall x y p, f x y = Ok p -> exists p', g x y = Ok p' /\ brighter q p p'.
(** The same row for a host star taken to be [q] times as bright. *)
Definition fainter (calspec : bool) (q : R) (a b : crow) : Prop :=
  r_id b = r_id a /\ r_x b = r_x a /\ r_y b = r_y a /\ r_counts b = r_counts a /\ r_ratio b = option_map (fun r => r / q) (r_ratio a) /\
  r_mag b = if calspec then option_map (fun m => m + 5 / 2 * (ln q / ln 10)) (r_mag a) else r_mag a.
