(** What photometry and flux calibration give. *)
From Coq Require Import List Arith Bool Reals ZArith String.
From Verif Require Import Base CombineModel ComboSpec FlatModel FlatSpec NearSpec CtModel CtSpec PhotModel.
Import ListNotations.
Local Open Scope R_scope.

Definition finder : Type := shot -> result (R * R).
Definition backer : Type := R -> R -> img -> (nat -> nat -> bool) -> val -> val -> result val.
Definition sharer : Type := string -> nat -> R -> val -> val -> nat -> nat -> result (option (nat -> nat -> R)).
Definition gfitter : Type := img -> val -> val -> R -> Z -> (nat -> nat -> bool) -> img -> result (val * val).
(** ** The centre *)
(** The pixels of an axis within [r] of [k]; of a square wholly before the axis, all but the last ones. *)
Definition window (n : nat) (k : Z) (r i : nat) : Prop :=
  ((0 <= k + Z.of_nat r + 1 /\ k - Z.of_nat r <= Z.of_nat i <= k + Z.of_nat r) \/ (k + Z.of_nat r + 1 < 0 /\ Z.of_nat i < Z.of_nat n + (k + Z.of_nat r + 1)))%Z.
Definition placed_about (f : img) (r : nat) (gx gy : R) (x y : val) : Prop :=
  exists zx zy ps s sx sy, rounds gx zx /\ rounds gy zy /\ sieve (fun q => window (rows f) zy r (fst q) /\ window (cols f) zx r (snd q)) (places f) ps /\
    moment f ps (fun _ => 1) s /\ moment f ps (fun q => INR (snd q)) sx /\ moment f ps (fun q => INR (fst q)) sy /\
    (s = Some 0 -> x = Some (IZR zx) /\ y = Some (IZR zy)) /\ (s <> Some 0 -> x = quot sx s /\ y = quot sy s).
Definition guess_of (g : option (option R * option R)) (x y : R) : Prop := g = Some (Some x, Some y).
Definition placed (wcs_at : finder) (s : shot) (centring : string) (roi : nat) (g : option (option R * option R)) (x y : val) : Prop :=
  (centring = "wcs"%string /\ exists a b, wcs_at s = Ok (a, b) /\ x = Some (a + 1) /\ y = Some (b + 1)) \/
  (centring = "xy"%string /\ ((exists gx gy, guess_of g gx gy /\ placed_about (t_data s) roi gx gy x y) \/ ((forall gx gy, ~ guess_of g gx gy) /\ position (t_data s) roi x y))).
(** ** The background *)
Definition mask_of (s : shot) (i j : nat) : bool := negb (Z.eqb (t_dq s i j) 0).
Definition diff (a b : val) : val := match a, b with Some x, Some y => Some (x - y) | _, _ => None end.
Definition lowered (f : img) (b : option val) : img := match b with Some v => mkimg (rows f) (cols f) (fun i j => diff (pix f i j) v) | None => f end.
Definition background (local_back : backer) (s : shot) (on : bool) (r_in r_out : R) (x y : val) (b : option val) : Prop :=
  (on = true /\ exists v, local_back r_in r_out (t_data s) (mask_of s) x y = Ok v /\ b = Some v) \/ (on = false /\ b = None).
(** ** The sum in the aperture: pixels with a share in it that are not flagged *)
Definition counts_in (s : shot) (w : nat -> nat -> R) (p : nat * nat) : Prop := 0 < w (fst p) (snd p) /\ t_dq s (fst p) (snd p) = 0%Z.
Definition share (w : nat -> nat -> R) (p : nat * nat) : val := Some (w (fst p) (snd p)).
Definition apertured (wcs_at : finder) (local_back : backer) (overlap : sharer) (s : shot) (a : aset) (n e : val) (b : option val) : Prop :=
  0 < a_fee a <= 1 /\ exists x y w, placed wcs_at s (a_centring a) (a_roi a) (a_guess a) x y /\ background local_back s (a_back a) (a_in a) (a_out a) x y b /\
    overlap (a_method a) (a_sub a) (a_radius a) x y (rows (t_data s)) (cols (t_data s)) = Ok w /\
    match w with
    | None => n = None /\ e = None
    | Some w => exists ps u v, sieve (counts_in s w) (places (t_data s)) ps /\
        total (map (fun p => prod (share w p) (value_of (lowered (t_data s) b) p)) ps) u /\ n = quot u (Some (a_fee a)) /\
        total (map (fun p => prod (share w p) (prod (value_of (t_err s) p) (value_of (t_err s) p))) ps) v /\ e = quot (option_map sqrt v) (Some (a_fee a))
    end.
Definition place_refused (wcs_at : finder) (s : shot) (centring : string) (g : option (option R * option R)) (e : exn) : Prop :=
  (centring = "wcs"%string /\ wcs_at s = Raise e) \/
  (centring = "xy"%string /\ (forall gx gy, ~ guess_of g gx gy) /\ (forall p, inside_of (t_data s) p -> value_of (t_data s) p = None) /\ e = ValueError) \/
  (centring <> "wcs"%string /\ centring <> "xy"%string /\ e = ValueError).
Definition aper_refused (wcs_at : finder) (local_back : backer) (overlap : sharer) (s : shot) (a : aset) (e : exn) : Prop :=
  (~ 0 < a_fee a <= 1 /\ e = ValueError) \/
  0 < a_fee a <= 1 /\
  (place_refused wcs_at s (a_centring a) (a_guess a) e \/
   exists x y, placed wcs_at s (a_centring a) (a_roi a) (a_guess a) x y /\
     ((a_back a = true /\ local_back (a_in a) (a_out a) (t_data s) (mask_of s) x y = Raise e) \/
      (exists b, background local_back s (a_back a) (a_in a) (a_out a) x y b) /\ overlap (a_method a) (a_sub a) (a_radius a) x y (rows (t_data s)) (cols (t_data s)) = Raise e)).
(** ** The Gaussian fit *)
Definition no_zeros (f : img) : img := mkimg (rows f) (cols f) (fun i j => match pix f i j with Some x => if Req_EM_T x 0 then Some (/ 2 ^ 23) else Some x | None => None end).
Definition shape_of (s : shot) (o : option Z) (n : Z) : Prop := o = Some n \/ (o = None /\ n = (Z.of_nat (rows (t_data s)) - 1)%Z).
Definition gaussed (wcs_at : finder) (local_back : backer) (gauss_fit : gfitter) (s : shot) (g : gset) (n e : val) (b : option val) : Prop :=
  exists x y k, placed wcs_at s (g_centring g) (g_roi g) (g_guess g) x y /\ background local_back s (g_back g) (g_in g) (g_out g) x y b /\ shape_of s (g_shape g) k /\
    gauss_fit (lowered (t_data s) b) x y (g_fwhm g) k (mask_of s) (no_zeros (t_err s)) = Ok (n, e).
Definition gauss_refused (wcs_at : finder) (local_back : backer) (gauss_fit : gfitter) (s : shot) (g : gset) (e : exn) : Prop :=
  place_refused wcs_at s (g_centring g) (g_guess g) e \/
  exists x y, placed wcs_at s (g_centring g) (g_roi g) (g_guess g) x y /\
    ((g_back g = true /\ local_back (g_in g) (g_out g) (t_data s) (mask_of s) x y = Raise e) \/
     exists b k, background local_back s (g_back g) (g_in g) (g_out g) x y b /\ shape_of s (g_shape g) k /\ gauss_fit (lowered (t_data s) b) x y (g_fwhm g) k (mask_of s) (no_zeros (t_err s)) = Raise e).
(** ** The factor *)
Inductive card : cards -> string -> cval -> Prop :=
| card_here : forall k v h, card ((k, v) :: h) k v
| card_later : forall a w k v h, a <> k -> card h k v -> card ((a, w) :: h) k v.
Definition no_card (h : cards) (k : string) : Prop := forall v, ~ card h k v.
(** [h'] is [h] with these cards, the first of a name before the others *)
Definition with_cards (new : list (string * cval)) (h h' : cards) : Prop :=
  forall k v, card h' k v <-> card new k v \/ (no_card new k /\ card h k v).
Definition unit_of (what unit : string) : Prop :=
  (what = "flux" /\ unit = "erg/(s * cm^2 * AA)/(electron/s)")%string \/ (what = "irr" /\ unit = "erg/(s * cm^2)/(electron/s)")%string.
Definition band {curve} (band_flux band_irr : curve -> val) (what : string) (c : curve) (v : val) : Prop :=
  (what = "flux"%string /\ v = band_flux c) \/ (what = "irr"%string /\ v = band_irr c).
Definition same_pixels (s s' : shot) : Prop := t_data s' = t_data s /\ t_err s' = t_err s /\ t_dq s' = t_dq s.
Definition relabelled (unit : string) (s s' : shot) : Prop :=
  same_pixels s s' /\ with_cards [("BUNIT"%string, CText unit)] (t_ext s) (t_ext s') /\ with_cards [("BUNIT"%string, CText unit)] (t_errh s) (t_errh s').
Definition density_name (h : cards) (nd : string) : Prop :=
  exists v, (card h "FPAMNAME" v \/ (no_card h "FPAMNAME" /\ card h "FSAMNAME" v)) /\
    ((v = CText nd /\ String.prefix "ND" nd = true) \/ ((forall t, v = CText t -> String.prefix "ND" t = false) /\ nd = "ND0"%string)).
Definition new_cards (unit : string) (b : option val) : list (string * cval) :=
  [("BUNIT"%string, CText unit); ("DATATYPE"%string, CText "FluxcalFactor"); ("DATALVL"%string, CText "CAL")] ++ match b with Some v => [("LOCBACK"%string, CNum v)] | None => [] end.
(** ** Images of stars *)
Definition brighter_shot (k : R) (s s' : shot) : Prop := brighter k (t_data s) (t_data s') /\ brighter k (t_err s) (t_err s') /\ t_dq s' = t_dq s.
Definition same_off_flags (s s' : shot) : Prop :=
  rows (t_data s') = rows (t_data s) /\ cols (t_data s') = cols (t_data s) /\ t_dq s' = t_dq s /\
  forall p, t_dq s (fst p) (snd p) = 0%Z -> value_of (t_data s') p = value_of (t_data s) p /\ value_of (t_err s') p = value_of (t_err s) p.
Definition on_sky (c : R) (s s' : shot) : Prop :=
  rows (t_data s') = rows (t_data s) /\ cols (t_data s') = cols (t_data s) /\ t_dq s' = t_dq s /\ t_err s' = t_err s /\ forall p, value_of (t_data s') p = option_map (fun v => v + c) (value_of (t_data s) p).
Definition steady_back (local_back : backer) : Prop :=
  forall r_in r_out f g m x y k v, 0 < k -> brighter k f g -> local_back r_in r_out f m x y = Ok v -> local_back r_in r_out g m x y = Ok (option_map (Rmult k) v).
Definition blind_back (local_back : backer) : Prop :=
  forall r_in r_out f g m x y, rows g = rows f -> cols g = cols f -> (forall p, m (fst p) (snd p) = false -> value_of g p = value_of f p) -> local_back r_in r_out g m x y = local_back r_in r_out f m x y.
Definition sky_back (local_back : backer) : Prop :=
  forall r_in r_out f g m x y c v, rows g = rows f -> cols g = cols f -> (forall p, value_of g p = option_map (fun v => v + c) (value_of f p)) -> local_back r_in r_out f m x y = Ok (Some v) -> local_back r_in r_out g m x y = Ok (Some (v + c)).
(** Shares that vanish a pixel or more away from the centre of the aperture *)
Definition tight (overlap : sharer) : Prop :=
  forall m k r x y ny nx w i j, 0 < r < 1 -> overlap m k r (Some x) (Some y) ny nx = Ok (Some w) -> 1 <= Rabs (INR j - x) \/ 1 <= Rabs (INR i - y) -> w i j <= 0.
(** A star in one pixel *)
Definition point_star (s : shot) (i j : nat) (v : R) : Prop :=
  inside_of (t_data s) (i, j) /\ value_of (t_data s) (i, j) = Some v /\ forall p, inside_of (t_data s) p -> p <> (i, j) -> value_of (t_data s) p = Some 0.
(** The shares of the method "center": all of a pixel whose middle is in the aperture *)
Definition centre_share : sharer := fun _ _ r x y _ _ =>
  match x, y with Some x, Some y => Ok (Some (fun i j => if Rle_dec ((INR j - x) * (INR j - x) + (INR i - y) * (INR i - y)) (r * r) then 1 else 0)) | _, _ => Raise ValueError end.
(** A row of three pixels *)
Definition row3 (a b c : R) : img := mkimg 1 3 (fun _ j => match j with O => Some a | 1%nat => Some b | _ => Some c end).
Definition shot3 (a b c : R) (flag : Z) : shot := mkshot (row3 a b c) (row3 1 1 1) (fun _ j => match j with O => 0%Z | 1%nat => 0%Z | _ => flag end) [("FPAMNAME"%string, CText "ND225"); ("CFAMNAME"%string, CText "1F")] [].
Definition narrow (back : bool) (centring : string) : aset := mkaset (/ 4) (/ 2) "center" 5 back 5 10 centring 5 None.
Definition pixel_back : backer := fun _ _ f _ _ _ => Ok (pix f 0 1).
(** What is read of a header are its cards *)
Definition reads {A} (f : shot -> A) : Prop :=
  forall s s', same_pixels s s' -> (forall k v, card (t_ext s') k v <-> card (t_ext s) k v) -> (forall k v, card (t_errh s') k v <-> card (t_errh s) k v) -> f s' = f s.
