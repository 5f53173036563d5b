(** Angles: corgidrp/astrom.py angle_between 210-236, get_polar_dist 239-252,
    seppa2dxdy 255-269, seppa2xy 272-290, the north angle of
    compute_platescale_and_northangle 763-800; corgidrp/l2b_to_l3.py create_wcs
    7-71; corgidrp/l3_to_l4.py northup 645-749; the injected position of
    corgidrp/klip_fm.py inject_psf 48-89.

    Floats are real numbers: no rounding, no infinities, no signed zero.  NaN is
    None.  [atan] is Coq's, with values strictly between -pi/2 and pi/2. *)
From Coq Require Import List Reals ZArith.
From Verif Require Import Base DqModel.
Import ListNotations.
Local Open Scope R_scope.

Definition deg (a : R) : R := a * 180 / PI.
Definition rad (a : R) : R := a * PI / 180.

(** numpy's arctan of xdif/ydif.  A zero ydif gives plus or minus infinity, whose
    arctan is plus or minus pi/2, or nan for 0/0.  Python floats and ints
    raise ZeroDivisionError instead. *)
Inductive number := Numpy | Python.
Definition arctan_ratio (k : number) (x y : R) : result (option R) :=
  if Req_EM_T y 0 then
    match k with
    | Python => Raise PyException
    | Numpy => if Rlt_dec x 0 then Ok (Some (- (PI / 2))) else if Rlt_dec 0 x then Ok (Some (PI / 2)) else Ok None
    end
  else Ok (Some (atan (x / y))).

(** astrom.py 210-236 *)
Definition angle_between (k : number) (p q : R * R) : result (option R) :=
  let xdif := fst q - fst p in let ydif := snd q - snd p in
  do t <- arctan_ratio k xdif ydif;
  let angle a :=
    if Rlt_dec xdif 0 then (if Rlt_dec ydif 0 then PI - a else - a)
    else (if Rlt_dec ydif 0 then - a + PI else 2 * PI - a) in
  Ok (option_map (fun a => angle a * 180 / PI) t).

(** astrom.py 239-252 *)
Definition get_polar_dist (a b : R * R) : R :=
  sqrt (fst a ^ 2 + fst b ^ 2 - 2 * fst a * fst b * cos ((snd a - snd b) * PI / 180)).

(** astrom.py 255-269 *)
Definition seppa2dxdy (sep pa : R) : R * R := (- sep * sin (pa * PI / 180), sep * cos (pa * PI / 180)).

(** astrom.py 272-290 *)
Definition seppa2xy (sep pa cenx ceny : R) : R * R := let d := seppa2dxdy sep pa in (fst d + cenx, snd d + ceny).

(** klip_fm.py 64-89: the place a source is injected at, in the frame *)
Definition inject_place (roll starx stary sep pa : R) : R * R := let d := seppa2dxdy sep (pa - roll) in (starx + fst d, stary + snd d).

(** astrom.py 776-800.  The sky and pixel angles of the stars, and the index of
    the star that is the centre itself, left out of the mean.  numpy's mean
    of nothing is nan; a zero cosine divides by zero, as above. *)
Definition north_offset (sky pix : R) : result (option R) :=
  do t <- arctan_ratio Numpy (sin (rad (sky - pix))) (cos (rad (sky - pix)));
  Ok (option_map deg t).
Fixpoint delete_at {A} (i : nat) (l : list A) : list A :=
  match l, i with [], _ => [] | _ :: l', O => l' | x :: l', S i' => x :: delete_at i' l' end.
Definition meanR (l : list R) : option R := match l with [] => None | _ => Some (fold_right Rplus 0 l / INR (length l)) end.
Fixpoint all_some {A} (l : list (option A)) : option (list A) :=
  match l with [] => Some [] | o :: l' => match o, all_some l' with Some x, Some r => Some (x :: r) | _, _ => None end end.
Definition north_angle (same : option nat) (angles : list (R * R)) : result (option R) :=
  do offs <- mapR (fun a => north_offset (fst a) (snd a)) (match same with Some i => delete_at i angles | None => angles end);
  Ok (match all_some offs with Some l => meanR l | None => None end).

(** numpy arctan2 *)
Definition arctan2 (y x : R) : R :=
  if Rlt_dec 0 x then atan (y / x)
  else if Rlt_dec x 0 then (if Rlt_dec y 0 then atan (y / x) - PI else atan (y / x) + PI)
  else if Rlt_dec 0 y then PI / 2 else if Rlt_dec y 0 then - (PI / 2) else 0.

(** l2b_to_l3.py 7-71: the WCS keys of one image.  The shape is the list of the
    axes' lengths.  CTYPE1/2 are constants and left out. *)
Record wcs : Type := mkwcs {
  cd11 : R; cd12 : R; cd21 : R; cd22 : R; crpix1 : Z; crpix2 : Z; cdelt1 : R; cdelt2 : R; crval1 : R; crval2 : R; pltscale : R }.
Definition create_wcs (north : R) (scale offset : R * R) (shape : list Z) (ra dec roll : option R) : result wcs :=
  match shape with
  | [image_y; image_x] =>
    do ra' <- getkey ra; do dec' <- getkey dec; do roll' <- getkey roll;
    let v := rad (north + roll') in
    let kx := fst scale * (1 / 1000) / 3600 in let ky := snd scale * (1 / 1000) / 3600 in
    Ok (mkwcs (- cos v * kx) (sin v * kx) (sin v * ky) (cos v * ky)
              ((image_x - 1) / 2)%Z ((image_y - 1) / 2)%Z kx ky (ra' - fst offset) (dec' - snd offset) ((fst scale + snd scale) / 2))
  | _ => Raise ValueError
  end.

(** l3_to_l4.py 645-749.  pyklip's rotation of an image, its effect on the CD
    matrix, and the chain of scipy calls on the flags are variables. *)
Section Northup.
Variables P D : Type.   (* images, flag arrays *)
Variable rotate : P -> R -> R * R -> P.
Variable rotate_cd : R * R * R * R -> R -> R * R * R * R.
Variable rotate_dq : D -> R -> R * R -> D.

Record nframe : Type := mkn { n_h : Z; n_w : Z; n_data : P; n_err : list P; n_dq : D; n_star : option R * option R; n_cd : option (R * R * R * R); n_roll : option R }.
Inductive rot_center := ImCenter | StarLoc | Manual (c : R * R).

(** 667-681 *)
Definition centre_of (c : rot_center) (f : nframe) : R * R :=
  let mid := (IZR ((n_w f - 1) / 2), IZR ((n_h f - 1) / 2)) in
  match c with
  | ImCenter => mid
  | StarLoc => match n_star f with (Some x, Some y) => (x, y) | _ => mid end
  | Manual p => p
  end.
(** 683-694; a header holds the whole CD matrix or none of it *)
Definition roll_of (use_wcs : bool) (f : nframe) : result R :=
  if use_wcs then do m <- getkey (n_cd f); let '(_, c12, _, c22) := m in Ok (- deg (arctan2 (- c12) c22))
  else getkey (n_roll f).
Definition northup_frame (use_wcs : bool) (c : rot_center) (f : nframe) : result nframe :=
  let cen := centre_of c f in
  do roll <- roll_of use_wcs f;
  match n_err f with
  | [] => Raise IndexError
  | e :: _ => Ok (mkn (n_h f) (n_w f) (rotate (n_data f) roll cen) [rotate e roll cen] (rotate_dq (n_dq f) (- roll) cen) (n_star f)
                      (if use_wcs then option_map (fun m => rotate_cd m roll) (n_cd f) else n_cd f) (n_roll f))
  end.
Definition northup (use_wcs : bool) (c : rot_center) (fs : list nframe) : result (list nframe) := mapR (northup_frame use_wcs c) fs.
End Northup.
