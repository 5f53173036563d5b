(** Specification of angles and of the sky orientation. *)
From Coq Require Import List Reals ZArith.
From Verif Require Import Base AngleModel.
Import ListNotations.
Local Open Scope R_scope.

Definition dist (p q : R * R) : R := sqrt ((fst q - fst p) ^ 2 + (snd q - snd p) ^ 2).
(** [v] has length [d] and position angle [a] degrees, counted from +y towards -x. *)
Definition toward (d a : R) (v : R * R) : Prop := fst v = - (d * sin (rad a)) /\ snd v = d * cos (rad a).
Definition minus (q p : R * R) : R * R := (fst q - fst p, snd q - snd p).

(** The position angle of [q] seen from [p], in ]0, 360]. *)
Definition is_pa (p q : R * R) (a : R) : Prop := p <> q /\ 0 < a <= 360 /\ toward (dist p q) a (minus q p).

(** Equal up to whole turns. *)
Definition turns (a b : R) : Prop := exists n : Z, a = b + 360 * IZR n.

(** The sky offset (east, north) of a pixel offset by a CD matrix. *)
Definition sky (w : wcs) (v : R * R) : R * R := (cd11 w * fst v + cd12 w * snd v, cd21 w * fst v + cd22 w * snd v).

(** The WCS that turns image angles by [v] degrees: an offset of [s] pixels at
    image angle [a] lies at position angle [a + v] of the sky. *)
Definition oriented (w : wcs) (v kx ky : R) : Prop :=
  forall s a d, toward s a d -> sky w d = (kx * s * sin (rad (a + v)), ky * s * cos (rad (a + v))).
Definition is_wcs (north : R) (scale offset : R * R) (shape : list Z) (ra dec roll : option R) (w : wcs) : Prop :=
  exists h wd a d r, shape = [h; wd] /\ ra = Some a /\ dec = Some d /\ roll = Some r
  /\ oriented w (north + r) (fst scale / 3600000) (snd scale / 3600000)
  /\ (2 * crpix1 w = wd - 1 \/ 2 * crpix1 w + 1 = wd - 1)%Z /\ (2 * crpix2 w = h - 1 \/ 2 * crpix2 w + 1 = h - 1)%Z
  /\ cdelt1 w = fst scale / 3600000 /\ cdelt2 w = snd scale / 3600000 /\ crval1 w = a - fst offset /\ crval2 w = d - snd offset
  /\ 2 * pltscale w = fst scale + snd scale.

(** The roll read from a CD matrix: the angle of its second column. *)
Definition is_roll (c12 c22 r : R) : Prop :=
  -180 <= r < 180 /\ (c12 = 0 -> c22 = 0 -> r = 0) /\ exists rho, 0 <= rho /\ c12 = rho * sin (rad r) /\ c22 = rho * cos (rad r).

(** Counter-clockwise rotation of an offset by [r] degrees. *)
Definition turn (r : R) (v : R * R) : R * R := (fst v * cos (rad r) - snd v * sin (rad r), fst v * sin (rad r) + snd v * cos (rad r)).

(** The difference of two angles folded into [-90, 90]. *)
Definition is_offset (d o : R) : Prop :=
  -90 <= o <= 90 /\ exists n : Z, o = d + 180 * IZR n /\ (o = 90 \/ o = -90 -> Z.Even n).

(** What remains of a list without its [i]th element. *)
Definition without {A} (i : option nat) (l m : list A) : Prop :=
  match i with
  | None => m = l
  | Some k => (exists a x b, l = a ++ x :: b /\ length a = k /\ m = a ++ b) \/ ((length l <= k)%nat /\ m = l)
  end.
Definition is_mean (l : list R) (o : option R) : Prop :=
  (l = [] /\ o = None) \/ exists m, l <> [] /\ o = Some m /\ m * INR (length l) = fold_right Rplus 0 l.

Section Northup.
Variables P D : Type.
Variable rotate : P -> R -> R * R -> P.
Variable rotate_cd : R * R * R * R -> R -> R * R * R * R.
Variable rotate_dq : D -> R -> R * R -> D.
Definition is_centre (c : rot_center) (f : nframe P D) (p : R * R) : Prop :=
  let mid := exists i j : Z, p = (IZR i, IZR j) /\ (2 * i = n_w _ _ f - 1 \/ 2 * i + 1 = n_w _ _ f - 1)%Z /\ (2 * j = n_h _ _ f - 1 \/ 2 * j + 1 = n_h _ _ f - 1)%Z in
  match c with
  | ImCenter => mid
  | StarLoc => (exists x y, n_star _ _ f = (Some x, Some y) /\ p = (x, y)) \/ ((fst (n_star _ _ f) = None \/ snd (n_star _ _ f) = None) /\ mid)
  | Manual q => p = q
  end.
(** The image, the first error layer and the flags are turned by the same angle
    about the same point (the flags by the opposite angle in scipy's sense). *)
Definition turned (use_wcs : bool) (c : rot_center) (f g : nframe P D) : Prop :=
  exists r p e rest, is_centre c f p /\ n_err _ _ f = e :: rest
  /\ (use_wcs = true -> exists c11 c12 c21 c22, n_cd _ _ f = Some (c11, c12, c21, c22) /\ is_roll c12 c22 r /\ n_cd _ _ g = Some (rotate_cd (c11, c12, c21, c22) r))
  /\ (use_wcs = false -> n_roll _ _ f = Some r /\ n_cd _ _ g = n_cd _ _ f)
  /\ n_data _ _ g = rotate (n_data _ _ f) r p /\ n_err _ _ g = [rotate e r p] /\ n_dq _ _ g = rotate_dq (n_dq _ _ f) (- r) p
  /\ n_star _ _ g = n_star _ _ f /\ n_roll _ _ g = n_roll _ _ f /\ n_h _ _ g = n_h _ _ f /\ n_w _ _ g = n_w _ _ f.
End Northup.
