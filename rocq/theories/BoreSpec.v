(** What the astrometric calibration of a dataset should measure. *)
From Coq Require Import List Arith Bool Reals ZArith String.
From Verif Require Import Base SpotModel SpotSpec BendModel BendSpec BoreModel.
Import ListNotations.
Local Open Scope R_scope.

(** The mean of numbers; NaN of none, or with a NaN among them. *)
Definition average (l : list num) (m : num) : Prop :=
  (exists rs, l = map Some rs /\ rs <> [] /\ m = Some (total rs / INR (List.length rs))) \/ ((l = [] \/ In None l) /\ m = None).
Definition minus (a b : num) : num := match a, b with Some x, Some y => Some (x - y) | _, _ => None end.
(** Exactly the members of [l] with [P], in order. *)
Inductive picks {A} (P : A -> Prop) : list A -> list A -> Prop :=
| picks_nil : picks P [] []
| picks_yes : forall a l m, P a -> picks P l m -> picks P (a :: l) (a :: m)
| picks_no : forall a l m, ~ P a -> picks P l m -> picks P (a :: l) m.
(** The middle half of an image. *)
Definition in_middle (im : image) (st : star) : Prop :=
  INR (nx im / 4) <= s_x st <= INR (nx im) - INR (nx im / 4) /\ INR (ny im / 4) <= s_y st <= INR (ny im) - INR (ny im / 4).
(** The header of a pointing: plate scale in mas, north angle in degrees, reference pixel counted from one. *)
Definition points (im : image) (ra dec ps north : R) (w : wcs) : Prop :=
  let s := ps / 3600000 in let a := north * PI / 180 in
  cd11 w = - (s * cos a) /\ cd12 w = s * sin a /\ cd21 w = s * sin a /\ cd22 w = s * cos a /\
  crpix1 w = INR (nx im / 2) /\ crpix2 w = INR (ny im / 2) /\ crval1 w = ra /\ crval2 w = dec.

Section Bore.
  Variable solve : gframe -> result (list star * (R * R)).
  Variable gauss : image -> R -> R -> result (num * num).
  Variable sky2pix : wcs -> R -> R -> num * num.
  Variable offset_of : image -> R -> R -> R -> R -> result ((R * R) * (R * R)).
  Variable sky_sep sky_pa : R -> R -> R -> R -> R.

  (** Where a star is, less where it is predicted. *)
  Definition strays (im : image) (w : wcs) (st : star) (o : num * num) : Prop :=
    exists c, gauss im (s_x st) (s_y st) = Ok c /\ o = (minus (fst c) (fst (sky2pix w (s_ra st) (s_dec st))), minus (snd c) (snd (sky2pix w (s_ra st) (s_dec st)))).
  Definition degrees_of (ps : R) (m : num) : num := match m with Some x => Some (x * ps / 3600000) | None => None end.
  Definition offset_to (im : image) (stars : list star) (ra dec ps north : R) (b : num * num) : Prop :=
    exists w cs offs mx my, points im ra dec ps north w /\ picks (in_middle im) stars cs /\ Forall2 (strays im w) cs offs /\ average (map fst offs) mx /\ average (map snd offs) my /\ b = (degrees_of ps mx, degrees_of ps my).
  Definition solved (f : gframe) (s : sol) : Prop :=
    exists ra dec stars ps north b, g_ra f = Some ra /\ g_dec f = Some dec /\ solve f = Ok (stars, (ps, north)) /\ offset_to (g_im f) stars ra dec ps north b /\
      s = mksol (minus (Some ra) (fst b), minus (Some dec) (snd b)) ps north b stars (mkstar (INR ((nx (g_im f) - 1) / 2)) (INR ((ny (g_im f) - 1) / 2)) ra dec).
  (** The first thing that fails. *)
  Definition fails (f : gframe) (e : exn) : Prop :=
    ((g_ra f = None \/ g_dec f = None) /\ e = KeyError) \/
    (g_ra f <> None /\ g_dec f <> None /\
      (solve f = Raise e \/ exists stars props cs c1 st c2, solve f = Ok (stars, props) /\ picks (in_middle (g_im f)) stars cs /\ cs = c1 ++ st :: c2 /\ gauss (g_im f) (s_x st) (s_y st) = Raise e /\ forall s, In s c1 -> exists r, gauss (g_im f) (s_x s) (s_y s) = Ok r)).
  (** A pair: the target, and the offset asked from the other star on, by the way from the target to it. *)
  Definition paired (perr : option R) (im : image) (t st : star) (p : pair) : Prop :=
    exists dx dy ex ey, offset_of im (s_x st) (s_y st) (s_x st - s_x t) (s_y st - s_y t) = Ok ((dx, dy), (ex, ey)) /\
      p = mkpair (s_x t) (s_y t) dx dy (sky_sep (s_ra t) (s_dec t) (s_ra st) (s_dec st)) (sky_pa (s_ra t) (s_dec t) (s_ra st) (s_dec st))
        (match perr with None => ex | Some e => e end) (match perr with None => ey | Some e => e end).
  Inductive formatted (perr : option R) : list gframe -> list sol -> list pair -> Prop :=
  | formatted_nil : forall s, formatted perr [] s []
  | formatted_cons : forall f fs s ss ps qs, Forall2 (paired perr (g_im f) (o_target s)) (o_stars s) ps -> formatted perr fs ss qs -> formatted perr (f :: fs) (s :: ss) (ps ++ qs).
End Bore.

(** A table for every frame, or one (or none) for all. *)
Definition fits_matches (field_matches : option nat) (n : nat) : Prop := forall m, field_matches = Some m -> (1 < m)%nat -> m = n.
(** Groups of [k] frames and a last one of what remains: means, with the pointing of their first frames, and the name of the frame after them. *)
Definition averaged (l : list gframe) (im : image) : Prop :=
  exists f l', l = f :: l' /\ ny im = ny (g_im f) /\ nx im = nx (g_im f) /\ forall i j, average (map (fun g => px (g_im g) i j) l) (px im i j).
Inductive combined (k : nat) : list gframe -> list gframe -> Prop :=
| combined_last : forall f l x c, (List.length (f :: l) <= k)%nat -> averaged (f :: l) (g_im c) -> g_ra c = g_ra f -> g_dec c = g_dec f -> (exists l', f :: l = l' ++ [x]) -> g_name c = g_name x -> combined k (f :: l) [c]
| combined_more : forall f l x rest c out, List.length (f :: l) = k -> averaged (f :: l) (g_im c) -> g_ra c = g_ra f -> g_dec c = g_dec f -> g_name c = g_name x -> combined k (x :: rest) out -> combined k ((f :: l) ++ x :: rest) (c :: out).
(** A projection of a field so small that the sky is flat in it: [q] is the cosine of the declination. *)
Definition flat_at (q : R) (w : wcs) (ra dec x y : R) : Prop :=
  cd11 w * (x - (crpix1 w - 1)) + cd12 w * (y - (crpix2 w - 1)) = (ra - crval1 w) * q /\ cd21 w * (x - (crpix1 w - 1)) + cd22 w * (y - (crpix2 w - 1)) = dec - crval2 w.

(** The data and the positions of a calibration from the measurements of its frames. *)
Definition summary (sols : list sol) (dist : list R * nat) (data : list num) : Prop :=
  exists s rest ps north ora odec, sols = s :: rest /\ average (map (fun s => Some (o_ps s)) sols) (Some ps) /\ average (map (fun s => Some (o_north s)) sols) (Some north) /\
    average (map (fun s => fst (o_off s)) sols) ora /\ average (map (fun s => snd (o_off s)) sols) odec /\
    data = [fst (o_corr s); snd (o_corr s); Some ps; Some ps; Some north; ora; odec] ++ map Some (fst dist) ++ [Some (INR (snd dist))].

(** The fit of the distortion, of the pairs of stars of the frames, with the mean plate scale and north angle. *)
Definition fitted (offset_of : image -> R -> R -> R -> R -> result ((R * R) * (R * R))) (sky_sep sky_pa : R -> R -> R -> R -> R) (leastsq : (list num -> result (list num)) -> list R -> result (list R))
  (perr : option R) (guess : option (list R)) (order : nat) (frames : list gframe) (sols : list sol) (dist : list R * nat) : Prop :=
    exists pairs ps north, formatted offset_of sky_sep sky_pa perr frames sols pairs /\ average (map (fun s => Some (o_ps s)) sols) (Some ps) /\ average (map (fun s => Some (o_north s)) sols) (Some north) /\ compute_distortion leastsq order ps north pairs guess = Ok dist.
