(** Specification of the injection of a PSF, apart from the model. *)
From Coq Require Import List Reals ZArith.
From Verif Require Import Base CombineModel FlatModel AngleSpec NearSpec InjModel.
Import ListNotations.
Local Open Scope R_scope.

Definition Inside (m : img) (r c : nat) : Prop := (r < rows m)%nat /\ (c < cols m)%nat.
(** The largest number of an image; None if there are pixels but no number *)
Definition Peak (m : img) (v : val) : Prop :=
  match v with
  | Some x => (exists r c, Inside m r c /\ pix m r c = Some x) /\ forall r c y, Inside m r c -> pix m r c = Some y -> y <= x
  | None => (exists r c, Inside m r c) /\ forall r c, Inside m r c -> pix m r c = None
  end.
Definition Least (m : img) (x : R) : Prop :=
  (exists r c, Inside m r c /\ pix m r c = Some x) /\ forall r c y, Inside m r c -> pix m r c = Some y -> x <= y.
(** The image times the amplitude over the peak; where the peak is zero or one of the two is no number, nothing *)
Definition ScaledBy (amp peak : val) (m k : img) : Prop :=
  rows k = rows m /\ cols k = cols m /\ forall r c,
  match amp, peak, pix m r c with
  | Some a, Some p, Some x => p <> 0 /\ pix k r c = Some (a * x / p) \/ p = 0 /\ pix k r c = None
  | _, _, _ => pix k r c = None
  end.
(** The place at an angle in degrees, from the axis of x, and a distance from a centre: where pyklip paints *)
Definition polar (c : R * R) (sep theta : R) : R * R := (fst c + sep * cos (theta * PI / 180), snd c + sep * sin (theta * PI / 180)).
(** The PSF is the first whose position, counted from the corner of the pixel, is nearest to a place *)
Definition ClosestPsf (positions : list (R * R)) (psfs : list img) (at_ : R * R) (m : img) : Prop :=
  exists i q, nearest_of (fun q => dist (fst at_ + / 2, snd at_ + / 2) q) positions i q /\ nth_error psfs i = Some m.

Definition Paint : Type := img -> R * R -> img -> R -> R -> result img.
Definition with_data (d : img) (f : source) : source := mksource d (f_roll f) (f_starx f) (f_stary f).
(** The same pixels *)
Definition SameImage (a b : img) : Prop := rows a = rows b /\ cols a = cols b /\ forall r c, pix a r c = pix b r c.
(** What is painted is added, and does not depend on what is there *)
Definition added (u v : val) : val := match u, v with Some x, Some y => Some (x + y) | _, _ => None end.
Definition Adds (paint : Paint) (stamp : nat -> nat -> R * R -> img -> R -> R -> nat -> nat -> val) : Prop :=
  forall d c m sep th, exists e, paint d c m sep th = Ok e /\ rows e = rows d /\ cols e = cols d
  /\ forall i j, pix e i j = added (pix d i j) (stamp (rows d) (cols d) c m sep th i j).
Definition same_cards (f g : source) : Prop := f_roll g = f_roll f /\ f_starx g = f_starx f /\ f_stary g = f_stary f.
(** The frame turned *)
Definition turned (d : R) (f : source) : source := mksource (f_data f) (option_map (fun x => x + d) (f_roll f)) (f_starx f) (f_stary f).
Definition turned_shot (d : R) (s : shot) : shot := mkshot (s_amp s) (s_sep s) (s_pa s + d).
Definition louder (k : R) (s : shot) : shot := mkshot (option_map (fun x => k * x) (s_amp s)) (s_sep s) (s_pa s).
