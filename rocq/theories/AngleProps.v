(** C35: angles, offsets and the orientation of the sky. *)
From Coq Require Import List Reals ZArith Lra.
From Verif Require Import Base AngleModel AngleSpec AngleProofs.
Import ListNotations.
Local Open Scope R_scope.

(** The angle between two positions is the position angle, in every quadrant
    and on the axes (360, not 0, due north); there is none for equal positions. *)
Theorem C35_angle : forall p q a, angle_between Numpy p q = Ok (Some a) <-> is_pa p q a.
Proof. exact angle_iff. Qed.
Print Assumptions C35_angle.
Theorem C35_angle_none : forall p q, angle_between Numpy p q = Ok None <-> p = q.
Proof. exact angle_none. Qed.
Print Assumptions C35_angle_none.
(** Python numbers behave the same off the x axis; on it they divide by zero. *)
Theorem C35_angle_python : forall p q, (snd p = snd q -> angle_between Python p q = Raise PyException) /\ (snd p <> snd q -> angle_between Python p q = angle_between Numpy p q).
Proof. exact angle_python. Qed.
Print Assumptions C35_angle_python.
Example C35_angle_case : angle_between Numpy (3, 4) (2, 4) = Ok (Some 90).
Proof. apply angle_iff. split; [intros E; injection E; lra|]. split; [lra|]. unfold toward, minus, dist. cbn [fst snd]. replace ((2 - 3) ^ 2 + (4 - 4) ^ 2) with 1 by ring. rewrite sqrt_1, rad_90, sin_PI2, cos_PI2. lra. Qed.

(** Offsets from separations and angles, and back. *)
Theorem C35_inverse : forall k p q a, angle_between k p q = Ok (Some a) -> seppa2dxdy (dist p q) a = minus q p /\ seppa2xy (dist p q) a (fst p) (snd p) = q.
Proof. exact seppa_of_angle. Qed.
Print Assumptions C35_inverse.
Theorem C35_inverse_back : forall s pa c, 0 < s -> exists b, angle_between Numpy c (seppa2xy s pa (fst c) (snd c)) = Ok (Some b) /\ turns b pa /\ 0 < b <= 360 /\ dist c (seppa2xy s pa (fst c) (snd c)) = s.
Proof. exact angle_of_seppa. Qed.
Print Assumptions C35_inverse_back.
Theorem C35_offset : forall s a v, seppa2dxdy s a = v <-> toward s a v.
Proof. exact seppa_toward. Qed.
Print Assumptions C35_offset.
Theorem C35_polar_dist : forall a b, get_polar_dist a b = dist (seppa2dxdy (fst a) (snd a)) (seppa2dxdy (fst b) (snd b)).
Proof. exact polar_dist. Qed.
Print Assumptions C35_polar_dist.

(** The WCS written for an image. *)
Theorem C35_wcs : forall north scale offset shape ra dec roll w, create_wcs north scale offset shape ra dec roll = Ok w <-> is_wcs north scale offset shape ra dec roll w.
Proof. exact wcs_iff. Qed.
Print Assumptions C35_wcs.
Example C35_wcs_case : exists w, create_wcs 0 (36, 36) (0, 0) [5; 8]%Z (Some 10) (Some 20) (Some 0) = Ok w /\ cd22 w = 1 / 100000 /\ crpix1 w = 3%Z /\ crpix2 w = 2%Z.
Proof. eexists. split; [reflexivity|]. cbn [cd22 crpix1 crpix2 fst snd]. split; [|split; reflexivity]. rewrite Rplus_0_l, rad_0, cos_0. field. Qed.

(** With equal plate scales, the roll read back is the north angle plus the roll
    of the header, up to whole turns, and turning by it puts north up: the sky
    offset (east, north) of a pixel offset is its turned offset, east to the left. *)
Theorem C35_roll : forall north k offset shape ra dec roll w r, 0 < k -> create_wcs north (k, k) offset shape ra dec (Some roll) = Ok w ->
  (is_roll (cd12 w) (cd22 w) r <-> turns r (north + roll) /\ -180 <= r < 180).
Proof. exact roll_of_wcs. Qed.
Print Assumptions C35_roll.
Theorem C35_north_up : forall north k offset shape ra dec roll w r s a, 0 < k -> create_wcs north (k, k) offset shape ra dec (Some roll) = Ok w -> is_roll (cd12 w) (cd22 w) r ->
  forall v east north_, toward s a v -> sky w v = (east, north_) -> let t := turn r v in east = - (k / 3600000) * fst t /\ north_ = k / 3600000 * snd t.
Proof. exact north_is_up. Qed.
Print Assumptions C35_north_up.

(** What northup does to each frame. *)
Theorem C35_northup : forall P D rotate rotate_cd rotate_dq use_wcs c (fs gs : list (nframe P D)),
  northup P D rotate rotate_cd rotate_dq use_wcs c fs = Ok gs <-> Forall2 (turned P D rotate rotate_cd rotate_dq use_wcs c) fs gs.
Proof. exact northup_iff. Qed.
Print Assumptions C35_northup.
Example C35_northup_case : let f := mkn nat nat 5 8 1%nat [2; 3]%nat 4%nat (None, None) None (Some 30) in
  northup nat nat (fun p _ _ => S p) (fun m _ => m) (fun d _ _ => d) false ImCenter [f] = Ok [mkn nat nat 5 8 2%nat [3]%nat 4%nat (None, None) None (Some 30)].
Proof. reflexivity. Qed.

(** The north angle of the calibration, for any stars. *)
Theorem C35_north_angle : forall same l r, north_angle same l = Ok r <-> exists m os, without same l m /\ Forall2 (fun (a : R * R) o => is_offset (fst a - snd a) o) m os /\ is_mean os r.
Proof. exact north_angle_iff. Qed.
Print Assumptions C35_north_angle.
Theorem C35_north_recovered : forall same l v z, -90 < v < 90 -> (exists m, without same l m /\ m <> [] /\ Forall (fun a : R * R => turns (fst a - snd a) (v + 180 * IZR z)) m) -> north_angle same l = Ok (Some v).
Proof. exact north_recovered. Qed.
Print Assumptions C35_north_recovered.
Example C35_north_case : north_angle (Some 1%nat) [(45, 5); (0, 0); (10, 330)] = Ok (Some 40).
Proof.
  apply (C35_north_recovered _ _ 40 0); [lra|]. exists [(45, 5); (10, 330)]. split; [left; exists [(45, 5)], (0, 0), [(10, 330)]; auto|]. split; [discriminate|].
  constructor; [exists 0%Z; cbn [fst snd]; lra|]. constructor; [exists (-1)%Z; cbn [fst snd]; lra|constructor].
Qed.

(** A north angle beyond 90 degrees is returned half a turn away. *)
Theorem C35_north_angle_refuted : forall same l v, 90 < v < 270 -> (exists m, without same l m /\ m <> [] /\ Forall (fun a : R * R => turns (fst a - snd a) v) m) -> north_angle same l = Ok (Some (v - 180)).
Proof. exact north_beyond. Qed.
Print Assumptions C35_north_angle_refuted.
(** With unequal plate scales the roll read back is wrong except on the axes. *)
Theorem C35_roll_refuted : forall north kx ky offset shape ra dec roll w r, 0 < kx -> 0 < ky -> kx <> ky -> sin (rad (north + roll)) <> 0 -> cos (rad (north + roll)) <> 0 ->
  create_wcs north (kx, ky) offset shape ra dec (Some roll) = Ok w -> is_roll (cd12 w) (cd22 w) r -> ~ turns r (north + roll).
Proof. exact unequal_scales. Qed.
Print Assumptions C35_roll_refuted.
(** A star that is not the centre of the rotation is left behind by its header keys. *)
Theorem C35_star_refuted : forall P D rot rcd rdq c (f g : nframe P D) r p x y, northup P D rot rcd rdq false c [f] = Ok [g] -> n_roll _ _ f = Some r -> ~ turns r 0 ->
  is_centre P D c f p -> n_star _ _ f = (Some x, Some y) -> (x, y) <> p ->
  n_data _ _ g = rot (n_data _ _ f) r p /\ exists x' y', n_star _ _ g = (Some x', Some y') /\ (x', y') <> (fst p + fst (turn r (minus (x, y) p)), snd p + snd (turn r (minus (x, y) p))).
Proof. exact star_left_behind. Qed.
Print Assumptions C35_star_refuted.
(** A source injected at position angle [pa] lies at [pa] plus the north angle
    of the calibration on the sky. *)
Theorem C35_injection : forall north k offset shape ra dec roll w starx stary sep pa, create_wcs north (k, k) offset shape ra dec (Some roll) = Ok w ->
  sky w (minus (inject_place roll starx stary sep pa) (starx, stary)) = (k / 3600000 * sep * sin (rad (pa + north)), k / 3600000 * sep * cos (rad (pa + north))).
Proof. exact injected_at. Qed.
Print Assumptions C35_injection.
