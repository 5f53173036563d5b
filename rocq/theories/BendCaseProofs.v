(** Cases of the correction and of the fit of distortion. *)
From Coq Require Import List Arith Bool Reals ZArith Lra Lia Psatz String.
From Verif Require Import Base AngleModel AngleProofs SpotModel SpotSpec SpotProofs BendModel BendSpec BendProofs BendFitProofs.
Import ListNotations.
Local Open Scope R_scope.

(** A reading of the nearest pixel below. *)
Definition floor_map (im : image) (y x : num) : num := match y, x with Some y, Some x => px im (Z.to_nat (Int_part y)) (Z.to_nat (Int_part x)) | _, _ => None end.
Lemma floor_interpolates : interpolates floor_map.
Proof.
  intros im v i j H I J. unfold floor_map. assert (F : forall k, Int_part (INR k) = Z.of_nat k) by (intros k; apply int_part_unique; rewrite <- INR_IZR_INZ; lra). rewrite !F, !Nat2Z.id. apply H; assumption.
Qed.
Lemma keep_start : no_increase (fun f x0 => match f (map Some x0) with Ok _ => Ok x0 | Raise e => Raise e end).
Proof. intros f x0 c a b E A B. rewrite A in E. injection E as <-. rewrite A in B. injection B as B. assert (Q : a = b); [|rewrite Q; apply Rle_refl]. clear - B. revert b B. induction a as [|u a IH]; intros [|w b] B; try discriminate B; [reflexivity|]. cbn in B. injection B as -> B. f_equal. auto. Qed.

Definition unit_image (n i0 j0 : nat) : image := mkimage n n (fun i j => Some (if (Nat.eqb i i0 && Nat.eqb j j0)%bool then 1 else 0)).
Lemma unit_holds : forall n i0 j0, holds (unit_image n i0 j0) (fun i j => if (Nat.eqb i i0 && Nat.eqb j j0)%bool then 1 else 0).
Proof. intros n i0 j0 i j I J. reflexivity. Qed.
Definition twice_coeffs : list R := [0; 0; 1000; 0; 0; 1000; 0; 0].
Lemma unit_0 : unit_of 0 = 1. Proof. rewrite unit_small by lia. reflexivity. Qed.
Lemma unit_1 : unit_of 1 = 500. Proof. rewrite unit_small by lia. cbn. ring. Qed.
Lemma unit_2 : unit_of 2 = 250000. Proof. rewrite unit_small by lia. cbn. ring. Qed.
Lemma twice_warp : forall P x y, legendre P -> warp_x P 1 twice_coeffs x y = 2 * x /\ warp_y P 1 twice_coeffs x y = 2 * y.
Proof.
  intros P x y (P0 & P1 & _). unfold warp_x, warp_y. rewrite !warp_sum. cbn [sum_to Nat.add Nat.mul nth twice_coeffs]. rewrite unit_0, unit_1, unit_2, !P0, !P1. split; field.
Qed.
(** The displacement is taken where the light should come to, not where it comes from: with a magnification of two, the
    light of pixel (5, 5) is mapped to (6, 6), and the corrected image does not have it there. *)
Theorem inverse_refuted : forall mapc P, interpolates mapc -> legendre P ->
  exists im v o l im', holds im v /\ ny im = nx im /\ List.length l = count_of o /\ bend mapc im (map Some l) (Z.of_nat o) = Ok im' /\
    warp_x P o l (5 - mid (ny im)) (5 - mid (ny im)) = 6 - mid (ny im) /\ warp_y P o l (5 - mid (ny im)) (5 - mid (ny im)) = 6 - mid (ny im) /\ v 5%nat 5%nat = 1 /\ px im' 6%nat 6%nat = Some 0.
Proof.
  intros mapc P MI LP. set (im := unit_image 8 5 5). assert (M : mid (ny im) = 4) by (unfold mid; cbn; lra).
  assert (T := fun x y => twice_warp P x y LP).
  destruct (bend_moves mapc MI P im _ 1%nat twice_coeffs 6%nat 6%nat 4%nat 4%nat LP ltac:(lia) eq_refl eq_refl (unit_holds 8 5 5) ltac:(cbn; lia) ltac:(cbn; lia)) as (im' & B & PX).
  { unfold disp_y. rewrite (proj2 (T _ _)), M. cbn [INR]. lra. } { unfold disp_x. rewrite (proj1 (T _ _)), M. cbn [INR]. lra. }
  exists im, (fun i j => if (Nat.eqb i 5 && Nat.eqb j 5)%bool then 1 else 0), 1%nat, twice_coeffs, im'. rewrite (proj1 (T _ _)), (proj2 (T _ _)), M. split; [apply unit_holds|]. split; [reflexivity|]. split; [reflexivity|]. split; [exact B|]. split; [lra|]. split; [lra|]. split; [reflexivity|exact PX].
Qed.
(** Integers of 64 bits: from order 4 on the units of the coefficients are not powers of 500. *)
Theorem unit_refuted : unit_of 8 <> 500 ^ 8.
Proof. rewrite unit_scale, (pow_IZR 500 8). intros Q. apply eq_IZR in Q. vm_compute in Q. discriminate Q. Qed.
(** The start of the fit without a guess is refused at order 0. *)
Theorem order_refuted : forall ps rot pairs, fit_distortion_solution (map Some (default_coeffs 0)) 0 ps rot pairs = Raise ValueError.
Proof. intros ps rot pairs. apply fit_refused. split; [discriminate|reflexivity]. Qed.
(** An offset the opposite way leaves no residual. *)
Theorem opposite_refuted : exists p, sound_pair 1 p /\ 0 < p_sep p / 1 /\ p_dx p = p_sep p / 1 * sin (toward_sky 0 p) /\ p_dy p = - (p_sep p / 1 * cos (toward_sky 0 p)) /\
  fit_distortion_solution (map Some (default_coeffs 1)) 1 1 0 [p] = Ok [Some 0; Some 0].
Proof.
  set (p := mkpair 511 511 0 (-2) 2 0 1 1). assert (T : toward_sky 0 p = 0) by (unfold toward_sky; cbn [p_pa p]; field). assert (SP : sound_pair 1 p) by (unfold sound_pair; cbn; lra).
  exists p. rewrite T, sin_0, cos_0. split; [exact SP|]. cbn [p p_sep p_dx p_dy]. split; [lra|]. split; [lra|]. split; [lra|].
  apply (fit_zero leg 1 (default_coeffs 1) 1 0 [p] leg_legendre); [lia|reflexivity|constructor; [exact SP|constructor]|constructor; [cbn; lra|constructor]|]. constructor; [|constructor].
  exists (-1). split; [right; reflexivity|]. rewrite default_shift by lia. unfold offset. cbn [fst snd]. rewrite !(proj1 (shift_warp leg 1 0 0 _ _ leg_legendre (le_n 1))), !(proj2 (shift_warp leg 1 0 0 _ _ leg_legendre (le_n 1))), T, sin_0, cos_0. cbn [p p_sep p_dx p_dy p_x p_y]. split; lra.
Qed.
(** The fit has its middle at 511, the correction of an image of 1024 rows at 512: coefficients that fit do not correct. *)
Definition bow_coeffs : list R := [0; 0; 0; 500; 0; 0; 500000 / 3; 0; 0; 0; 500; 0; 0; 0; 0; 0; 0; 0].
Lemma bow_warp : forall P x y, legendre P -> warp_x P 2 bow_coeffs x y = x + x * x - / 3 /\ warp_y P 2 bow_coeffs x y = y.
Proof.
  intros P x y (P0 & P1 & PS). assert (P2 : forall u, P 2%nat u = (3 * u * u - 1) / 2) by (intros u; specialize (PS 0%nat u); rewrite P0, P1 in PS; cbn [INR] in PS; lra).
  assert (U3 : unit_of 3 <> 0) by (apply unit_nonzero; lia). assert (U4 : unit_of 4 <> 0) by (apply unit_nonzero; lia).
  unfold warp_x, warp_y. rewrite !warp_sum. cbn [sum_to Nat.add Nat.mul nth bow_coeffs]. rewrite unit_0, unit_1, unit_2, !P0, !P1, !P2. split; field; auto.
Qed.
Theorem centre_refuted : forall P, legendre P -> mid 1024 = 512 /\ exists o l p, sound_pair 1 p /\ fit_distortion_solution (map Some l) o 1 0 [p] = Ok [Some 0; Some 0] /\
  warp_x P o l (p_x p - mid 1024 + p_dx p) (p_y p - mid 1024 + p_dy p) - warp_x P o l (p_x p - mid 1024) (p_y p - mid 1024) = 0 /\
  warp_y P o l (p_x p - mid 1024 + p_dx p) (p_y p - mid 1024 + p_dy p) - warp_y P o l (p_x p - mid 1024) (p_y p - mid 1024) = 0 /\ p_sep p = 2.
Proof.
  intros P LP. assert (M : mid 1024 = 512). { unfold mid. replace (1024 / 2)%nat with (Z.to_nat 512) by reflexivity. rewrite INR_IZR_INZ, Z2Nat.id by lia. reflexivity. }
  split; [exact M|]. set (p := mkpair 511 511 1 0 2 (-90) 1 1). exists 2%nat, bow_coeffs, p. assert (SP : sound_pair 1 p) by (unfold sound_pair; cbn; lra). split; [exact SP|]. assert (T : toward_sky 0 p = - (PI / 2)) by (unfold toward_sky; cbn [p_pa p]; field).
  assert (B := fun x y => bow_warp P x y LP). split; [|rewrite M, !(proj1 (B _ _)), !(proj2 (B _ _)); cbn [p p_x p_y p_dx p_dy p_sep]; lra].
  apply (fit_zero P 2 bow_coeffs 1 0 [p] LP); [lia|reflexivity|constructor; [exact SP|constructor]|constructor; [cbn; lra|constructor]|]. constructor; [|constructor].
  exists 1. split; [left; reflexivity|]. unfold offset. cbn [fst snd]. rewrite !(proj1 (B _ _)), !(proj2 (B _ _)), T, sin_neg, cos_neg, sin_PI2, cos_PI2. cbn [p p_x p_y p_dx p_dy p_sep]. lra.
Qed.
(** The errors and the flags stay where they are while the data move. *)
Theorem flags_refuted : forall mapc, interpolates mapc -> exists f g c, distortion_correction mapc [f] c = Ok [g] /\ px (f_data g) 1%nat 1%nat = Some 1 /\ px (f_data f) 0%nat 0%nat = Some 1 /\ px (f_data f) 1%nat 1%nat = Some 0 /\
  f_dq f 0%nat 0%nat = 4%Z /\ f_dq g 1%nat 1%nat = 0%Z.
Proof.
  intros mapc MI. set (im := unit_image 4 0 0). set (f := mkframe im (fun _ _ => Some 0) (fun i j => if (Nat.eqb i 0 && Nat.eqb j 0)%bool then 4%Z else 0%Z) []).
  destruct (shift_moves mapc MI im _ 1%nat 1%nat 1%nat ltac:(lia) eq_refl (unit_holds 4 0 0)) as (im' & B & _ & _ & PX).
  exists f, (mkframe im' (f_err f) (f_dq f) ["Distortion correction completed"%string]), (distortion_part (shift_coeffs 1 (INR 1) (INR 1), 1%nat)).
  split. { apply (corr_law mapc [f] (map Some (shift_coeffs 1 (INR 1) (INR 1))) (INR 1) 1%Z). { left. cbn. lra. } constructor; [|constructor]. split; [exact B|repeat split]. }
  split; [exact (PX 0%nat 0%nat ltac:(cbn; lia) ltac:(cbn; lia))|]. repeat split.
Qed.
Example pair_case : exists ps rot p, sound_pair ps p /\ as_on_sky ps rot p.
Proof. exists 1, 0, (mkpair 500 520 0 2 2 0 1 1). unfold sound_pair, as_on_sky, toward_sky. cbn. replace ((0 - 0) * PI / 180) with 0 by field. rewrite sin_0, cos_0. lra. Qed.
