(** C72: the offset of two stars in an image, and circular masks. *)
From Coq Require Import List Arith Bool Reals ZArith Lra Lia.
From Verif Require Import Base SpotModel SpotSpec BendModel ShiftModel ShiftSpec ShiftProofs.
Import ListNotations.
Local Open Scope R_scope.

(** The window about a guess, at every edge. *)
Theorem C72_window : forall n guess rad, (2 * rad + 1 <= n)%nat -> 0 <= guess < INR n -> exists lo, nearest_window n guess rad lo /\ window n guess rad = (Z.of_nat lo, Z.of_nat (lo + 2 * rad + 1)).
Proof. exact (@window_ok). Qed.
Print Assumptions C72_window.
(** There is one such window, *)
Theorem C72_window_unique : forall n guess rad a b, (2 * rad + 1 <= n)%nat -> 0 <= guess < INR n -> nearest_window n guess rad a -> nearest_window n guess rad b -> a = b.
Proof. exact (@window_unique). Qed.
Print Assumptions C72_window_unique.
(** and the pixel of the guess is in it. *)
Theorem C72_window_holds : forall n guess rad lo p, (2 * rad + 1 <= n)%nat -> nearest_window n guess rad lo -> (p < n)%nat -> INR p <= guess < INR p + 1 -> (lo <= p <= lo + 2 * rad)%nat.
Proof. exact (@window_holds). Qed.
Print Assumptions C72_window_holds.
(** The place found for the first star: the centre of light of its window, in pixels of the frame; NaN where there is no light. *)
Theorem C72_place : forall im v x y rad, (2 * rad + 1 <= ny im)%nat -> (2 * rad + 1 <= nx im)%nat -> 0 <= x < INR (nx im) -> 0 <= y < INR (ny im) -> shows im v ->
  exists r0 c0, nearest_window (ny im) y rad r0 /\ nearest_window (nx im) x rad c0 /\
    (light v (window_pixels r0 c0 rad) <> 0 -> star_place im x y rad = (Some (centre_x v (window_pixels r0 c0 rad)), Some (centre_y v (window_pixels r0 c0 rad)))) /\
    (light v (window_pixels r0 c0 rad) = 0 -> star_place im x y rad = (None, None)).
Proof. exact (@place_ok). Qed.
Print Assumptions C72_place.
(** Of light that is nowhere negative the centre is inside the window. *)
Theorem C72_inside : forall v r0 c0 rad, (forall p, In p (window_pixels r0 c0 rad) -> 0 <= v (fst p) (snd p)) -> 0 < light v (window_pixels r0 c0 rad) ->
  INR c0 <= centre_x v (window_pixels r0 c0 rad) <= INR (c0 + 2 * rad) /\ INR r0 <= centre_y v (window_pixels r0 c0 rad) <= INR (r0 + 2 * rad).
Proof. exact (@place_inside). Qed.
Print Assumptions C72_inside.
(** A star that is symmetric about the middle pixel of its window is found there, whatever its shape and background. *)
Theorem C72_symmetric : forall v r0 c0 rad, light v (window_pixels r0 c0 rad) <> 0 -> (forall i j, In (i, j) (window_pixels r0 c0 rad) -> v (2 * (r0 + rad) - i)%nat (2 * (c0 + rad) - j)%nat = v i j) ->
  centre_x v (window_pixels r0 c0 rad) = INR (c0 + rad) /\ centre_y v (window_pixels r0 c0 rad) = INR (r0 + rad).
Proof. exact (@symmetric_place). Qed.
Print Assumptions C72_symmetric.
(** A star of one pixel on an even background: the centre lies between the star and the middle of the window. *)
Theorem C72_point : forall v A B r c r0 c0 rad, In (r, c) (window_pixels r0 c0 rad) -> (forall i j, In (i, j) (window_pixels r0 c0 rad) -> v i j = if (Nat.eqb i r && Nat.eqb j c)%bool then A + B else B) ->
  let N := INR ((2 * rad + 1) * (2 * rad + 1)) in A + N * B <> 0 ->
  light v (window_pixels r0 c0 rad) = A + N * B /\ centre_x v (window_pixels r0 c0 rad) = (A * INR c + N * B * INR (c0 + rad)) / (A + N * B) /\ centre_y v (window_pixels r0 c0 rad) = (A * INR r + N * B * INR (r0 + rad)) / (A + N * B).
Proof. exact (@point_place). Qed.
Print Assumptions C72_point.
(** What is fitted to what, and what is returned of it. *)
Theorem C72_offset : forall (mapc : image -> num -> num -> num) (fit : (R -> R -> R -> list num) -> list num -> R * R * R -> result ((R * R * R) * (num * num * num))),
  forall im x y ox oy gf rad s off errs, measure_offset mapc fit im x y ox oy gf rad s = Ok (off, errs) ->
    exists st (template : R -> R -> R -> list num) data tx ty tf vx vy vf, let p := star_place im x y rad in
      stamp_of mapc im s (fst p) (snd p) st /\
      (forall dx dy a, exists lit, scaled a st lit /\ square_of 10 (fun i j => mapc lit (Some (INR i + dy)) (Some (INR j + dx))) (template dx dy a)) /\
      square_of s (fun i j => mapc im (nadd (Some (INR i - INR (s / 2))) (nadd (snd p) (Some oy))) (nadd (Some (INR j - INR (s / 2))) (nadd (fst p) (Some ox)))) data /\
      fit template data (0, 0, gf) = Ok ((tx, ty, tf), (vx, vy, vf)) /\ off = (ox - tx, oy - ty) /\ errs = (nsqrt vx, nsqrt vy, nsqrt vf).
Proof. exact (@offset_ok). Qed.
Print Assumptions C72_offset.
(** A measurement is refused only as the fit is. *)
Theorem C72_refused : forall (mapc : image -> num -> num -> num) (fit : (R -> R -> R -> list num) -> list num -> R * R * R -> result ((R * R * R) * (num * num * num))),
  forall im x y ox oy gf rad s e, measure_offset mapc fit im x y ox oy gf rad s = Raise e ->
    exists template data, fit template data (0, 0, gf) = Raise e /\ square_of s (fun i j => mapc im (nadd (Some (INR i - INR (s / 2))) (nadd (snd (star_place im x y rad)) (Some oy))) (nadd (Some (INR j - INR (s / 2))) (nadd (fst (star_place im x y rad)) (Some ox)))) data.
Proof. exact (@offset_refused). Qed.
Print Assumptions C72_refused.
(** A second star that is the first one, shifted and scaled: its shift is measured, whatever was guessed and wherever the first star is taken to be, by a fit that finds a template that is right. *)
Theorem C72_exact : forall (mapc : image -> num -> num -> num) (fit : (R -> R -> R -> list num) -> list num -> R * R * R -> result ((R * R * R) * (num * num * num))),
  forall im x y ox oy gf rad xs ys F Dx Dy a d,
    star_place im x y rad = (Some xs, Some ys) -> (forall u v, mapc im (Some u) (Some v) = Some (F u v)) ->
    (forall i j, (i < 10)%nat -> (j < 10)%nat -> F (ys + oy + (INR i - 5)) (xs + ox + (INR j - 5)) = a * F (ys + (oy - Dy) + (INR i - 5)) (xs + (ox - Dx) + (INR j - 5))) ->
    (forall st lit, stamp_of mapc im 10 (Some xs) (Some ys) st -> scaled a st lit -> forall i j, (i < 10)%nat -> (j < 10)%nat -> mapc lit (Some (INR i + (oy - Dy))) (Some (INR j + (ox - Dx))) = Some (a * F (ys + (oy - Dy) + (INR i - 5)) (xs + (ox - Dx) + (INR j - 5)))) ->
    (forall template data, template (ox - Dx) (oy - Dy) a = data -> fit template data (0, 0, gf) = Ok ((ox - Dx, oy - Dy, a), d)) ->
    exists errs, measure_offset mapc fit im x y ox oy gf rad 10 = Ok ((Dx, Dy), errs).
Proof. exact (@offset_exact). Qed.
Print Assumptions C72_exact.
(** A mask about a given centre of a given radius: the centre is column and row. *)
Theorem C72_mask : forall ny nx cx cy r i j, create_circular_mask ny nx (Some (cx, cy)) (Some r) i j = true <-> inside cx cy r i j.
Proof. exact (@mask_given). Qed.
Print Assumptions C72_mask.
(** The default mask of a square array: the widest disc in it, *)
Theorem C72_mask_square : forall n i j, (0 < n)%nat -> (create_circular_mask n n None None i j = true <-> inside ((INR n - 1) / 2) ((INR n - 1) / 2) ((INR n - 1) / 2) i j).
Proof. exact (@mask_square). Qed.
Print Assumptions C72_mask_square.
(** which is the same transposed and turned over. *)
Theorem C72_mask_turns : forall n i j, (i < n)%nat -> (j < n)%nat -> create_circular_mask n n None None i j = create_circular_mask n n None None j i /\ create_circular_mask n n None None i j = create_circular_mask n n None None (n - 1 - i) j.
Proof. exact (@mask_turns). Qed.
Print Assumptions C72_mask_turns.
(** The default centre is the middle in rows and columns, taken as column and row. *)
Theorem C72_mask_default : forall ny nx i j r, create_circular_mask ny nx None (Some r) i j = true <-> inside ((INR ny - 1) / 2) ((INR nx - 1) / 2) r i j.
Proof. exact (@mask_default). Qed.
Print Assumptions C72_mask_default.
(** A mask about a given centre without a radius: the least of four distances, the column measured against the number of rows and the row against that of columns. *)
Theorem C72_mask_walls : forall ny nx cx cy i j, create_circular_mask ny nx (Some (cx, cy)) None i j = true <-> exists r, least [cx; cy; INR ny - cx; INR nx - cy] r /\ inside cx cy r i j.
Proof. exact (@mask_walls). Qed.
Print Assumptions C72_mask_walls.
(** The default mask of an array of three rows and nine columns is empty. *)
Theorem C72_oblong_refuted : exists ny nx, (0 < ny)%nat /\ (0 < nx)%nat /\ forall i j, (i < ny)%nat -> (j < nx)%nat -> create_circular_mask ny nx None None i j = false.
Proof. exact (@oblong_refuted). Qed.
Print Assumptions C72_oblong_refuted.
(** In a frame of eight by eight pixels the star at row and column 6 is placed at -2 and -2: a window that does not fit is cut from the end of the frame. *)
Theorem C72_small_refuted : star_place one_pixel 6 6 5 = (Some (-2), Some (-2)).
Proof. exact (@small_refuted). Qed.
Print Assumptions C72_small_refuted.
(** On a background the place found is not that of the star: of a star at column 10 guessed at 8 it is below 9. *)
Theorem C72_background_refuted : exists xs, star_place on_background 8 10 5 = (Some xs, Some 10) /\ xs < 9.
Proof. exact (@background_refuted). Qed.
Print Assumptions C72_background_refuted.

(** Two stars of one pixel each, ten columns apart, the second three times as bright: C72_exact gives their offset. *)
Example C72_exact_example : exists errs, measure_offset lower (knows (10 - 10) (0 - 0) 3) twins 10 10 10 0 1 5 10 = Ok ((10, 0), errs).
Proof. exact twins_ok. Qed.
(** A window at the lower edge. *)
Example C72_window_example : nearest_window 20 2 5 0.
Proof. split; [lia|]. intros p P. assert (p = 2%nat) by (apply (pixel_unique 2 p 2 P); cbn; lra). subst. lia. Qed.
