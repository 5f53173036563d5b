(** C55: flat fields. *)
From Coq Require Import List Arith Bool Reals ZArith Lia Lra String Permutation.
From Verif Require Import Base CombineModel CombineSpec FindModel FlatModel FlatSpec FlatProofs FlatRunProofs FlatTopProofs FlatDemoProofs.
Import ListNotations.
Local Open Scope R_scope.

Theorem C55_flat : forall centre gauss a l l' p, onsky centre gauss a l = (l', Ok p) <-> flat_of centre gauss a l l' p.
Proof. exact onsky_flat. Qed.
Print Assumptions C55_flat.
Theorem C55_fails : forall centre gauss a l e, snd (onsky centre gauss a l) = Raise e <-> fails centre a l e.
Proof. exact onsky_fails. Qed.
Print Assumptions C55_fails.
(** Positive contributions are weighted by their place: the last counts one half. *)
Theorem C55_weights : forall xs v, xs <> [] -> (forall x, In x xs -> 0 < x) -> settled (map Some xs) v ->
  v = Some (fold_right Rplus 0 (map (fun i => weight (List.length xs - 1) i * nth i xs 0) (seq 0 (List.length xs)))).
Proof. exact settled_weights. Qed.
Print Assumptions C55_weights.
Theorem C55_weights_sum : forall k, fold_right Rplus 0 (map (weight k) (seq 0 (S k))) = 1.
Proof. exact weights_sum. Qed.
Print Assumptions C55_weights_sum.
Theorem C55_between : forall lo hi xs v, 0 < lo -> xs <> [] -> settled (map Some xs) v -> (forall x, In x xs -> lo <= x <= hi) -> exists w, v = Some w /\ lo <= w <= hi.
Proof. exact settled_bounds. Qed.
Print Assumptions C55_between.
Theorem C55_order_refuted : exists l l' m m' p p', Permutation l l' /\ onsky mid plain demo_args l = (m, Ok p) /\ onsky mid plain demo_args l' = (m', Ok p')
  /\ pix (p_data p) 6 6 = Some (5 / 2) /\ pix (p_data p') 6 6 = Some (7 / 4).
Proof. exact order_matters. Qed.
Print Assumptions C55_order_refuted.
(** A frame contributes where the planet is, if the half side of the square is its radius and five pixels ... *)
Theorem C55_centred : forall centre n up f r c, inside centre n up f -> (5 < up)%Z ->
  (covers centre n up (IZR up - 5) f r c <-> sqrt ((INR c - IZR (snd (centre f))) ^ 2 + (INR r - IZR (fst (centre f))) ^ 2) < IZR up - 5).
Proof. intros centre. exact (covers_centred centre plain). Qed.
Print Assumptions C55_centred.
(** ... and in a disc moved by radius + 5 - half side otherwise, cut by the square. *)
Theorem C55_moved : forall centre n up rad f r c, inside centre n up f ->
  (covers centre n up rad f r c <-> (- up <= Z.of_nat r - fst (centre f) < up)%Z /\ (- up <= Z.of_nat c - snd (centre f) < up)%Z
     /\ sqrt ((INR c - IZR (snd (centre f)) - (rad + 5 - IZR up)) ^ 2 + (INR r - IZR (fst (centre f)) - (rad + 5 - IZR up)) ^ 2) < rad).
Proof. exact covers_disc. Qed.
Print Assumptions C55_moved.
Theorem C55_uranus_refuted : forall centre n f, inside centre n 55 f -> exists r c r' c',
  sqrt ((INR c - IZR (snd (centre f))) ^ 2 + (INR r - IZR (fst (centre f))) ^ 2) < 65 /\ ~ covers centre n 55 65 f r c
  /\ 65 < sqrt ((INR c' - IZR (snd (centre f))) ^ 2 + (INR r' - IZR (fst (centre f))) ^ 2) /\ covers centre n 55 65 f r' c'.
Proof. exact covers_uranus. Qed.
Print Assumptions C55_uranus_refuted.
Theorem C55_edge_refuted : forall centre n up rad f r c, (0 <= fst (centre f) < up)%Z -> (2 * up <= Z.of_nat n)%Z -> (2 * up <= Z.of_nat (rows f))%Z ->
  fst (extents centre up f) = 0%nat /\ ~ covers centre n up rad f r c.
Proof. exact edge_lost. Qed.
Print Assumptions C55_edge_refuted.
Theorem C55_size : forall centre gauss a l l' p n, a_size a = Some n -> a_pad a = None -> onsky centre gauss a l = (l', Ok p) ->
  rows (p_data p) = (if le_lt_dec n (Z.to_nat 1024) then Z.to_nat 2048 - n else n)%nat.
Proof. exact size_default. Qed.
Print Assumptions C55_size.
Theorem C55_mask_irrelevant : forall centre gauss a b x y l, a_mask a = Some x -> a_mask b = Some y -> a_planet a = a_planet b -> a_band a = a_band b -> a_up a = a_up b -> a_size a = a_size b -> a_groups a = a_groups b ->
  a_rad a = a_rad b -> a_npix a = a_npix b -> a_pad a = a_pad b -> a_annulus a = a_annulus b -> onsky centre gauss a l = onsky centre gauss b l.
Proof. exact mask_value. Qed.
Print Assumptions C55_mask_irrelevant.
Theorem C55_mean : forall l f e, create_flatfield l = Ok (f, e) -> exists f0 t, l = f0 :: t /\ rows f = rows f0 /\ cols f = cols f0 /\ rows e = rows f0 /\ cols e = cols f0
  /\ forall r c, mean_of (map (fun g => pix g r c) l) (pix f r c) /\ error_of (List.length l) (map (fun g => pix g r c) l) (pix e r c).
Proof. exact mean_flat. Qed.
Print Assumptions C55_mean.
Theorem C55_kernel : forall width h w r c, exists v, pix (raster_kernel width (h, w)) r c = Some v /\ (v = 0 \/ v = 1)
  /\ (v = 1 <-> 2 <= width /\ sqrt ((INR c - INR w / 2 - 1) ^ 2 + (INR r - INR h / 2 - 1) ^ 2) <= width / 2).
Proof. exact kernel_flat. Qed.
Print Assumptions C55_kernel.
Example C55_used : (exists l p, onsky mid plain demo_args (set3 1 1 4) = (l, Ok p)) /\ inside (fun _ => (60, 60)%Z) 120 55 (mkimg 120 120 (fun _ _ => None))
  /\ (exists f e, create_flatfield (map f_img (set3 1 1 4)) = Ok (f, e)).
Proof.
  split; [destruct (demo_result 1 1 4 1 (proj1 med_114) R1_neq_R0) as (l & p & E & _); exists l, p; exact E|]. split; [unfold inside; cbn; repeat split; discriminate|do 2 eexists; reflexivity].
Qed.
