(** Property theorem C29. *)
From Coq Require Import List Arith Bool QArith ZArith.
From Verif Require Import Base FloatModel DesmearModel DesmearSpec DesmearProofs.
Import ListNotations.
Local Open Scope nat_scope.

(** desmear works frame by frame with the frame's own EXPTIME, and succeeds
    exactly when the read time and the exposure times are usable. *)
Theorem C29_frames : forall rt fs out, desmear rt fs = Ok out <-> exists r, rt = Some r /\ Forall2 (desmear_ok r) fs out.
Proof. exact desmear_spec. Qed.
Print Assumptions C29_frames.

(** Smearing the result gives the input back, column by column... *)
Theorem C29_inverse : forall a im nr nc c x, rectangular im nr nc -> c < nc -> ~ (1 + a == 0)%Q -> col_is im c x ->
  exists y, col_is (desmear_img a im) c y /\ smeared a nr y x.
Proof. exact desmear_col. Qed.
Print Assumptions C29_inverse.

(** ... and the result is the only column with this property. *)
Theorem C29_unique : forall a n x x' y, ~ (1 + a == 0)%Q -> smeared a n x y -> smeared a n x' y -> forall r, r < n -> (x r == x' r)%Q.
Proof. exact smeared_unique. Qed.
Print Assumptions C29_unique.

Theorem C29_shape : forall a im nr nc, rectangular im nr nc -> rectangular (desmear_img a im) nr nc.
Proof. exact desmear_rect. Qed.
Print Assumptions C29_shape.

Theorem C29_linear : forall a k1 k2 im1 im2 im nr nc c x1 x2 y1 y2 y, ~ (1 + a == 0)%Q ->
  rectangular im1 nr nc -> rectangular im2 nr nc -> rectangular im nr nc -> c < nc ->
  col_is im1 c x1 -> col_is im2 c x2 -> col_is im c (fun r => k1 * x1 r + k2 * x2 r)%Q ->
  col_is (desmear_img a im1) c y1 -> col_is (desmear_img a im2) c y2 -> col_is (desmear_img a im) c y ->
  forall r, r < nr -> (y r == k1 * y1 r + k2 * y2 r)%Q.
Proof. exact desmear_linear. Qed.
Print Assumptions C29_linear.

(** A pixel of the result depends only on its own column down to its own row
    (whatever the values, NaN and infinities included). *)
Theorem C29_local : forall a im im' nr nc nr' nc' r c c', rectangular im nr nc -> rectangular im' nr' nc' ->
  r < nr -> r < nr' -> c < nc -> c' < nc' -> (forall s, s <= r -> pix im s c = pix im' s c') ->
  pix (desmear_img a im) r c = pix (desmear_img a im') r c'.
Proof. exact desmear_local. Qed.
Print Assumptions C29_local.

(** A NaN (as left by correct_bad_pixels) spreads over the rest of its column. *)
Theorem C29_nan : forall a im nr nc s r c, rectangular im nr nc -> s <= r -> r < nr -> c < nc ->
  pix im s c = Some NaN -> pix (desmear_img a im) r c = Some NaN.
Proof. exact desmear_nan. Qed.
Print Assumptions C29_nan.

(** Read time 1, exposure time 2: the true columns (2, 4) and (6, 0), smeared. *)
Definition ex_im : image := [[Fin 3; Fin 9]; [Fin 7; Fin 3]].
Example C29_example :
  match desmear (Some 1%Q) [mkd ex_im (Some 2%Q)] with
  | Ok [g] => map (map (fun v => match v with Fin q => Qred q | _ => 0%Q end)) (d_img g) = [[2; 6]; [4; 0]]%Q
  | _ => False
  end
  /\ smeared (1 # 2) 2 (fun r => nth r [2; 4]%Q 0%Q) (fun r => nth r [3; 7]%Q 0%Q)
  /\ rectangular ex_im 2 2 /\ col_is ex_im 0 (fun r => nth r [3; 7]%Q 0%Q)
  /\ desmear (Some 1%Q) [mkd ex_im (Some 2%Q); mkd ex_im (Some 0%Q)] = Raise PyException
  /\ desmear None [] = Raise KeyError.
Proof.
  split; [reflexivity|]. split.
  { intros r Hr. destruct r as [|[|r]]; [reflexivity|reflexivity|]. do 2 apply Nat.succ_lt_mono in Hr. inversion Hr. }
  split; [split; [reflexivity|repeat constructor]|].
  split; [|split; reflexivity].
  intros r Hr. destruct r as [|[|r]]; [exists 3%Q; split; reflexivity|exists 7%Q; split; reflexivity|].
  do 2 apply Nat.succ_lt_mono in Hr. inversion Hr.
Qed.
