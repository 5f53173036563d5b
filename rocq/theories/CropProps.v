(** C34: cropping. *)
From Coq Require Import List Arith Bool QArith ZArith String.
From Verif Require Import Base CropModel CropSpec CropProofs.
Import ListNotations.
Local Open Scope Z_scope.
Local Open Scope list_scope.

(** The images returned, for every list of frames of any size: exactly those of
    the specification, and an exception in every other case. *)
Theorem C34_crop : forall V E D s c (fs out : list (cframe V E D)), Forall wf fs -> nonneg s -> (crop s c fs = Ok out <-> cropped s c fs out).
Proof. exact crop_iff. Qed.
Print Assumptions C34_crop.

(** The star stays at the same place of the detector. *)
Theorem C34_sky : forall V E D s c (fs out : list (cframe V E D)) k f g, Forall wf fs -> nonneg s -> crop s c fs = Ok out -> nth_error fs k = Some f -> nth_error out k = Some g ->
  forall x y dx dy, h_starx (c_hdr f) = Some x -> h_stary (c_hdr f) = Some y -> h_det0x (c_hdr f) = Some dx -> h_det0y (c_hdr f) = Some dy ->
  exists x' y' dx' dy', h_starx (c_hdr g) = Some x' /\ h_stary (c_hdr g) = Some y' /\ h_det0x (c_hdr g) = Some dx' /\ h_det0y (c_hdr g) = Some dy'
    /\ (x' + dx' == x + dx)%Q /\ (y' + dy' == y + dy)%Q.
Proof. exact crop_sky. Qed.
Print Assumptions C34_sky.

(** The first frame whose window leaves it stops the call with ValueError. *)
Theorem C34_outside : forall V E D s c (pre post : list (cframe V E D)) f sx sy rx ry out, Forall wf pre -> nonneg s ->
  asked_size s (hd f pre) sx sy -> Z.Even sx -> Z.Even sy -> asked_centre c (hd f pre) rx ry -> Forall2 (framed sx sy rx ry) pre out -> outside sx sy rx ry f ->
  crop s c (pre ++ f :: post) = Raise ValueError.
Proof. exact crop_outside. Qed.
Print Assumptions C34_outside.

(** Odd sizes are refused before anything else is looked at. *)
Theorem C34_odd : forall V E D c (fs : list (cframe V E D)), (forall n, ~ Z.Even n -> crop (SzInt n) c fs = Raise PyException) /\ (forall x y, ~ (Z.Even x /\ Z.Even y) -> crop (SzPair x y) c fs = Raise PyException).
Proof. exact crop_odd. Qed.
Print Assumptions C34_odd.

Definition ex_hdr (l : string) (x y : Q) : chdr := mkchdr (Some l) (Some x) (Some y) (Some x) (Some y) None None (None, None, None) (None, None, None) (None, None, None, None).
Definition ex_frame (l : string) (x y : Q) (b : Z) : cframe Z Z Z :=
  let p := map (fun i => map (fun j => b + 10 * i + j) [0; 1; 2; 3; 4; 5]) [0; 1; 2; 3; 4] in
  mkcframe 2 5 6 [p] [[p]] [p] (ex_hdr l x y).
Example C34_case : exists g, crop (SzPair 2 4) CeNone [ex_frame "NFOV" (26 # 10) (24 # 10) 100] = Ok [g]
  /\ c_data g = [[[112; 113]; [122; 123]; [132; 133]; [142; 143]]]
  /\ match h_starx (c_hdr g), h_stary (c_hdr g), h_det0x (c_hdr g) with Some x, Some y, Some d => x == 6 # 10 /\ y == 14 # 10 /\ d == 2 | _, _, _ => False end%Q.
Proof. eexists. split; [reflexivity|]. split; [reflexivity|]. cbn. split; [reflexivity|]. split; reflexivity. Qed.
Example C34_wf_case : wf (ex_frame "NFOV" (26 # 10) (24 # 10) 100).
Proof. repeat (split || constructor). Qed.
Example C34_outside_case : crop (SzInt 4) (CeFloat (1 # 2)) [ex_frame "NFOV" 2 2 0] = Raise ValueError.
Proof. reflexivity. Qed.

(** Without a centre, every frame is cropped about the first frame's star, not
    about its own, and only the first frame's LSAMNAME is looked at. *)
Theorem C34_own_star_refuted : exists (f f' g g' : cframe Z Z Z), wf f /\ wf f' /\ crop (SzInt 2) CeNone [f; f'] = Ok [g; g'] /\ crop (SzInt 2) CeNone [f'] <> Ok [g'].
Proof.
  exists (ex_frame "NFOV" (25 # 10) (25 # 10) 0), (ex_frame "NFOV" (15 # 10) (15 # 10) 0). do 2 eexists.
  split; [repeat (split || constructor)|]. split; [repeat (split || constructor)|]. split; [reflexivity|]. discriminate.
Qed.
Print Assumptions C34_own_star_refuted.

Definition wide (l : string) (x : Q) : cframe Z Z Z :=
  let p := repeat (repeat 7 62) 64 in mkcframe 2 64 62 [p] [[p]] [p] (ex_hdr l x x).
Theorem C34_lsam_refuted : exists (f f' g g' : cframe Z Z Z), h_lsam (c_hdr f') = Some "WFOV"%string /\ crop SzNone CeNone [f; f'] = Ok [g; g'] /\ crop SzNone CeNone [f'] = Raise PyException.
Proof.
  exists (wide "NFOV" (305 # 10)), (wide "WFOV" (305 # 10)). do 2 eexists. split; [reflexivity|]. split; [vm_compute; reflexivity|vm_compute; reflexivity].
Qed.
Print Assumptions C34_lsam_refuted.

(** An int centre never works with a single frame. *)
Theorem C34_int_centre_refuted : forall V E D s z (f : cframe V E D), exists e, crop s (CeInt z) [f] = Raise e.
Proof. intros V E D s z f. destruct (crop_one_int V E D s z f) as [H|H]; [exists TypeError; exact H|exact H]. Qed.
Print Assumptions C34_int_centre_refuted.
Example C34_int_centre_case : crop (SzInt 2) (CeInt 2) [ex_frame "NFOV" 2 2 0] = Raise TypeError /\ exists g, crop (SzInt 2) (CeInt 2) [ex_frame "NFOV" 2 2 0; ex_frame "NFOV" 2 2 0] = Ok [g; g].
Proof. split; [reflexivity|]. eexists. reflexivity. Qed.
