(** Specification of cropping. *)
From Coq Require Import List Arith QArith Qabs ZArith String.
From Verif Require Import Base CropModel.
Import ListNotations.
Local Open Scope Z_scope.
Local Open Scope list_scope.

(** The pixel value at row [i], column [j] (counted from 0). *)
Definition pix {X} (p : list (list X)) (i j : nat) : option X := match nth_error p i with Some r => nth_error r j | None => None end.
(** The plane has [h] rows of [w] pixels. *)
Definition sized {X} (h w : Z) (p : list (list X)) : Prop := Z.of_nat (List.length p) = h /\ Forall (fun r => Z.of_nat (List.length r) = w) p.
Definition wf {V E D} (f : cframe V E D) : Prop :=
  Forall (sized (c_h f) (c_w f)) (c_data f) /\ Forall (Forall (sized (c_h f) (c_w f))) (c_err f) /\ Forall (sized (c_h f) (c_w f)) (c_dq f).

(** [r] numbers the pixel corner nearest to the coordinate [c]: the corner
    between pixels [r] and [r+1], at r + 1/2; the even one on a tie. *)
Definition corner (c : Q) (r : Z) : Prop :=
  (Qabs (c - (1 # 2) - inject_Z r) <= 1 # 2)%Q /\ ((Qabs (c - (1 # 2) - inject_Z r) == 1 # 2)%Q -> Z.Even r).

(** [p'] is the part of [p] of size sx x sy whose first pixel is column x1 of row y1. *)
Definition window {X} (x1 y1 sx sy : Z) (p p' : list (list X)) : Prop :=
  sized sy sx p' /\ forall i j, Z.of_nat i < sy -> Z.of_nat j < sx -> pix p' i j = pix p (i + Z.to_nat y1) (j + Z.to_nat x1).

(** A header pair (x, y) moves with the window; absent when the first is. *)
Definition moved (a b a' b' : option Q) (x1 y1 : Z) : Prop :=
  (a = None /\ a' = None /\ b' = b) \/ exists p q, a = Some p /\ b = Some q /\ a' = Some (p - inject_Z x1)%Q /\ b' = Some (q - inject_Z y1)%Q.
(** The detector position of the first pixel, 0 when absent. *)
Definition origin (a b a' b' : option Q) (x1 y1 : Z) : Prop :=
  (a = None /\ a' = Some (0 + inject_Z x1)%Q /\ b' = Some (0 + inject_Z y1)%Q)
  \/ exists p q, a = Some p /\ b = Some q /\ a' = Some (p + inject_Z x1)%Q /\ b' = Some (q + inject_Z y1)%Q.

Definition framed {V E D} (sx sy rx ry : Z) (f g : cframe V E D) : Prop :=
  let x1 := rx + 1 - sx / 2 in let y1 := ry + 1 - sy / 2 in
  let planes := Some (Z.of_nat (List.length (c_data f))) in let layers := Some (Z.of_nat (List.length (c_err f))) in
  0 <= x1 /\ x1 + sx <= c_w f /\ 0 <= y1 /\ y1 + sy <= c_h f /\ (c_ndim f = 2 \/ c_ndim f = 3)%nat
  /\ c_ndim g = c_ndim f /\ c_h g = sy /\ c_w g = sx
  /\ Forall2 (window x1 y1 sx sy) (c_data f) (c_data g) /\ Forall2 (Forall2 (window x1 y1 sx sy)) (c_err f) (c_err g) /\ Forall2 (window x1 y1 sx sy) (c_dq f) (c_dq g)
  /\ let h := c_hdr f in let k := c_hdr g in
     moved (h_starx h) (h_stary h) (h_starx k) (h_stary k) x1 y1 /\ moved (h_crpix1 h) (h_crpix2 h) (h_crpix1 k) (h_crpix2 k) x1 y1
     /\ origin (h_det0x h) (h_det0y h) (h_det0x k) (h_det0y k) x1 y1 /\ h_lsam k = h_lsam h
     /\ h_ext_naxis k = (Some sx, Some sy, if Nat.eqb (c_ndim f) 3 then planes else snd (h_ext_naxis h))
     /\ h_dq_naxis k = (Some sx, Some sy, if Nat.eqb (c_ndim f) 3 then Some (Z.of_nat (List.length (c_dq f))) else snd (h_dq_naxis h))
     /\ h_err_naxis k = (Some sx, Some sy, if Nat.eqb (c_ndim f) 3 then planes else layers, if Nat.eqb (c_ndim f) 3 then layers else snd (h_err_naxis h)).

(** The size and the corner the windows are centred on. *)
Definition asked_size {V E D} (s : size) (f : cframe V E D) (sx sy : Z) : Prop :=
  match s with
  | SzNone => h_lsam (c_hdr f) = Some "NFOV"%string /\ sx = 60 /\ sy = 60
  | SzInt n => sx = n /\ sy = n
  | SzPair x y => sx = x /\ sy = y
  end.
Definition asked_centre {V E D} (c : centre) (f : cframe V E D) (rx ry : Z) : Prop :=
  exists x y, corner x rx /\ corner y ry /\
  match c with
  | CeNone => h_starx (c_hdr f) = Some x /\ h_stary (c_hdr f) = Some y
  | CeInt z => x = inject_Z z /\ y = inject_Z z
  | CeFloat q => x = q /\ y = q
  | CePair a b => x = a /\ y = b
  end.
Definition nonneg (s : size) : Prop := match s with SzNone => True | SzInt n => 0 <= n | SzPair x y => 0 <= x /\ 0 <= y end.

Definition cropped {V E D} (s : size) (c : centre) (fs out : list (cframe V E D)) : Prop :=
  exists f r sx sy rx ry, fs = f :: r /\ asked_size s f sx sy /\ Z.Even sx /\ Z.Even sy /\ asked_centre c f rx ry
    /\ (forall z, c = CeInt z -> r <> []) /\ Forall2 (framed sx sy rx ry) fs out.

(** The window leaves the frame. *)
Definition outside {V E D} (sx sy rx ry : Z) (f : cframe V E D) : Prop :=
  let x1 := rx + 1 - sx / 2 in let y1 := ry + 1 - sy / 2 in x1 < 0 \/ c_w f < x1 + sx \/ y1 < 0 \/ c_h f < y1 + sy.
