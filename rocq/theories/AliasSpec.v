(** What a step from L1 to L3 may do to the datasets that exist when it is called, and what its result is made of. *)
From Coq Require Import List Arith Bool String.
From Verif Require Import Base DatasetModel DatasetSpec AliasModel.
Import ListNotations.

Section AliasSpec.
Variable V : Type.
Notation heap := (heap V).
Notation step := (step V).

(** A dataset whose frames are different objects, with arrays and headers that exist, and three different cubes with one block for each frame (a frame need not be a view of its cube) *)
Definition Sound (h : heap) (d : dataset) : Prop :=
  WellFormed V h d /\ NoDup (ds_frames d)
  /\ (forall f f', cube f d = cube f' d -> f = f')
  /\ (forall f, List.length (buf V h (cube f d)) = List.length (ds_frames d))
  /\ (forall k f, In k (ds_frames d) -> nth_error (buf V h (fst (im_view f (img V h k)))) (snd (im_view f (img V h k))) <> None).
(** All pixels, by the cubes and by the frames *)
Definition SamePixels (h : heap) (o : dataset) (h' : heap) : Prop :=
  forall f i l p, cube_pixel V h' o f i l p = cube_pixel V h o f i l p /\ frame_pixel V h' o f i l p = frame_pixel V h o f i l p.
(** A header object that is the extension header or the error header of a frame of [d] *)
Definition HeaderOf (h : heap) (d : dataset) (a : nat) : Prop := exists k, In k (ds_frames d) /\ (a = im_ext (img V h k) \/ a = im_errh (img V h k)).

(** The steps that copy with copy_data=False *)
Definition shares_headers (s : step) : bool := match s with Prescan _ _ _ _ | Level _ _ _ _ => true | _ => false end.
(** The steps whose result has frames apart from its cubes *)
Definition detaches (s : step) : bool := match s with EmGain _ _ _ _ | ExpTime _ _ _ => true | _ => false end.
(** The step that splits its input *)
Definition splits_input (s : step) : bool := match s with DarkSub _ _ _ _ => true | _ => false end.

(** Frames and cubes hold the same values *)
Definition Agree (h : heap) (d : dataset) : Prop := forall f i l p, frame_pixel V h d f i l p = cube_pixel V h d f i l p.
(** No frame has its data in the cube *)
Definition Detached (h : heap) (d : dataset) : Prop := forall k, In k (ds_frames d) -> fst (im_data (img V h k)) <> ds_data d.
End AliasSpec.
