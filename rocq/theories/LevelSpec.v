(** Specification of the data level updates. *)
From Coq Require Import List Arith Bool String.
From Verif Require Import Base DatasetModel DatasetSpec.
Import ListNotations.
Local Open Scope string_scope.
Local Open Scope list_scope.

(** The levels in order. *)
Definition levels : list string := ["L1"; "L2a"; "L2b"; "L3"; "L4"; "TDA"].
(** The file name tags in order. *)
Definition tags : list string := ["_L1_"; "_L2a"; "_L2b"; "_L3_"; "_L4_"; "_TDA_"].

Section LevelSpec.
Variable V : Type.
(** The data level of an image. *)
Definition level_of (h : heap V) (k : nat) : option string := hget "DATALVL" (hdr V h (im_ext (img V h k))).
Definition all_at (h : heap V) (d : dataset) (l : string) : Prop :=
  forall k, In k (ds_frames d) -> level_of h k = Some l.

(** A dataset as constructed: linked, allocated, not empty, all frames of one
    shape. *)
Definition same_shape (h : heap V) (d : dataset) : Prop :=
  forall f, exists sh, forall k, In k (ds_frames d) -> exists b, view_block V h (im_view f (img V h k)) = Some b /\ shape V b = sh.
Definition Sound (h : heap V) (d : dataset) : Prop :=
  Linked V h d /\ WellFormed V h d /\ ds_frames d <> [] /\ same_shape h d.
End LevelSpec.

(** [t] is the first level tag in the file name [a ++ t ++ b]. *)
Definition first_tag (s a t b : string) : Prop :=
  s = append a (append t b) /\ In t tags
  /\ forall a' t' b', In t' tags -> s = append a' (append t' b') -> (String.length a <= String.length a')%nat.
