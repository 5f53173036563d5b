(** Specification of split_dataset. *)
From Coq Require Import List Arith Bool String Sorted.
From Verif Require Import Base DatasetModel DatasetSpec.
Import ListNotations.

Section SplitSpec.
Variable V : Type.

(** The value of keyword number [j] (primary keywords first) of image [k]. *)
Definition keyword_value (h : heap V) (pri ext : list string) (k : nat) (j : nat) : option string :=
  match nth_error pri j with
  | Some key => hget key (hdr V h (im_pri (img V h k)))
  | None => match nth_error ext (j - List.length pri) with
            | Some key => hget key (hdr V h (im_ext (img V h k)))
            | None => None
            end
  end.

(** All keywords are present in the image. *)
Definition has_keywords (h : heap V) (pri ext : list string) (k : nat) : Prop :=
  forall j, (j < List.length pri + List.length ext)%nat -> keyword_value h pri ext k j <> None.

(** Two images agree on every listed keyword. *)
Definition agree (h : heap V) (pri ext : list string) (k k' : nat) : Prop :=
  forall j, (j < List.length pri + List.length ext)%nat ->
    keyword_value h pri ext k j = keyword_value h pri ext k' j.

(** Image [k] has the key tuple [key]. *)
Definition has_key (h : heap V) (pri ext : list string) (k : nat) (key : list string) : Prop :=
  List.length key = (List.length pri + List.length ext)%nat
  /\ forall j, (j < List.length pri + List.length ext)%nat -> keyword_value h pri ext k j = nth_error key j.
End SplitSpec.

(** [leb] is a total order. *)
Definition total_order (leb : string -> string -> bool) : Prop :=
  (forall a b, leb a b = true \/ leb b a = true)
  /\ (forall a b, leb a b = true -> leb b a = true -> a = b)
  /\ (forall a b c, leb a b = true -> leb b c = true -> leb a c = true).

(** Strictly before, on key tuples: at the first difference. *)
Definition key_lt (leb : string -> string -> bool) (a b : list string) : Prop :=
  exists p x y s t, a = p ++ x :: s /\ b = p ++ y :: t /\ x <> y /\ leb x y = true.
