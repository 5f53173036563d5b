(** Specification of the cards of detected sources. *)
From Coq Require Import List Arith Reals ZArith String Ascii DecimalString Decimal.
From Verif Require Import Base.
Import ListNotations.
Local Open Scope string_scope.

(** The keyword of number [i]: SNYX and at least three digits. *)
Definition names (k : string) (i : nat) : Prop := exists s d, k = "SNYX" ++ s /\ NilEmpty.uint_of_string s = Some d /\ Nat.of_uint d = i /\ (3 <= String.length s)%nat.
(** Three fields between commas. *)
Definition no_comma (s : string) : Prop := forall a b, s <> a ++ "," ++ b.
Definition fields (v a b c : string) : Prop := v = a ++ "," ++ b ++ "," ++ c /\ no_comma a /\ no_comma b /\ no_comma c.
