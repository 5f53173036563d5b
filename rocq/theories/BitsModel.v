(** data.py unpackbits_64uint 2598-2611, packbits_64uint 2613-2624 and the flag
    maps 2626-2681.  Arrays are one-dimensional (or any axis other than the
    packed one is fixed): axis must be the last axis, along which .view('u1')
    expands each element into its 8 bytes. *)
From Coq Require Import List Arith NArith Bool String.
From Verif Require Import Base.
Import ListNotations.
Local Open Scope nat_scope.

(** The [m] most-significant-first digits of [n] in base [B]. *)
Fixpoint digits (B : N) (m : nat) (n : N) : list N :=
  match m with 0 => [] | S m' => digits B m' (n / B) ++ [(n mod B)%N] end.
Definition undigits (B : N) (l : list N) : N := fold_left (fun acc d => (B * acc + d)%N) l 0%N.

(** 2609-2611: .astype('>u8').view('u1'), then np.unpackbits(bitorder='big'). *)
Definition view_u1 (arr : list N) : list N := flat_map (digits 256 8) arr.
Definition np_unpackbits (bytes : list N) : list N := flat_map (digits 2 8) bytes.
Definition unpackbits (arr : list N) : list N := np_unpackbits (view_u1 arr).

(** np.packbits: any non-zero element counts as 1; the last byte is padded with
    zeros. *)
Definition bit01 (x : N) : N := if N.eqb x 0 then 0%N else 1%N.
Fixpoint np_packbits (bits : list N) : list N :=
  match bits with
  | [] => []
  | a :: b :: c :: d :: e :: f :: g :: h :: t => undigits 2 (map bit01 [a; b; c; d; e; f; g; h]) :: np_packbits t
  | l => [undigits 2 (map bit01 (l ++ repeat 0%N (8 - List.length l)))]
  end.
(** .view('>u8'): the byte count must be a multiple of 8 (ValueError). *)
Fixpoint view_u8 (bytes : list N) : result (list N) :=
  match bytes with
  | [] => Ok []
  | a :: b :: c :: d :: e :: f :: g :: h :: t => do r <- view_u8 t; Ok (undigits 256 [a; b; c; d; e; f; g; h] :: r)
  | _ => Raise ValueError
  end.
Definition packbits (bits : list N) : result (list N) := view_u8 (np_packbits bits).

(** Dictionaries as association lists; a repeated key is overwritten. *)
Section Dict.
Context {K V : Type} (eqb : K -> K -> bool).
Definition dict := list (K * V).
Fixpoint dput (k : K) (v : V) (d : dict) : dict :=
  match d with
  | [] => [(k, v)]
  | (k', v') :: t => if eqb k k' then (k, v) :: t else (k', v') :: dput k v t
  end.
Fixpoint dget (k : K) (d : dict) : option V :=
  match d with [] => None | (k', v') :: t => if eqb k k' then Some v' else dget k t end.
Definition dict_of (l : list (K * V)) : dict := fold_left (fun d kv => dput (fst kv) (snd kv) d) l [].
End Dict.

Local Open Scope string_scope.
(** 2633-2643 *)
Definition flag_to_bit : list (string * N) :=
  dict_of String.eqb
  [("bad_pixel_unspecified", 0%N); ("data_replaced_by_filled_value", 1%N); ("bad_pixel", 2%N); ("hot_pixel", 3%N); ("not_used", 4%N);
   ("full_well_saturated_pixel", 5%N); ("non_linear_pixel", 6%N); ("pixel_affected_by_cosmic_ray", 7%N); ("TBD", 8%N)].
(** 2655, 2669, 2681 *)
Definition flag_to_value : list (string * N) := dict_of String.eqb (map (fun kv => (fst kv, N.shiftl 1 (snd kv))) flag_to_bit).
Definition value_to_flag : list (N * string) := dict_of N.eqb (map (fun kv => (snd kv, fst kv)) flag_to_value).
Definition bit_to_flag : list (N * string) := dict_of N.eqb (map (fun kv => (snd kv, fst kv)) flag_to_bit).
