(** Property theorems C15. *)
From Coq Require Import List Arith NArith Bool String Lia.
From Verif Require Import Base BitsModel BitsProofs.
Import ListNotations.
Local Open Scope nat_scope.

(** Packing inverts unpacking on every array of 64-bit integers. *)
Theorem C15_pack_unpack : forall arr, (forall n, In n arr -> (n < 2 ^ 64)%N) -> packbits (unpackbits arr) = Ok arr.
Proof. exact pack_unpack. Qed.
Print Assumptions C15_pack_unpack.

(** Unpacking inverts packing on every bit array whose length is a multiple of
    64 (elements other than 0 count as 1). *)
Theorem C15_unpack_pack : forall m bits, List.length bits = 64 * m ->
  exists arr, packbits bits = Ok arr /\ List.length arr = m /\ (forall n, In n arr -> (n < 2 ^ 64)%N)
              /\ unpackbits arr = map (fun x => if N.eqb x 0 then 0%N else 1%N) bits.
Proof. exact unpack_pack. Qed.
Print Assumptions C15_unpack_pack.

(** Element 63 - k of each group of 64 is bit k. *)
Theorem C15_bit_position : forall arr i n k, nth_error arr i = Some n -> k < 64 ->
  nth_error (unpackbits arr) (64 * i + (63 - k)) = Some (if N.testbit n (N.of_nat k) then 1%N else 0%N).
Proof. exact unpack_nth. Qed.
Print Assumptions C15_bit_position.

Theorem C15_unpack_length : forall arr, List.length (unpackbits arr) = 64 * List.length arr.
Proof. exact unpack_length. Qed.
Print Assumptions C15_unpack_length.

(** Packing fails exactly when the bytes do not fill 64-bit words. *)
Theorem C15_pack_fails : forall bits, packbits bits = Raise ValueError <-> ((List.length bits + 7) / 8) mod 8 <> 0.
Proof. exact pack_fail. Qed.
Print Assumptions C15_pack_fails.

(** A last byte that is not full is completed with zeros. *)
Theorem C15_pack_pads : forall bits k, k < 8 -> (List.length bits + k) mod 8 = 0 -> packbits (bits ++ repeat 0%N k) = packbits bits.
Proof. exact pack_pads. Qed.
Print Assumptions C15_pack_pads.

Example C15_example :
  packbits (unpackbits [5; 2 ^ 63; 0; 256]%N) = Ok [5; 2 ^ 63; 0; 256]%N
  /\ nth_error (unpackbits [1; 256]%N) (64 + 55) = Some 1%N
  /\ packbits (repeat 1%N 63) = Ok [2 ^ 64 - 2]%N /\ packbits (repeat 1%N 56) = Raise ValueError.
Proof. repeat split. Qed.

(** The flag maps are inverse to each other; the bits are 0 to 8 and the value
    of a flag is 2 to its bit. *)
Theorem C15_bit_flag : forall name bit, dget String.eqb name flag_to_bit = Some bit <-> dget N.eqb bit bit_to_flag = Some name.
Proof. exact bit_flag. Qed.
Print Assumptions C15_bit_flag.

Theorem C15_value_flag : forall name v, dget String.eqb name flag_to_value = Some v <-> dget N.eqb v value_to_flag = Some name.
Proof. exact value_flag. Qed.
Print Assumptions C15_value_flag.

Theorem C15_flag_value : forall name v,
  dget String.eqb name flag_to_value = Some v <-> exists b, dget String.eqb name flag_to_bit = Some b /\ v = (2 ^ b)%N.
Proof. exact flag_value. Qed.
Print Assumptions C15_flag_value.

Theorem C15_bits_onto : forall bit, (bit <= 8)%N <-> exists name, dget N.eqb bit bit_to_flag = Some name.
Proof. exact bits_onto. Qed.
Print Assumptions C15_bits_onto.

Example C15_flags : dget String.eqb "pixel_affected_by_cosmic_ray"%string flag_to_value = Some 128%N /\ dget N.eqb 256%N value_to_flag = Some "TBD"%string.
Proof. split; reflexivity. Qed.
