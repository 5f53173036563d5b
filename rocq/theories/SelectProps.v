(** Property theorem C17. *)
From Coq Require Import List Arith Bool QArith ZArith String.
From Verif Require Import Base SelectModel SelectSpec SelectProofs.
Import ListNotations.
Local Open Scope string_scope.
Local Open Scope list_scope.
Local Open Scope nat_scope.

(** The outcome of frame_select: which frames come back, in which order, with
    which cards and history; and when it raises instead. *)
Theorem C17_frame_select : forall X s (fs : list (sframe X)), Forall dq_nonneg fs -> select_spec s fs (frame_select s fs).
Proof. exact @frame_select_spec. Qed.
Print Assumptions C17_frame_select.

(** The reject code: bit k is set exactly when the k-th criterion is violated. *)
Theorem C17_code_bits : forall X s (f : sframe X) l r, dq_nonneg f -> reasons s f = Ok l ->
  (N.testbit (flags l) (N.log2 (code r)) = true <-> violates s f r).
Proof. exact @code_bits. Qed.
Print Assumptions C17_code_bits.

Theorem C17_codes_distinct : forall r r', code r = code r' -> r = r'.
Proof. exact codes_distinct. Qed.
Print Assumptions C17_codes_distinct.

(** A DQ value with the sign bit set counts as a good pixel whatever its other
    bits, unless the allowed mask clears that bit too. *)
Theorem C17_sign_bit_refuted : forall a d, (d < 0)%Z -> (0 <= a)%Z -> bad_count a [d] = 0 /\ has_disallowed a d.
Proof. exact sign_bit. Qed.
Print Assumptions C17_sign_bit_refuted.

(** Four frames: good, 3 of 4 pixels bad (one of them allowed), overexposed,
    good but with tilt jitter. *)
Definition sf (n : string) (dq : list Z) (o : bool) (v : Q) : sframe nat :=
  mkf n dq (Some o) (Some 1%Q) (Some v) None None None None [] 7.
Definition ex_s (d : bool) : setting := mkset (1 # 2) 6 true (Some 2%Q) None d.
Definition ex_fs : list (sframe nat) :=
  [sf "a" [0; 2; 4; 8]%Z false 1; sf "b" [1; 8; 9; 2]%Z false 1; sf "c" [0; 0; 0; 0]%Z true 3; sf "d" [0; 0; 1; 1]%Z false 2].
Example C17_example :
  match frame_select (ex_s true) ex_fs with
  | Ok l => map f_name l = ["a"; "d"]
      /\ map f_hist l = [[mknote true [("b", [BadPix]); ("c", [OverExp; TiltRms])]]; [mknote true [("b", [BadPix]); ("c", [OverExp; TiltRms])]]]
  | Raise _ => False
  end
  /\ match frame_select (ex_s false) ex_fs with
     | Ok l => map f_isbad l = [None; Some true; Some true; None] /\ map f_name l = ["a"; "b"; "c"; "d"]
     | Raise _ => False
     end
  /\ frame_select (ex_s true) [sf "c" [0]%Z true 3] = Raise ValueError
  /\ Forall dq_nonneg ex_fs /\ violates (ex_s true) (nth 1 ex_fs (sf "" [] false 0)) BadPix.
Proof.
  split; [split; reflexivity|]. split; [split; reflexivity|]. split; [reflexivity|].
  split; [repeat constructor; discriminate|].
  apply (reasons_of nat (ex_s true) (nth 1 ex_fs (sf "" [] false 0)) [BadPix]); [repeat constructor; discriminate|reflexivity|].
  left. reflexivity.
Qed.
