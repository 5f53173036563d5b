(** Specification of DQ flagging and EM gain use. *)
From Coq Require Import List Arith Bool QArith NArith String.
From Verif Require Import Base FloatModel NonlinModel NonlinSpec CosmicModel CosmicSpec DqModel.
Import ListNotations.
Local Open Scope nat_scope.

(** Bit [b] of the DQ of pixel [j] of a frame is set. *)
Definition bit_set (f : frame) (j : nat) (b : N) : Prop := exists p, nth_error (f_px f) j = Some p /\ N.testbit (snd p) b = true.

(** The value of a pixel. *)
Definition pixel (f : frame) (j : nat) (v : fl) : Prop := exists q, nth_error (f_px f) j = Some (v, q).

(** [new f j b]: the step may set bit [b] at pixel [j]; exactly these are added. *)
Definition adds_exactly (new : nat -> N -> Prop) (f f' : frame) : Prop :=
  List.length (f_px f') = List.length (f_px f) /\ f_hdr f' = f_hdr f
  /\ forall j b, bit_set f' j b <-> bit_set f j b \/ (j < List.length (f_px f) /\ new j b).

(** Frame by frame. *)
Definition each (P : frame -> frame -> Prop) (fs fs' : list frame) : Prop :=
  List.length fs' = List.length fs /\ forall i f f', nth_error fs i = Some f -> nth_error fs' i = Some f' -> P f f'.

Definition has_bad (l : list step) : Prop := exists bp, In (SBad bp) l.

(** Value relations. *)
Definition exceeds (v thr : fl) : Prop :=
  match v, thr with
  | Fin a, Fin t => (t < a)%Q
  | Fin _, Inf s => s = true
  | Inf s, Fin _ => s = false
  | Inf s, Inf t => s = false /\ t = true
  | _, _ => False
  end.
Definition at_least (v : fl) (t : Q) : Prop :=
  match v with Fin a => (t <= a)%Q | Inf s => s = false | NaN => False end.
Definition zero (v : fl) : Prop := match v with Fin a => (a == 0)%Q | _ => False end.

(** One of the lowest eight bits is set in the DQ [q] or in the map entry [b]. *)
Definition low_bits (q b : N) : Prop := exists k, (k < 8)%N /\ (N.testbit q k = true \/ N.testbit b k = true).

(** Every set bit satisfying [P] stays set; shapes and headers are kept. *)
Definition keeps (P : N -> Prop) (fs fs' : list frame) : Prop :=
  each (fun f f' => List.length (f_px f') = List.length (f_px f) /\ f_hdr f' = f_hdr f /\ forall j b, P b -> bit_set f j b -> bit_set f' j b) fs fs'.
