(** Vocabulary for two-dimensional arrays and detector regions. *)
From Coq Require Import List Arith ZArith String.
From Verif Require Import Base GeomModel.
Import ListNotations.
Local Open Scope nat_scope.

(** The pixel in row [r] and column [c]. *)
Definition at2 {A} (f : list (list A)) (r c : nat) : option A :=
  match nth_error f r with Some row => nth_error row c | None => None end.

Definition rect {A} (f : list (list A)) (nr nc : nat) : Prop :=
  List.length f = nr /\ Forall (fun row => List.length row = nc) f.

Definition region_of (rg : regions) (arr key : string) (a : area) (s : section) : Prop :=
  lookup arr rg = Some a /\ lookup key (a_secs a) = Some s.

(** The region is not empty and lies in the frame. *)
Definition fits (a : area) (s : section) : Prop :=
  (0 <= s_r0 s /\ 0 <= s_c0 s /\ 0 < s_rows s /\ 0 < s_cols s
   /\ s_r0 s + s_rows s <= a_rows a /\ s_c0 s + s_cols s <= a_cols a)%Z.

Definition inside (s : section) (r c : nat) : Prop :=
  (s_r0 s <= Z.of_nat r < s_r0 s + s_rows s /\ s_c0 s <= Z.of_nat c < s_c0 s + s_cols s)%Z.

Definition full_frame {A} (a : area) (f : list (list A)) : Prop := rect f (Z.to_nat (a_rows a)) (Z.to_nat (a_cols a)).
Definition sub_frame {A} (s : section) (f : list (list A)) : Prop := rect f (Z.to_nat (s_rows s)) (Z.to_nat (s_cols s)).

(** [out] is the part of [f] with corner (r0, c0) and the given shape. *)
Definition part_of {A} (f : list (list A)) (r0 c0 rows cols : Z) (out : list (list A)) : Prop :=
  rect out (Z.to_nat rows) (Z.to_nat cols)
  /\ forall r c, r < Z.to_nat rows -> c < Z.to_nat cols -> at2 out r c = at2 f (Z.to_nat r0 + r) (Z.to_nat c0 + c).

(** The values of row [r] of [f] in the columns lo <= c < hi. *)
Definition row_values {A} (f : list (list A)) (r : nat) (lo hi : Z) (l : list A) : Prop :=
  List.length l = Z.to_nat (hi - lo) /\ forall j, j < Z.to_nat (hi - lo) -> nth_error l j = at2 f r (Z.to_nat lo + j).

(** col_start and col_end are declared and lie in the prescan. *)
Definition usable_cols (sp : section) (st en : Z) : Prop := s_st sp = Some st /\ s_end sp = Some en /\ (0 <= st <= en)%Z /\ (en <= s_cols sp)%Z.

Section BiasSpec.
Context {V D : Type}.
(** A full frame of the given array type. *)
Definition frame_ok (arr : string) (a : area) (f : @bframe V D) : Prop :=
  b_arr f = Some arr /\ full_frame a (b_data f) /\ full_frame a (b_dq f) /\ Forall (full_frame a) (b_err f).
Variable sub : V -> V -> V.
Variable med sterr : list V -> V.

(** The bias-subtracted image: the region with corner (r0, c0), each of whose
    rows is reduced by the bias measured in columns [lo, hi) of the detector row
    [brow r]. *)
Definition bias_subtracted (f : list (list V)) (r0 c0 rows cols : Z) (brow : nat -> nat) (lo hi : Z) (offset : V)
    (o : @oframe V D) : Prop :=
  rect (o_data o) (Z.to_nat rows) (Z.to_nat cols)
  /\ rect (o_term o) (Z.to_nat rows) (Z.to_nat cols)
  /\ List.length (o_bias o) = Z.to_nat rows
  /\ forall r, r < Z.to_nat rows -> exists l, row_values f (brow r) lo hi l
       /\ nth_error (o_bias o) r = Some (sub (med l) offset)
       /\ forall c, c < Z.to_nat cols ->
            at2 (o_data o) r c = option_map (fun v => sub v (sub (med l) offset)) (at2 f (Z.to_nat r0 + r) (Z.to_nat c0 + c))
            /\ at2 (o_term o) r c = Some (sterr l).
End BiasSpec.
