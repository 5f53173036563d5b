(** Property theorems C47: relative gains. *)
From Coq Require Import List Arith Bool QArith Sorted Lia.
From Verif Require Import Base BaseProofs FloatModel NonlinModel NonlinSpec NonlinProofs.
Import ListNotations.
Local Open Scope nat_scope.

(** get_relgains fails exactly on unusable tables and otherwise gives every
    pixel the clamped bilinear interpolation. *)
Theorem C47_relgains : forall c g frame, well_shaped c ->
  match get_relgains (Some c) g frame with
  | Ok l => usable c /\ List.length l = List.length frame
            /\ forall i p w, nth_error frame i = Some p -> nth_error l i = Some w -> pixel_gain c g p w
  | Raise _ => ~ usable c
  end.
Proof. exact get_relgains_spec. Qed.
Print Assumptions C47_relgains.

Theorem C47_no_table : forall g frame, get_relgains None g frame = Ok (map (fun _ => Fin 1) frame).
Proof. exact (fun g frame => eq_refl). Qed.
Print Assumptions C47_no_table.

(** The interpolated value is determined by the table. *)
Theorem C47_unique : forall c g x v w, well_shaped c -> usable c -> relgain_at c g x v -> relgain_at c g x w -> (v == w)%Q.
Proof. exact relgain_unique. Qed.
Print Assumptions C47_unique.

(** It never leaves the range of the table. *)
Theorem C47_bounds : forall c g x v lo hi, well_shaped c -> usable c -> relgain_at c g x v ->
  (forall row y, In row (rc_table c) -> In y row -> (lo <= y <= hi)%Q) -> (lo <= v <= hi)%Q.
Proof. exact relgain_bounds. Qed.
Print Assumptions C47_bounds.

(** It reproduces the table at its nodes. *)
Theorem C47_nodes : forall c j k g x row y, well_shaped c -> usable c ->
  nth_error (rc_gains c) j = Some g -> nth_error (rc_counts c) k = Some x -> nth_error (rc_table c) k = Some row -> nth_error row j = Some y ->
  relgain_at c g x y.
Proof. exact relgain_node. Qed.
Print Assumptions C47_nodes.

Definition ex_cal : relcal := mkrel [1; 10; 100]%Q [0; 1000; 3000]%Q [[9 # 10; 95 # 100; 1]; [1; 1; 1]; [11 # 10; 12 # 10; 13 # 10]]%Q.
Example C47_example :
  match get_relgains (Some ex_cal) 55%Q [Fin 2000; Fin (- 5); NaN; Inf false; Fin 1000] with
  | Ok [Fin a; Fin b; NaN; Fin c; Fin d] => (a == 1125 # 1000 /\ b == 975 # 1000 /\ c == 125 # 100 /\ d == 1)%Q
  | _ => False end
  /\ get_relgains (Some (mkrel [1; 10]%Q [0; 0]%Q [[1; 1]; [1; 1]]%Q)) 2%Q [Fin 0] = Raise ValueError
  /\ get_relgains (Some (mkrel [1; 10]%Q [0; 5]%Q [[2; 1]; [3; 1]]%Q)) 2%Q [Fin 0] = Raise ValueError.
Proof. repeat split. Qed.
