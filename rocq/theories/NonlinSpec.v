(** Specification of relative gains: clamped bilinear interpolation. *)
From Coq Require Import List Arith Bool QArith Sorted.
From Verif Require Import Base FloatModel NonlinModel.
Import ListNotations.
Local Open Scope nat_scope.

(** [v] is the value at [x] of the broken line through the points (xs, ys),
    continued by constants on both sides. *)
Definition on_line (xs ys : list Q) (x v : Q) : Prop :=
  (exists xf yf, nth_error xs 0 = Some xf /\ nth_error ys 0 = Some yf /\ (x <= xf)%Q /\ (v == yf)%Q)
  \/ (exists xl yl, nth_error xs (List.length xs - 1) = Some xl /\ nth_error ys (List.length xs - 1) = Some yl /\ (xl <= x)%Q /\ (v == yl)%Q)
  \/ (exists i x0 x1 y0 y1, nth_error xs i = Some x0 /\ nth_error xs (S i) = Some x1 /\ nth_error ys i = Some y0 /\ nth_error ys (S i) = Some y1
      /\ (x0 <= x <= x1)%Q /\ (v * (x1 - x0) == y0 * (x1 - x) + y1 * (x - x0))%Q).

(** The table has one row per count with one entry per gain. *)
Definition well_shaped (c : relcal) : Prop :=
  List.length (rc_table c) = List.length (rc_counts c)
  /\ forall row, In row (rc_table c) -> List.length row = List.length (rc_gains c).

(** Every column reaches 1 from both sides. *)
Definition straddles (c : relcal) : Prop :=
  forall j, j < List.length (rc_gains c) ->
    (exists row y, In row (rc_table c) /\ nth_error row j = Some y /\ (y <= 1)%Q)
    /\ (exists row y, In row (rc_table c) /\ nth_error row j = Some y /\ (1 <= y)%Q).

Definition increasing (l : list Q) : Prop := StronglySorted Qlt l.

(** The relative gain [v] for gain [g] at [x] counts. *)
Definition relgain_at (c : relcal) (g x v : Q) : Prop :=
  exists curve, List.length curve = List.length (rc_counts c)
    /\ (forall k row y, nth_error (rc_table c) k = Some row -> nth_error curve k = Some y -> on_line (rc_gains c) row g y)
    /\ on_line (rc_counts c) curve x v.

(** The tables get_relgains accepts. *)
Definition usable (c : relcal) : Prop :=
  increasing (rc_gains c) /\ increasing (rc_counts c) /\ straddles c /\ 2 <= List.length (rc_gains c) /\ 2 <= List.length (rc_counts c).

(** What a pixel gets: NaN for NaN, the edge values for infinities. *)
Definition pixel_gain (c : relcal) (g : Q) (p w : fl) : Prop :=
  match p with
  | NaN => w = NaN
  | Fin x => exists v, w = Fin v /\ relgain_at c g x v
  | Inf _ => exists v x, w = Fin v /\ nth_error (rc_counts c) (match p with Inf true => 0 | _ => List.length (rc_counts c) - 1 end) = Some x /\ relgain_at c g x v
  end.
