(** Specification of plateau detection, cosmic masks and saturation limits. *)
From Coq Require Import List Arith Bool QArith NArith String Sorted.
From Verif Require Import Base CosmicModel.
Import ListNotations.
Local Open Scope nat_scope.

(** Number of window positions around [i] (width [k], clipped at the ends)
    whose pixel is at or above [t]. *)
Definition bright_around (k : nat) (row : list Q) (t : Q) (i : nat) : nat :=
  List.length (filter (fun j => match nth_error row (min (List.length row - 1) (i + j - k / 2)) with
                                | Some x => Qle_bool t x | None => false end) (seq 0 k)).

(** A column is saturated when enough pixels of the window around it are: the
    window is [cosm_filter + 1] wide and more than half of it (exactly half is
    enough for an even width) must reach the threshold. *)
Definition sat_col (row : list Q) (sat : Q) (cosm_filter i : nat) : Prop :=
  i < List.length row /\
  (cosm_filter + 1) - (cosm_filter + 1) / 2 <= bright_around (cosm_filter + 1) row sat i.

Definition value (row : list Q) (i : nat) (x : Q) : Prop := nth_error row i = Some x.
Definition above (row : list Q) (t : Q) (i : nat) : Prop := exists x, value row i x /\ (t <= x)%Q.
Definition below_t (row : list Q) (t : Q) (i : nat) : Prop := exists x, value row i x /\ (x < t)%Q.

(** [s] starts the maximal run of pixels at or above [t] that ends at [i]; if
    [i] itself is below, the empty run starting after it. *)
Definition run_start (row : list Q) (t : Q) (i s : nat) : Prop :=
  s <= i + 1 /\ (forall j, s <= j <= i -> above row t j) /\ (s = 0 \/ below_t row t (s - 1)).

(** The plateau starts of a row. *)
Definition starts (row : list Q) (fwc sat_thresh plat_thresh : Q) (cosm_filter s : nat) : Prop :=
  exists i, sat_col row (sat_thresh * fwc)%Q cosm_filter i /\ run_start row (plat_thresh * fwc)%Q i s.

(** A hit: a plateau start in the rows and columns searched. *)
Definition hit (frame : list (list Q)) (r0 r1 c0 c1 : nat) (fwc sat_thresh plat_thresh : Q) (cosm_filter i s : nat) : Prop :=
  exists row, nth_error frame i = Some row /\ r0 <= i <= r1 /\ c0 <= s <= c1 /\ starts row fwc sat_thresh plat_thresh cosm_filter s.

(** Row segment of the hit, clipped to the row. *)
Definition in_tail (nc cosm_filter cosm_tail i s r c : nat) : Prop :=
  r = i /\ s <= c <= s + cosm_filter + cosm_tail /\ c < nc.

(** Box of half width [b] around the hit. *)
Definition in_box (b i s r c : nat) : Prop := (i <= r + b /\ r <= i + b) /\ (s <= c + b /\ c <= s + b).

(** The EM gain of a frame. *)
Definition gain_of (h : cr_header) (g : Q) : Prop :=
  h_gm h = Some g
  \/ (h_gm h = None /\ exists a, h_ga h = Some a /\ ((0 < a)%Q /\ g = a \/ (a <= 0)%Q /\ h_gc h = Some g)).
