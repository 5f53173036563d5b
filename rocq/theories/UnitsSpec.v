(** Specification of error propagation. *)
From Coq Require Import List Arith Bool QArith Reals Qreals.
From Verif Require Import Base CosmicModel DarkModel UnitsModel.
Import ListNotations.
Local Open Scope nat_scope.

(** The frame has [n] pixels and error layers of that size, at least one. *)
Definition well_formed (n : nat) (f : uframe) : Prop :=
  List.length (u_data f) = n /\ Forall (fun l => List.length l = n) (u_err f) /\ u_err f <> [].

Definition comb (f : uframe) (i : nat) (e : R) : Prop := exists l0 rest, u_err f = l0 :: rest /\ nth_error l0 i = Some (Some e).
(** Pixel [i] has the value [d] with the combined error [e] (both finite). *)
Definition pixel (f : uframe) (i : nat) (d e : R) : Prop := nth_error (u_data f) i = Some (Some d) /\ comb f i e.
Definition layer_px (f : uframe) (j i : nat) (v : option R) : Prop := exists l, nth_error (u_err f) j = Some l /\ nth_error l i = Some v.

(** Nothing but the pixels and errors changes. *)
Definition same_meta (f o : uframe) : Prop := u_cr o = u_cr f /\ u_t o = u_t f.

(** [v'] with error [e'] is the quotient of [v] (error [e]) and [w] (error
    [s]): relative variances add. *)
Definition relative (e v : R) : R := (e * e / (v * v))%R.

(** k gain: value times k, variance (k e)^2 + (d s)^2; the other layers are
    zeroed. *)
Definition converted (n : nat) (k s : R) (f o : uframe) : Prop :=
  same_meta f o /\ well_formed n o /\ List.length (u_err o) = List.length (u_err f)
  /\ (forall i d e, pixel f i d e -> exists e', pixel o i (d * k) e' /\ (0 <= e')%R /\ (e' * e' = k * e * (k * e) + d * s * (d * s))%R)
  /\ (forall i, nth_error (u_data f) i = Some None -> nth_error (u_data o) i = Some None /\ layer_px o 0 i None)
  /\ (forall i, layer_px f 0 i None -> layer_px o 0 i None)
  /\ (forall j i, 0 < j -> j < List.length (u_err f) -> i < n -> layer_px o j i (Some 0%R)).

(** Flat field: on pixels with a non-zero flat w (error s). *)
Definition flattened (track : bool) (n : nat) (flat ferr : list (option R)) (f o : uframe) : Prop :=
  same_meta f o /\ well_formed n o
  /\ List.length (u_err o) = (if track then S (List.length (u_err f)) else List.length (u_err f))
  /\ (forall i d e w s, pixel f i d e -> nth_error flat i = Some (Some w) -> nth_error ferr i = Some (Some s) -> w <> 0%R ->
        exists d' e', pixel o i d' e' /\ (d' * w = d)%R /\ (0 <= e')%R
          /\ (e' * e' * (w * w * (w * w)) = e * e * (w * w) + d * d * (s * s))%R)
  /\ (forall i w, nth_error flat i = Some w -> i < n -> (w = None \/ w = Some 0%R) -> nth_error (u_data o) i = Some None)
  /\ (forall j i x w, 0 < j -> layer_px f j i (Some x) -> nth_error flat i = Some (Some w) -> w <> 0%R ->
        exists y, layer_px o j i (Some y) /\ (y * w = x)%R)
  /\ (track = true -> forall i d w s, nth_error (u_data f) i = Some (Some d) -> nth_error flat i = Some (Some w) -> nth_error ferr i = Some (Some s) -> w <> 0%R ->
        exists y, layer_px o (List.length (u_err f)) i (Some y) /\ (y * (w * w) = d * s)%R).

(** Exposure time: values and all error layers are divided. *)
Definition per_second (n : nat) (f o : uframe) : Prop :=
  same_meta f o /\ well_formed n o /\ List.length (u_err o) = List.length (u_err f)
  /\ exists t, u_t f = Some t /\ ~ (t == 0)%Q
     /\ (forall i d, nth_error (u_data f) i = Some (Some d) -> exists d', nth_error (u_data o) i = Some (Some d') /\ (d' * Q2R t = d)%R)
     /\ (forall i, nth_error (u_data f) i = Some None -> nth_error (u_data o) i = Some None)
     /\ (forall j i x, layer_px f j i (Some x) -> exists y, layer_px o j i (Some y) /\ (y * Q2R t = x)%R)
     /\ (forall j i, layer_px f j i None -> layer_px o j i None).

(** The gain used for the excess noise: measured, else applied if positive, else
    commanded, with missing cards read as 0. *)
Definition card0 (x : option Q) : Q := match x with Some q => q | None => 0%Q end.
Definition noise_gain (h : cr_header) (g : Q) : Prop :=
  h_gm h = Some g \/ h_gm h = None /\ ((0 < card0 (h_ga h))%Q /\ g = card0 (h_ga h) \/ (card0 (h_ga h) <= 0)%Q /\ g = card0 (h_gc h)).

(** Photon noise: the variance grows by the signal, twice that with EM gain. *)
Definition noisy (track : bool) (n : nat) (f o : uframe) : Prop :=
  same_meta f o /\ well_formed n o /\ u_data o = u_data f
  /\ List.length (u_err o) = (if track then S (List.length (u_err f)) else List.length (u_err f))
  /\ (forall i d e g, pixel f i d e -> noise_gain (u_cr f) g -> (0 <= d)%R ->
        exists e', pixel o i d e' /\ (0 <= e')%R
          /\ ((1 < g)%Q -> (e' * e' = e * e + 2 * d)%R) /\ ((g <= 1)%Q -> (e' * e' = e * e + d)%R))
  /\ (forall i d, nth_error (u_data f) i = Some (Some d) -> (d < 0)%R -> layer_px o 0 i None)
  /\ (forall j i v, 0 < j -> layer_px f j i v -> layer_px o j i v).
