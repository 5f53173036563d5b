(** C49: the photometric steps propagate errors. *)
From Coq Require Import List Arith Bool QArith String Reals Qreals Lra.
From Verif Require Import Base CosmicModel DqModel DarkModel UnitsModel UnitsSpec UnitsProofs.
Import ListNotations.
Local Open Scope list_scope.
Local Open Scope nat_scope.

(** C49a: every frame is multiplied by the k gain, with the variance of a product. *)
Theorem C49_convert_to_electrons : forall n k s fs, Forall (well_formed n) fs ->
  exists out, convert_to_electrons k s fs = Ok out /\ Forall2 (converted n k s) fs out.
Proof. exact convert_all. Qed.
Print Assumptions C49_convert_to_electrons.
(** C49b: in relative terms the variances add. *)
Theorem C49_convert_relative : forall n k s f o i d e e', converted n k s f o -> pixel f i d e -> pixel o i (d * k) e' -> d <> 0%R -> k <> 0%R ->
  (relative e' (d * k) = relative e d + relative s k)%R.
Proof. exact convert_relative. Qed.
Print Assumptions C49_convert_relative.
(** C49c: division by a flat field. *)
Theorem C49_flat_division : forall track n flat ferr fs, List.length flat = n -> List.length ferr = n -> Forall (well_formed n) fs ->
  exists out, flat_division track flat ferr fs = Ok out /\ Forall2 (flattened track n flat ferr) fs out.
Proof. exact flat_all. Qed.
Print Assumptions C49_flat_division.
Theorem C49_flat_relative : forall track n flat ferr f o i d e w s d' e', flattened track n flat ferr f o -> pixel f i d e ->
  nth_error flat i = Some (Some w) -> nth_error ferr i = Some (Some s) -> pixel o i d' e' -> d <> 0%R -> w <> 0%R ->
  (relative e' d' = relative e d + relative s w)%R.
Proof. exact flat_relative. Qed.
Print Assumptions C49_flat_relative.
(** C49d: photon noise. *)
Theorem C49_photon_noise : forall track n fs, Forall (well_formed n) fs ->
  exists out, add_photon_noise track fs = Ok out /\ Forall2 (noisy track n) fs out.
Proof. exact photon_all. Qed.
Print Assumptions C49_photon_noise.
(** C49e: division by the exposure time, which must be present and not zero. *)
Theorem C49_divide_by_exptime : forall n fs, Forall (well_formed n) fs -> Forall (fun f => exists t, u_t f = Some t /\ ~ (t == 0)%Q) fs ->
  exists out, divide_by_exptime fs = Ok out /\ Forall2 (per_second n) fs out.
Proof. exact exptime_all. Qed.
Print Assumptions C49_divide_by_exptime.
Theorem C49_exptime_rejects : forall fs, Exists (fun f => u_t f = None \/ exists t, u_t f = Some t /\ (t == 0)%Q) fs -> exists e, divide_by_exptime fs = Raise e.
Proof. exact exptime_fails. Qed.
Print Assumptions C49_exptime_rejects.

(** C49f (finding): "every error layer is carried into electrons" is false: an
    error layer holding anything other than 0 is lost by the k gain step. *)
Theorem C49_layers_lost_refuted : forall n k s f j i x, well_formed n f -> 0 < j -> layer_px f j i (Some x) -> x <> 0%R ->
  exists o, convert_to_electrons k s [f] = Ok [o] /\ layer_px o j i (Some 0%R).
Proof. exact layers_lost. Qed.
Print Assumptions C49_layers_lost_refuted.

Definition hdr_x : cr_header := mkcrh None None (Some 100%Q) None.
Definition frame_x : uframe := mku [Some 8%R; None] [[Some 3%R; Some 1%R]; [Some 2%R; Some 1%R]] hdr_x (Some 4%Q).
Example C49_frame : well_formed 2 frame_x /\ noise_gain (u_cr frame_x) 100%Q /\ pixel frame_x 0 8 3.
Proof.
  split; [split; [reflexivity|split; [repeat constructor|discriminate]]|]. split.
  - right. split; [reflexivity|]. right. split; [discriminate|reflexivity].
  - split; [reflexivity|]. exists [Some 3%R; Some 1%R], [[Some 2%R; Some 1%R]]. split; reflexivity.
Qed.
Example C49_times : exists out, divide_by_exptime [frame_x] = Ok out.
Proof.
  destruct (C49_divide_by_exptime 2 [frame_x]) as (out & E & _); [constructor; [exact (proj1 C49_frame)|constructor]| |exists out; exact E].
  constructor; [exists 4%Q; split; [reflexivity|discriminate]|constructor].
Qed.
