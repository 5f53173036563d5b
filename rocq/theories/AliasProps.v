(** C80: what a step from L1 to L3 does to the datasets that exist, and what its result is made of. *)
From Coq Require Import List Arith Bool String.
From Verif Require Import Base DatasetModel DatasetSpec AliasModel AliasSpec AliasProofs AliasMainProofs AliasValProofs AliasExample AliasLawProofs.
Import ListNotations.
Local Open Scope string_scope.

(** No step, returning or raising, changes a pixel of its input or of any other dataset. *)
Theorem C80_pixels : forall V quad mul leb track stamps (s : step V) h d o h' r, Sound V h d -> Sound V h o -> call V quad mul leb track stamps s h d = (h', r) ->
  Sound V h' o /\ SamePixels V h o h'.
Proof. exact pixels_kept. Qed.
Print Assumptions C80_pixels.
(** A header changes only if the step is prescan_biassub or one of the changes of level and the header object is the extension or error header of a frame of the input. *)
Theorem C80_headers : forall V quad mul leb track stamps (s : step V) h d o h' r role i, Sound V h d -> Sound V h o -> call V quad mul leb track stamps s h d = (h', r) ->
  (shares_headers V s = true -> forall k, nth_error (ds_frames o) i = Some k -> ~ HeaderOf V h d (im_hdr role (img V h k))) ->
  frame_header V h' o role i = frame_header V h o role i.
Proof. exact headers_kept. Qed.
Print Assumptions C80_headers.
(** The result is a sound dataset, shares no frame and no array with any other, and no header unless the step is one of those. *)
Theorem C80_result : forall V quad mul leb track stamps (s : step V) h d o h' d', Sound V h d -> Sound V h o -> call V quad mul leb track stamps s h d = (h', Ok d') ->
  Sound V h' d' /\ PixelSeparate V h' d' o /\ (shares_headers V s = false -> Separate V h' d' o).
Proof. exact result_apart. Qed.
Print Assumptions C80_result.
(** The frames of the result are views of its cubes, unless the step is em_gain_division or divide_by_exptime. *)
Theorem C80_linked : forall V quad mul leb track stamps (s : step V) h d h' d', Sound V h d -> detaches V s = false -> call V quad mul leb track stamps s h d = (h', Ok d') -> Linked V h' d'.
Proof. exact result_linked. Qed.
Print Assumptions C80_linked.
(** The frames and the cubes of the result hold the same values, with every step. *)
Theorem C80_values : forall V quad mul leb track stamps (s : step V) h d h' d', Sound V h d -> call V quad mul leb track stamps s h d = (h', Ok d') -> Agree V h' d'.
Proof. exact result_agrees. Qed.
Print Assumptions C80_values.
(** Whatever em_gain_division or divide_by_exptime returns, no frame of it has its data in the cube. *)
Theorem C80_detached : forall V quad mul leb track stamps (s : step V) h d h' d', Sound V h d -> detaches V s = true -> call V quad mul leb track stamps s h d = (h', Ok d') -> Detached V h' d'.
Proof. exact result_detached. Qed.
Print Assumptions C80_detached.
(** Frames that were views of their cubes stay so, unless the step is dark_subtraction. *)
Theorem C80_others_linked : forall V quad mul leb track stamps (s : step V) h d o h' r, Sound V h d -> Sound V h o -> splits_input V s = false -> Linked V h o -> call V quad mul leb track stamps s h d = (h', r) -> Linked V h' o.
Proof. exact others_linked. Qed.
Print Assumptions C80_others_linked.
(** After any history of calls, on any of the datasets had so far, the pixels of every dataset are what they were, and all headers too if no step shared headers. *)
Theorem C80_history : forall V quad mul leb track stamps calls h pool h' pool', Forall (Sound V h) pool -> history V quad mul leb track stamps h pool calls = (h', pool') ->
  exists more, pool' = (pool ++ more)%list /\ Forall (Sound V h') pool' /\ (forall o, In o pool -> SamePixels V h o h')
  /\ ((forall c, In c calls -> shares_headers V (fst c) = false) -> forall o role i, In o pool -> frame_header V h' o role i = frame_header V h o role i).
Proof. exact history_kept. Qed.
Print Assumptions C80_history.
(** A change of level changes headers of its input. *)
Theorem C80_headers_refuted : ~ (forall s c h' d' role i, x_call s (x_heap c) x_ds = (h', Ok d') -> frame_header nat h' x_ds role i = frame_header nat (x_heap c) x_ds role i).
Proof. exact headers_refuted. Qed.
Print Assumptions C80_headers_refuted.
(** After prescan_biassub the header of its input gives one column, and the input still has two. *)
Theorem C80_naxis_refuted : exists h' d', x_call x_prescan (x_heap x_cards) x_ds = (h', Ok d') /\ frame_header nat h' x_ds HExt 0 <> None
  /\ (exists hd, frame_header nat h' x_ds HExt 0 = Some hd /\ hget "NAXIS1" hd = Some "1") /\ frame_pixel nat h' x_ds FData 0 0 1 = Some 2.
Proof. exact naxis_refuted. Qed.
Print Assumptions C80_naxis_refuted.
(** The frames of what em_gain_division returns are not views of its cubes. *)
Theorem C80_gain_refuted : exists h' d', x_call x_gain (x_heap x_cards) x_ds = (h', Ok d') /\ ~ Linked nat h' d'.
Proof. exact gain_refuted. Qed.
Print Assumptions C80_gain_refuted.
(** Nor are those of what divide_by_exptime returns. *)
Theorem C80_time_refuted : exists h' d', x_call x_time (x_heap x_cards) x_ds = (h', Ok d') /\ ~ Linked nat h' d'.
Proof. exact time_refuted. Qed.
Print Assumptions C80_time_refuted.
(** After dark_subtraction the frames of its input are no more views of its cubes. *)
Theorem C80_dark_refuted : exists h' d', x_call x_dark (x_heap x_cards) x_ds = (h', Ok d') /\ ~ Linked nat h' x_ds.
Proof. exact dark_refuted. Qed.
Print Assumptions C80_dark_refuted.
(** So too when it raises. *)
Theorem C80_dark_raise_refuted : exists h', x_call x_dark (x_heap x_other) x_ds = (h', Raise PyException) /\ ~ Linked nat h' x_ds.
Proof. exact dark_raise_refuted. Qed.
Print Assumptions C80_dark_raise_refuted.

(** Two frames that are views of their cubes; steps on them; a history of four calls, one of them on a result and one that raises. *)
Example C80_start : Sound nat (x_heap x_cards) x_ds /\ Linked nat (x_heap x_cards) x_ds.
Proof. split; [apply x_sound|apply x_linked]. Qed.
Example C80_calls : (exists h' d', x_call x_noise (x_heap x_cards) x_ds = (h', Ok d') /\ cube_pixel nat h' d' FErr 1 0 1 = Some 9 /\ cube_pixel nat h' d' FErr 1 1 1 = Some 1)
  /\ (exists h' d', x_call x_select (x_heap x_cards) x_ds = (h', Ok d') /\ List.length (ds_frames d') = 1 /\ frame_pixel nat h' d' FData 0 0 0 = Some 3).
Proof. split; do 2 eexists; (split; [vm_compute; reflexivity|split; reflexivity]). Qed.
Example C80_long : exists h' pool', history nat Nat.add Nat.mul String.leb true [("DRPVERSN", "1")] (x_heap x_cards) [x_ds] [(x_noise, 0); (x_dark, 1); (x_time, 2); (Level nat "L2b" "L3" "level", 0)] = (h', pool')
  /\ List.length pool' = 4 /\ shares_headers nat x_time = false.
Proof. do 2 eexists. split; [vm_compute; reflexivity|split; reflexivity]. Qed.
