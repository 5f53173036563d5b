(** C74: the time stamps in file names. *)
From Coq Require Import List ZArith Bool String.
From Verif Require Import Base UtcModel UtcSpec UtcTextProofs UtcMainProofs.
Import ListNotations.
Local Open Scope Z_scope.

(** The stamp is the text of the nearest tenth of a second in universal time, the later of two. *)
Theorem C74_stamp : forall parse : string -> option (moment * option Z),
  forall s a zone t u text, parse s = Some (a, zone) -> reads a t -> year a <= 9999 -> universal t zone u ->
    (format_ftimeutc parse s = Ok text <-> representable u /\ exists k b, nearest_tenth u k /\ reads b (k * 100000) /\ year b <= 9999 /\ written b text).
Proof. exact (@format_ok). Qed.
Print Assumptions C74_stamp.
(** Every refusal: a text that is not read, and instants outside the years 1 to 9999. *)
Theorem C74_refused : forall parse : string -> option (moment * option Z),
  forall s e, (forall a zone, parse s = Some (a, zone) -> year a <= 9999 /\ exists t, reads a t) ->
    (format_ftimeutc parse s = Raise e <->
     (parse s = None /\ e = ValueError) \/
     (exists a zone t u k, parse s = Some (a, zone) /\ reads a t /\ universal t zone u /\ nearest_tenth u k /\ (~ representable u \/ ~ representable (k * 100000)) /\ e = PyException)).
Proof. exact (@format_fails). Qed.
Print Assumptions C74_refused.
(** The stamp depends on the instant alone, not on the zone it is given in. *)
Theorem C74_zone : forall parse : string -> option (moment * option Z),
  forall s s' a a' zone zone' t t' u, parse s = Some (a, zone) -> parse s' = Some (a', zone') -> reads a t -> reads a' t' -> year a <= 9999 -> year a' <= 9999 -> universal t zone u -> universal t' zone' u -> format_ftimeutc parse s = format_ftimeutc parse s'.
Proof. exact (@format_zone). Qed.
Print Assumptions C74_zone.
(** Stamps compare as texts as their tenths of seconds do. *)
Theorem C74_order : forall parse : string -> option (moment * option Z),
  forall s s' a a' zone zone' t t' u u' x x' k k', parse s = Some (a, zone) -> parse s' = Some (a', zone') -> reads a t -> reads a' t' -> year a <= 9999 -> year a' <= 9999 -> universal t zone u -> universal t' zone' u' ->
    format_ftimeutc parse s = Ok x -> format_ftimeutc parse s' = Ok x' -> nearest_tenth u k -> nearest_tenth u' k' -> String.compare x x' = (k ?= k').
Proof. exact (@format_order). Qed.
Print Assumptions C74_order.
(** Stamps sort in the order of time. *)
Theorem C74_sorts : forall parse : string -> option (moment * option Z),
  forall s s' a a' zone zone' t t' u u' x x', parse s = Some (a, zone) -> parse s' = Some (a', zone') -> reads a t -> reads a' t' -> year a <= 9999 -> year a' <= 9999 -> universal t zone u -> universal t' zone' u' ->
    format_ftimeutc parse s = Ok x -> format_ftimeutc parse s' = Ok x' -> u <= u' -> String.leb x x' = true.
Proof. exact (@format_sorts). Qed.
Print Assumptions C74_sorts.
(** Stamps are the same exactly for the same tenth of a second. *)
Theorem C74_same : forall parse : string -> option (moment * option Z),
  forall s s' a a' zone zone' t t' u u' x x' k k', parse s = Some (a, zone) -> parse s' = Some (a', zone') -> reads a t -> reads a' t' -> year a <= 9999 -> year a' <= 9999 -> universal t zone u -> universal t' zone' u' ->
    format_ftimeutc parse s = Ok x -> format_ftimeutc parse s' = Ok x' -> nearest_tenth u k -> nearest_tenth u' k' -> (x = x' <-> k = k').
Proof. exact (@format_same). Qed.
Print Assumptions C74_same.
(** A stamp has sixteen characters. *)
Theorem C74_shape : forall a text, written a text -> String.length text = 16%nat.
Proof. exact (@written_shape). Qed.
Print Assumptions C74_shape.
(** There is one reading of an instant, *)
Theorem C74_reading : forall a b t, reads a t -> reads b t -> a = b.
Proof. exact (@reads_unique). Qed.
Print Assumptions C74_reading.
(** and one nearest tenth. *)
Theorem C74_tenth : forall u k l, nearest_tenth u k -> nearest_tenth u l -> k = l.
Proof. exact (@tenth_unique). Qed.
Print Assumptions C74_tenth.
(** Two frames of different times have the same stamp: the last of a leap day and one that is later by 80 ms, given in another zone. *)
Theorem C74_collide_refuted : exists parse s s' a a' t t' text, parse s = Some (a, None) /\ parse s' = Some (a', Some 3600000000) /\ reads a t /\ reads a' (t' + 3600000000) /\ t' - t = 80000 /\ format_ftimeutc parse s = Ok text /\ format_ftimeutc parse s' = Ok text.
Proof. exact (@collide). Qed.
Print Assumptions C74_collide_refuted.

(** A time that is read, and its stamp. *)
Example C74_used : two_times "2024-02-29T23:59:59.96" = Some (eve, None) /\ reads eve (stamp_of eve) /\ year eve <= 9999 /\ universal (stamp_of eve) None (stamp_of eve) /\ format_ftimeutc two_times "2024-02-29T23:59:59.96" = Ok "20240301T0000000"%string.
Proof. split; [reflexivity|]. split; [exact eve_read|]. split; [discriminate|]. split; [left; auto|vm_compute; reflexivity]. Qed.
(** The last tenth of a second of the calendar is refused. *)
Example C74_last : format_ftimeutc last_moment "9999-12-31T23:59:59.95" = Raise PyException.
Proof. exact last_fails. Qed.
