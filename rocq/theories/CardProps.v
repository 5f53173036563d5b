(** C51: the cards of detected sources. *)
From Coq Require Import List Arith Bool Reals ZArith String Ascii Lia Lra.
From Verif Require Import Base NearSpec FindModel FindExProofs CardModel CardSpec CardProofs.
Import ListNotations.
Local Open Scope string_scope.

(** find_source keeps the data; its header is the one given with a card for each source. *)
Theorem C51_header : forall cc stat scale img h psf fwhm thr wop fuel img' h',
  find_source cc stat scale img h psf fwhm thr wop fuel = Some (Ok (img', h')) <-> img' = img /\ exists l, find_sources cc stat scale img psf fwhm thr wop fuel = Done l /\ h' = record l h.
Proof. exact found_header. Qed.
Print Assumptions C51_header.
(** Source [i] has the card numbered [i]; it holds S/N to within 0.05, row, column. *)
Theorem C51_cards : forall l h i sn y x, nth_error l i = Some (sn, (y, x)) -> exists k v a b c s, names k i /\ get_card k (record l h) = Some v /\ fields v a b c
  /\ to_float a = Ok s /\ (Rabs (s - sn) <= / 20)%R /\ to_float b = Ok (INR y) /\ to_float c = Ok (INR x).
Proof. exact cards. Qed.
Print Assumptions C51_cards.
(** A keyword has one number. *)
Theorem C51_numbers : forall k i j, names k i -> names k j -> i = j.
Proof. exact of_names. Qed.
Print Assumptions C51_numbers.
(** Every other card is as it was. *)
Theorem C51_others : forall l h k, (forall i, (i < List.length l)%nat -> ~ names k i) -> get_card k (record l h) = get_card k h.
Proof. exact others. Qed.
Print Assumptions C51_others.
(** What was written is read back: all sources, in order, at their pixels. *)
Theorem C51_roundtrip : forall l h, (forall k v, In (k, v) h -> String.prefix "SNYX" k = false) -> exists out, parse_companions (record l h) = Ok out
  /\ Forall2 (fun s c => names (fst (fst c)) (fst s) /\ snd (fst c) = INR (fst (snd (snd s))) /\ snd c = INR (snd (snd (snd s)))) (combine (seq 0 (List.length l)) l) out.
Proof. exact parsed. Qed.
Print Assumptions C51_roundtrip.
(** But on a header that has been searched before with more sources, the old ones are read back as well. *)
Theorem C51_stale_refuted : forall l h k i sn y x out, names k i -> (List.length l <= i)%nat -> get_card k h = Some (text sn y x) -> parse_companions (record l h) = Ok out -> In (k, IZR y, IZR x) out.
Proof. exact stale. Qed.
Print Assumptions C51_stale_refuted.

(** A card is moved by the shift of the host, to the nearest pixel (half to even); its S/N keeps to within
    0.05; no other card changes, and none is added, dropped or reordered. *)
Theorem C51_move : forall h k v a b c sn y x old new, get_card k h = Some v -> fields v a b c -> to_float a = Ok sn -> to_float b = Ok y -> to_float c = Ok x ->
  exists h' y' x' v' a' b' c' s, update_location h k old new = Ok h' /\ map fst h' = map fst h /\ (forall j, j <> k -> get_card j h' = get_card j h) /\ get_card k h' = Some v' /\ fields v' a' b' c'
   /\ to_float a' = Ok s /\ (Rabs (s - sn) <= / 20)%R /\ to_float b' = Ok (IZR y') /\ to_float c' = Ok (IZR x') /\ rounds (y - snd old + snd new) y' /\ rounds (x - fst old + fst new) x'.
Proof. exact move_spec. Qed.
Print Assumptions C51_move.
(** A written card moved by whole pixels is the card of the moved source, its S/N as written: moving
    repeatedly does not degrade it. *)
Theorem C51_move_integers : forall h k sn y x (ox oy nx ny : Z), get_card k h = Some (text sn y x) -> (0 <= sn)%R -> update_location h k (IZR ox, IZR oy) (IZR nx, IZR ny) = Ok (set_card k (text sn (y - oy + ny) (x - ox + nx)) h).
Proof. exact update_integers. Qed.
Print Assumptions C51_move_integers.
Theorem C51_move_missing : forall h k old new, get_card k h = None -> update_location h k old new = Raise KeyError.
Proof. exact update_missing. Qed.
Print Assumptions C51_move_missing.
Theorem C51_move_short : forall h k v a b old new, get_card k h = Some v -> no_comma a -> no_comma b -> v = a \/ v = a ++ "," ++ b -> update_location h k old new = Raise ValueError.
Proof. exact short_raises. Qed.
Print Assumptions C51_move_short.
Theorem C51_move_error : forall h k old new e, update_location h k old new = Raise e -> (e = KeyError /\ get_card k h = None) \/ (e = ValueError /\ get_card k h <> None).
Proof. exact move_raises. Qed.
Print Assumptions C51_move_error.

(** Cases. *)
Example C51_key_case : key 7 = "SNYX007" /\ names "SNYX007" 7 /\ fmt_4d 31 = "  31" /\ fmt_4d (-3) = "  -3".
Proof. split; [reflexivity|]. split; [exact (key_names 7)|]. split; reflexivity. Qed.
Example C51_read_case : parse_companions [("NAXIS", "2"); ("SNYX000", " 12.3,  31,  29"); ("SNYX001", "bad")] = Ok [("SNYX000", INR 31, INR 29)].
Proof. reflexivity. Qed.
Example C51_bad_case : parse_companions [("SNYX000", " 12.3,  31,  x")] = Raise ValueError.
Proof. reflexivity. Qed.
Example C51_record_case : forall s1 s2, map fst (record [(s1, (31%nat, 29%nat)); (s2, (4%nat, 5%nat))] [("NAXIS", "2"); ("SNYX001", "old")]) = ["NAXIS"; "SNYX001"; "SNYX000"].
Proof. reflexivity. Qed.
Example C51_header_case : forall wop h, exists fuel, find_source same_map same_stat unit_scale ex_img h (Some ex_psf) ex_fwhm 8 wop fuel = Some (Ok (ex_img, record [(10, (0%nat, 0%nat))]%R h)).
Proof. intros wop h. destruct (ex_done wop) as (f & F). exists f. apply found_header. split; [reflexivity|]. eexists. split; [exact F|reflexivity]. Qed.
