(** C53: traps followed over the temperatures. *)
From Coq Require Import List Reals ZArith String Permutation.
From Verif Require Import LocModel LocSpec TrackModel TrackSpec TrackTopProofs TrackRunProofs.
Import ListNotations.
Local Open Scope R_scope.

Theorem C53_followed : forall ts ts' d i sub L, proper ts -> track_all ts = (ts', d) -> (forall T, found ts i sub T (L T)) ->
  exists a, tracked L (map fst ts) a /\ forall n e, In ((i, sub, n), e) d <-> recorded (map fst ts) a n e.
Proof. exact followed. Qed.
Print Assumptions C53_followed.
Theorem C53_keys_once : forall ts ts' d, proper ts -> track_all ts = (ts', d) -> NoDup (map fst d).
Proof. exact keys_once. Qed.
Print Assumptions C53_keys_once.
(** The description leaves no choice. *)
Theorem C53_unique : forall L Ts a b, (forall T, NoDup (L T)) -> tracked L Ts a -> tracked L Ts b -> forall n T, In T Ts -> a n T = b n T.
Proof. exact tracked_unique. Qed.
Print Assumptions C53_unique.
Theorem C53_found_one : forall ts i sub T l m, proper ts -> found ts i sub T l -> found ts i sub T m -> l = m.
Proof. exact found_one. Qed.
Print Assumptions C53_found_one.
Theorem C53_found_distinct : forall ts i sub T l, proper ts -> found ts i sub T l -> NoDup l.
Proof. exact found_distinct. Qed.
Print Assumptions C53_found_distinct.
(** Every fit is in one trap, and none remains. *)
Theorem C53_every_fit : forall L Ts a T x, (forall T, NoDup (L T)) -> tracked L Ts a -> In T Ts -> In x (L T) -> exists! n, a n T = Some x.
Proof. exact every_fit. Qed.
Print Assumptions C53_every_fit.
Theorem C53_nothing_left : forall ts ts' d, proper ts -> track_all ts = (ts', d) -> left_over ts' = 0%nat.
Proof. exact nothing_left. Qed.
Print Assumptions C53_nothing_left.
(** The order of the temperatures and of the pixels is of no account. *)
Theorem C53_order : forall ts us ts' us' d e, proper ts -> proper us -> (forall T, In T (map fst ts) <-> In T (map fst us)) -> (forall i sub T l, found ts i sub T l <-> found us i sub T l) ->
  track_all ts = (ts', d) -> track_all us = (us', e) -> Permutation d e.
Proof. exact order_free. Qed.
Print Assumptions C53_order.
(** The counts of the header. *)
Theorem C53_two_or_less : forall d, counts (fun q => (List.length (e_T (snd q)) <= 2)%nat) d (two_or_less d).
Proof. exact two_or_less_counts. Qed.
Print Assumptions C53_two_or_less.
Theorem C53_noncontinuous : forall ts ts' d, proper ts -> track_all ts = (ts', d) -> counts (fun q => has_gap (map fst ts) (snd q)) d (noncontinuous (sort (map fst ts)) d).
Proof. exact noncontinuous_counts. Qed.
Print Assumptions C53_noncontinuous.
Theorem C53_counts_one : forall (P : key * entry -> Prop) d m n, counts P d m -> counts P d n -> m = n.
Proof. exact counts_fun. Qed.
Print Assumptions C53_counts_one.
(** The located traps (C52) are such. *)
Theorem C53_located : forall order ts last, arranges order -> NoDup (map fst ts) -> (forall T ks s, In (T, (ks, s)) ts -> well_formed s) -> proper (fst (all_temps order last ts)).
Proof. exact located_proper. Qed.
Print Assumptions C53_located.
(** The trap takes the second fit of the higher temperature, nearer to its own. *)
Example C53_used : proper demo_temps /\ forall ts' d, track_all demo_temps = (ts', d) -> In (((0, 0)%Z, "LHSel1"%string, 0%nat), mkentry [160; 170] [1; 2] [0; 0] [[]; []]) d.
Proof. split; [exact demo_proper|exact demo_tracks]. Qed.
