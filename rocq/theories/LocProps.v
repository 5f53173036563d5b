(** C52: sub-electrode location of traps. *)
From Coq Require Import List Arith Bool Reals Lia ZArith String Permutation.
From Verif Require Import LocModel LocSpec LocProofs LocRunProofs LocFactsProofs.
Import ListNotations.
Local Open Scope R_scope.

(** In each pixel the places are gone through in the fixed order; at each, as long as every list it needs
    has a fit, the choice of the smallest joint window makes the next trap, numbered from 0, and its fits
    are taken off the lists.  Nothing else is recorded or changed. *)
Theorem C52_history : forall order keys s s' t, well_formed s -> arranges order -> all_four keys -> locate order keys s = (s', t) ->
  well_formed s' /\ neat t /\ forall i p, pool_of s i p -> exists us p', history s i electrodes p us p' /\ traps_at t i (map fst us) /\ pool_of s' i p'.
Proof. exact locate_history. Qed.
Print Assumptions C52_history.
Theorem C52_unique : forall s i p us us2 p' q', well_formed s -> history s i electrodes p us p' -> history s i electrodes p us2 q' -> us = us2 /\ forall x, p' x = q' x.
Proof. exact traps_unique. Qed.
Print Assumptions C52_unique.
(** The order of the pixels has no effect. *)
Theorem C52_order : forall order order' keys s s1 t1 s2 t2, well_formed s -> arranges order -> arranges order' -> locate order keys s = (s1, t1) -> locate order' keys s = (s2, t2) ->
  forall i l, traps_at t1 i l <-> traps_at t2 i l.
Proof. exact order_free. Qed.
Print Assumptions C52_order.
(** Each fit is in one trap or left over; in the end no place has a fit left in all of its lists. *)
Theorem C52_conserved : forall s i p us p', history s i electrodes p us p' -> (forall x, Permutation (p x) (p' x ++ used x us)) /\ forall pl, In pl electrodes -> spent p' pl.
Proof. exact conserved. Qed.
Print Assumptions C52_conserved.
(** The traps of one place of one pixel are numbered 0, 1, 2, ... in order; each pixel is listed once. *)
Theorem C52_numbered : forall order keys s s' t i l sub, well_formed s -> arranges order -> locate order keys s = (s', t) -> In (i, l) t ->
  l <> [] /\ map t_it (filter (named sub) l) = seq 0 (List.length (filter (named sub) l)).
Proof. exact numbered. Qed.
Print Assumptions C52_numbered.
Theorem C52_pixels_once : forall order keys s s' t, well_formed s -> arranges order -> locate order keys s = (s', t) -> NoDup (map fst t).
Proof. exact pixels_once. Qed.
Print Assumptions C52_pixels_once.
Theorem C52_not_four : forall order keys s, ~ all_four keys -> locate order keys s = (s, []).
Proof. exact locate_not_four. Qed.
Print Assumptions C52_not_four.
Theorem C52_temps : forall order ts last, fst (all_temps order last ts) = map (fun e => (fst e, snd (locate order (fst (snd e)) (snd (snd e))))) ts.
Proof. exact temps_each. Qed.
Print Assumptions C52_temps.
(** The fit that comes first is passed over for the one that agrees. *)
Example C52_used : well_formed demo /\ arranges keep /\ all_four [1; 2; 3; 4]%nat /\ snd (locate keep [1; 2; 3; 4]%nat demo) = [((0, 0)%Z, [trap_of "LHSel1" [fit_a; fit_b] [7; 8] 0])].
Proof. split; [exact demo_wf|]. split; [exact keep_arranges|]. split; [intros k; cbn; lia|]. rewrite demo_run. reflexivity. Qed.

(** The reported number of unused fits is that of the entries of the last temperature, before the
    location as after it. *)
Theorem C52_count : forall order ts last T keys s, well_formed s -> arranges order -> snd (all_temps order last (ts ++ [(T, (keys, s))])) = Some (unused keys s).
Proof. exact count_last. Qed.
Print Assumptions C52_count.
Theorem C52_count_refuted : exists keys s s' t, well_formed s /\ all_four keys /\ locate keep keys s = (s', t) /\ (forall i x l, lists s' i x l -> l = []) /\ unused keys s' = 2%nat.
Proof. exact count_wrong. Qed.
Print Assumptions C52_count_refuted.
