(** Specification of the illumination correction. *)
From Coq Require Import List Arith Reals ZArith.
From Verif Require Import Base CombineSpec BpmSpec.
Import ListNotations.
Local Open Scope R_scope.

(** The bins of an axis of [n] pixels: each starts at a multiple of [b] and has [b] pixels, the last
    one also those left over. *)
Definition bin (n b lo hi : nat) : Prop := exists k, (lo = k * b /\ lo + b <= n /\ hi = if n <? lo + 2 * b then n else lo + b)%nat.
(** The values of the pixels from row [lo] up to [hi] and column [lo'] up to [hi'], each once. *)
Definition values (img : list (list (option R))) (lo hi lo' hi' : nat) (vs : list (option R)) : Prop :=
  exists ps, NoDup ps /\ (forall i j, In (i, j) ps <-> (lo <= i < hi /\ lo' <= j < hi')%nat) /\ Forall2 (fun p v => cell img (fst p) (snd p) v) ps vs.
(** The median of values of which none is NaN. *)
Definition median_of (vs : list (option R)) (m : R) : Prop := exists xs, numbers vs xs /\ is_median xs m.
(** [v] less the median of [vs] is [u]; NaN if a value is NaN. *)
Definition reduced (vs : list (option R)) (v u : option R) : Prop :=
  (forall m x, median_of vs m -> v = Some x -> u = Some (x - m)) /\ (v = None \/ In None vs -> u = None).
(** Every value raised by [k]. *)
Definition raised (k : R) (img : list (list (option R))) : list (list (option R)) := map (map (option_map (fun x => x + k))) img.
