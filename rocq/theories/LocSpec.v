(** Specification of the sub-electrode location of traps. *)
From Coq Require Import List Arith Reals ZArith String Permutation.
From Verif Require Import LocModel.
Import ListNotations.
Local Open Scope R_scope.

(** The sub-electrodes in the order they are looked for, with where each is seen: the scheme, above or
    below, and the probability function.  Those seen in three schemes come first. *)
Notation above := true (only parsing).
Notation below := false (only parsing).
Definition electrodes : list place :=
  [ ("LHSel2"%string, [(1, above, 2); (2, below, 1); (4, above, 3)]); ("RHSel2"%string, [(1, above, 1); (2, below, 2); (4, below, 3)]);
    ("LHSel4"%string, [(1, below, 1); (2, above, 2); (3, above, 3)]); ("RHSel4"%string, [(1, below, 2); (2, above, 1); (3, below, 3)]);
    ("LHSel1"%string, [(1, below, 1); (3, below, 3)]); ("CENel1"%string, [(3, below, 2); (4, above, 2)]); ("RHSel1"%string, [(1, above, 1); (4, above, 3)]);
    ("CENel2"%string, [(1, above, 1); (2, below, 1)]);
    ("LHSel3"%string, [(2, below, 1); (4, below, 3)]); ("CENel3"%string, [(3, above, 2); (4, below, 2)]); ("RHSel3"%string, [(2, above, 1); (3, above, 3)]);
    ("CENel4"%string, [(1, below, 1); (2, above, 1)]) ]%nat.

(** The dictionaries hold each key once. *)
Definition well_formed (s : schemes) : Prop :=
  forall sch up, NoDup (map fst (s sch up)) /\ forall i d, In (i, d) (s sch up) -> NoDup (map fst (d_fits d)).
(** The fits listed for a pixel under a scheme, an orientation and a probability function. *)
Definition pool := slot -> list fit.
Definition lists (s : schemes) (i : coord) (x : slot) (l : list fit) : Prop :=
  exists d, In (i, d) (s (fst (fst x)) (snd (fst x))) /\ In (snd x, l) (d_fits d).
Definition pool_of (s : schemes) (i : coord) (p : pool) : Prop :=
  forall x, lists s i x (p x) \/ ((forall l, ~ lists s i x l) /\ p x = []).
Definition amp_of (s : schemes) (i : coord) (x : slot) (a : R) : Prop :=
  exists d, In (i, d) (s (fst (fst x)) (snd (fst x))) /\ d_amp d = a.

(** The interval from [lo] to [hi] is the smallest that contains the uncertainty windows of the fits. *)
Definition hull (c : list fit) (lo hi : R) : Prop :=
  (forall f, In f c -> lo <= x_tau f - x_err f /\ x_tau f + x_err f <= hi)
  /\ (exists f, In f c /\ lo = x_tau f - x_err f) /\ (exists f, In f c /\ hi = x_tau f + x_err f).
(** [c] are the fits at the positions [ks] of the lists. *)
Definition at_positions (p : pool) (xs : list slot) (ks : list nat) (c : list fit) : Prop :=
  Forall2 (fun x kf => nth_error (p x) (fst kf) = Some (snd kf)) xs (combine ks c) /\ List.length ks = List.length c.
(** The order of the nested loops. *)
Definition before (ks ks' : list nat) : Prop := exists pre a b t t', (a < b)%nat /\ ks = pre ++ a :: t /\ ks' = pre ++ b :: t'.
(** Of all choices of one fit from each list, that of the smallest joint window, the first of these. *)
Definition chooses (p : pool) (xs : list slot) (ks : list nat) (c : list fit) : Prop :=
  at_positions p xs ks c
  /\ forall ks' c' lo hi lo' hi', at_positions p xs ks' c' -> hull c lo hi -> hull c' lo' hi' -> hi - lo <= hi' - lo' /\ (before ks' ks -> hi - lo < hi' - lo').
(** The lists without the fits chosen. *)
Definition takes (p : pool) (xs : list slot) (ks : list nat) (c : list fit) (p' : pool) : Prop :=
  Forall2 (fun x kf => exists l l', p x = l ++ snd kf :: l' /\ List.length l = fst kf /\ p' x = l ++ l') xs (combine ks c)
  /\ forall x, ~ In x xs -> p' x = p x.
(** What is recorded of a trap: the sub-electrode, the middle and half-width of the joint window, the
    capture values of the fits with the amplitudes, and the number of the trap. *)
Definition describes (s : schemes) (i : coord) (pl : place) (n : nat) (c : list fit) (t : trap) : Prop :=
  t_sub t = fst pl /\ t_it t = n /\ hull c (t_tau t - t_sig t) (t_tau t + t_sig t)
  /\ exists parts, t_cap t = List.concat parts
     /\ Forall2 (fun xf part => exists a, amp_of s i (fst xf) a /\ part = [x_cap (snd xf); x_cap_err (snd xf); a]) (combine (snd pl) c) parts.
Definition spent (p : pool) (pl : place) : Prop := exists x, In x (snd pl) /\ p x = [].

(** The traps found at one place in a pixel, with their fits, from number [n] on. *)
Inductive at_place (s : schemes) (i : coord) (pl : place) : nat -> pool -> list (trap * list fit) -> pool -> Prop :=
| place_done : forall n p p', spent p pl -> (forall x, p' x = p x) -> at_place s i pl n p [] p'
| place_next : forall n p ks c p1 t us p', chooses p (snd pl) ks c -> takes p (snd pl) ks c p1 -> describes s i pl n c t ->
    at_place s i pl (S n) p1 us p' -> at_place s i pl n p ((t, c) :: us) p'.
(** The traps found in a pixel, place after place. *)
Inductive history (s : schemes) (i : coord) : list place -> pool -> list (trap * list fit) -> pool -> Prop :=
| history_nil : forall p p', (forall x, p' x = p x) -> history s i [] p [] p'
| history_cons : forall pl rest p us p1 us' p', at_place s i pl 0 p us p1 -> history s i rest p1 us' p' -> history s i (pl :: rest) p (us ++ us') p'.

(** The fits of the list under [x] that are in a trap. *)
Fixpoint role (x : slot) (xs : list slot) (c : list fit) : list fit :=
  match xs, c with
  | y :: xs', f :: c' => if (Nat.eqb (fst (fst x)) (fst (fst y)) && Bool.eqb (snd (fst x)) (snd (fst y)) && Nat.eqb (snd x) (snd y))%bool then f :: role x xs' c' else role x xs' c'
  | _, _ => []
  end.
Definition used_in (x : slot) (u : trap * list fit) : list fit :=
  flat_map (fun pl => if String.eqb (fst pl) (t_sub (fst u)) then role x (snd pl) (snd u) else []) electrodes.
Definition used (x : slot) (us : list (trap * list fit)) : list fit := flat_map (used_in x) us.

(** The order of a set: some arrangement of it. *)
Definition arranges (order : string -> list coord -> list coord) : Prop := forall n l, Permutation l (order n l).
Definition all_four (keys : list nat) : Prop := forall k, In k keys <-> (1 <= k <= 4)%nat.
Definition traps_at (t : traps) (i : coord) (l : list trap) : Prop := In (i, l) t \/ ((forall l', ~ In (i, l') t) /\ l = []).
(** Each pixel once, none without traps. *)
Definition neat (t : traps) : Prop := NoDup (map fst t) /\ forall i, ~ In (i, []) t.
(** The traps of one place. *)
Definition named (sub : string) (t : trap) : bool := String.eqb (t_sub t) sub.
