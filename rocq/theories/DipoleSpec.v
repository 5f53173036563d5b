(** Specification of the search for dipoles. *)
From Coq Require Import List Arith Reals ZArith.
From Verif Require Import Base CombineSpec BpmSpec ComboSpec DipoleModel.
Import ListNotations.
Local Open Scope R_scope.

(** More than [f] standard deviations above, below the median of the frame. *)
Definition bright (f : R) (fr : list (list R)) (r c : nat) : Prop := exists v m mu s, cell fr r c v /\ is_median (List.concat fr) m /\ moments (List.concat fr) mu s /\ m + f * s < v.
Definition dark (f : R) (fr : list (list R)) (r c : nat) : Prop := exists v m mu s, cell fr r c v /\ is_median (List.concat fr) m /\ moments (List.concat fr) mu s /\ v < m - f * s.
(** A bright pixel with a dark one in the next row; in the row before. *)
Definition dipole_above (f : R) (fr : list (list R)) (r c : nat) : Prop := bright f fr r c /\ dark f fr (S r) c.
Definition dipole_below (f : R) (fr : list (list R)) (r c : nat) : Prop := bright f fr r c /\ exists r', r = S r' /\ dark f fr r' c.

(** The frames taken at a phase time, those of them with a dipole. *)
Definition at_time (t : R) (l : list (bool * R)) : list (bool * R) := filter (fun p => if Req_EM_T (snd p) t then true else false) l.
Definition share (t : R) (l : list (bool * R)) : R := INR (List.length (filter fst (at_time t l))) / INR (List.length (at_time t l)).
(** Phase times, each once. *)
Definition phase_times (times ts : list R) : Prop := NoDup ts /\ forall t, In t ts <-> In t times.
(** The frames with their times, marked whether they have the dipole. *)
Definition marked (D : list (list R) -> Prop) (stack : list (list (list R))) (times : list R) (l : list (bool * R)) : Prop :=
  map snd l = times /\ Forall2 (fun fr p => fst p = true <-> D fr) stack l.
(** Over the phase times the shares of the frames with the dipole add up to more than one less than the limit. *)
Definition qualifies (D : list (list R) -> Prop) (stack : list (list (list R))) (times : list R) (limit : Z) : Prop :=
  exists l ts, marked D stack times l /\ phase_times times ts /\ IZR limit - 1 < total (map (fun t => share t l) ts).

(** What is kept of a dipole: its values in the frames, the subtracted medians. *)
Definition trap_at (stack : list (list (list R))) (imin imax : list (list R)) (p : nat * nat) (t : trap) : Prop :=
  Forall2 (fun fr v => cell fr (fst p) (snd p) v) stack (amps t) /\ cell imin (fst p) (snd p) (med_min t) /\ cell imax (fst p) (snd p) (med_max t).
(** Values and times of the frames with the dipole, in order. *)
Definition shown_at (D : list (list R) -> Prop) (stack : list (list (list R))) (times : list R) (p : nat * nat) (out : list (R * R)) : Prop :=
  exists kept, sieve (fun x => D (fst x)) (combine stack times) kept /\ Forall2 (fun x o => cell (fst x) (fst p) (snd p) (fst o) /\ snd o = snd x) kept out.
Definition both_at (f : R) (stack : list (list (list R))) (imin imax : list (list R)) (times : list R) (p : nat * nat) (t : both_trap) : Prop :=
  trap_at stack imin imax p (b_trap t)
  /\ shown_at (fun fr => dipole_above f fr (fst p) (snd p)) stack times p (b_above t)
  /\ shown_at (fun fr => dipole_below f fr (fst p) (snd p)) stack times p (b_below t).
Record usable (nr nc : nat) (stack : list (list (list R))) (imin imax : list (list R)) (times : list R) (f : R) (limit : Z) : Prop := mkusable {
  u_frames : forall fr, In fr stack -> rect nr nc fr; u_rows : (0 < nr)%nat; u_min : rect nr nc imin; u_max : rect nr nc imax;
  u_times : List.length times = List.length stack; u_factor : 0 < f; u_limit : (0 < limit <= Z.of_nat (List.length stack))%Z }.
Definition qualifies_above f stack times limit (p : nat * nat) : Prop := qualifies (fun fr => dipole_above f fr (fst p) (snd p)) stack times limit.
Definition qualifies_below f stack times limit (p : nat * nat) : Prop := qualifies (fun fr => dipole_below f fr (fst p) (snd p)) stack times limit.
