(** Sub-electrode location of traps at one temperature: corgidrp/pump_trap_calibration.py
    tpump_analysis 2286-3043 (_el_loc_coords2 2730-2748, _el_loc_coords3 2750-2771, _el_loc_2
    2773-2863, _el_loc_3 2865-2966).

    Floats are real numbers.  The dictionaries are lists of keys and values without two equal keys.
    The curve fits (trap_fit, trap_fit_const) are inputs; the pixels of rc_both are already entered
    among the pixels above and below (2677-2682).  The order in which Python goes through a set of
    pixels is an arbitrary permutation [order]. *)
From Coq Require Import List Arith Bool Reals ZArith String.
From Verif Require Import Base.
Import ListNotations.
Local Open Scope R_scope.

(** [pc or tauc, its error, tau, tau_err] *)
Record fit : Type := mkfit { x_cap : R; x_cap_err : R; x_tau : R; x_err : R }.
Definition fit_eq_dec (a b : fit) : {a = b} + {a <> b}.
Proof. decide equality; apply Req_EM_T. Defined.
Definition coord := (Z * Z)%type.
Definition coord_eqb (a b : coord) : bool := Z.eqb (fst a) (fst b) && Z.eqb (snd a) (snd b).
(** schemes[sch]['rc_above'][i]: the largest of 'amps_above' (2797-2798, 2893-2895), and 'fit_data_above' *)
Record dip : Type := mkdip { d_amp : R; d_fits : list (nat * list fit) }.
(** schemes[sch]['rc_above'] ([true]), schemes[sch]['rc_below'] ([false]) *)
Definition schemes := nat -> bool -> list (coord * dip).
(** [sub_el, tau, sigma_tau, cap info, iteration], 2856-2859 *)
Record trap : Type := mktrap { t_sub : string; t_tau : R; t_sig : R; t_cap : list R; t_it : nat }.
Definition traps := list (coord * list trap).

Fixpoint at_coord {A} (i : coord) (d : list (coord * A)) : option A :=
  match d with [] => None | (i', v) :: t => if coord_eqb i i' then Some v else at_coord i t end.
Fixpoint at_prob (p : nat) (d : list (nat * list fit)) : option (list fit) :=
  match d with [] => None | (p', v) :: t => if Nat.eqb p p' then Some v else at_prob p t end.
(** d[k] = f(d[k]) of a key that is there *)
Fixpoint alter_coord {A} (i : coord) (f : A -> A) (d : list (coord * A)) : list (coord * A) :=
  match d with [] => [] | (i', v) :: t => if coord_eqb i i' then (i', f v) :: t else (i', v) :: alter_coord i f t end.
Fixpoint set_prob (p : nat) (l : list fit) (d : list (nat * list fit)) : list (nat * list fit) :=
  match d with [] => [] | (p', v) :: t => if Nat.eqb p p' then (p', l) :: t else (p', v) :: set_prob p l t end.
(** list.remove *)
Fixpoint remove1 (x : fit) (l : list fit) : list fit :=
  match l with [] => [] | y :: t => if fit_eq_dec x y then t else y :: remove1 x t end.

(** scheme, orientation (above or not), probability function *)
Definition slot := (nat * bool * nat)%type.
Definition place := (string * list slot)%type.
(** 2971-3031: those of three schemes first *)
Definition places : list place :=
  [ ("LHSel2"%string, [(1, true, 2); (2, false, 1); (4, true, 3)]);
    ("RHSel2"%string, [(1, true, 1); (2, false, 2); (4, false, 3)]);
    ("LHSel4"%string, [(1, false, 1); (2, true, 2); (3, true, 3)]);
    ("RHSel4"%string, [(1, false, 2); (2, true, 1); (3, false, 3)]);
    ("LHSel1"%string, [(1, false, 1); (3, false, 3)]);
    ("CENel1"%string, [(3, false, 2); (4, true, 2)]);
    ("RHSel1"%string, [(1, true, 1); (4, true, 3)]);
    ("CENel2"%string, [(1, true, 1); (2, false, 1)]);
    ("LHSel3"%string, [(2, false, 1); (4, false, 3)]);
    ("CENel3"%string, [(3, true, 2); (4, false, 2)]);
    ("RHSel3"%string, [(2, true, 1); (3, true, 3)]);
    ("CENel4"%string, [(1, false, 1); (2, true, 1)]) ]%nat.

(** One of each list, the last varying fastest: the nested loops 2813-2814, 2911-2913 *)
Fixpoint combos (ls : list (list fit)) : list (list fit) :=
  match ls with [] => [[]] | l :: t => flat_map (fun x => map (cons x) (combos t)) l end.
(** 2821-2822, 2921-2924.  There are two or three fits: the value for none is never used. *)
Definition up (c : list fit) : R := match c with [] => 0 | x :: t => fold_left (fun m f => Rmax m (x_tau f + x_err f)) t (x_tau x + x_err x) end.
Definition low (c : list fit) : R := match c with [] => 0 | x :: t => fold_left (fun m f => Rmin m (x_tau f - x_err f)) t (x_tau x - x_err x) end.
Definition width (c : list fit) : R := up c - low c.
(** 2808-2828, 2905-2931: the first of the smallest width; None before any *)
Fixpoint best (b : option (list fit)) (cs : list (list fit)) : option (list fit) :=
  match cs with
  | [] => b
  | c :: t => best (match b with None => Some c | Some b' => if Rlt_dec (width c) (width b') then Some c else b end) t
  end.
(** 2848-2859, 2947-2961 *)
Definition caps (c : list fit) (amps : list R) : list R := flat_map (fun p => [x_cap (fst p); x_cap_err (fst p); snd p]) (combine c amps).
Definition trap_of (name : string) (c : list fit) (amps : list R) (it : nat) : trap :=
  mktrap name ((up c + low c) / 2) (up c - (up c + low c) / 2) (caps c amps) it.
(** 2805-2863, 2903-2966: [n] iterations to go, [it] of them done *)
Fixpoint matching (name : string) (amps : list R) (n it : nat) (ls : list (list fit)) : list trap * list (list fit) :=
  match n with
  | O => ([], ls)
  | S n' =>
    match best None (combos ls) with
    | None => matching name amps n' (S it) ls
    | Some c =>
      let ls' := map (fun p => remove1 (fst p) (snd p)) (combine c ls) in
      let (ts, out) := matching name amps n' (S it) ls' in (trap_of name c amps it :: ts, out)
    end
  end.
(** The iterations count the first two lists, also of three. *)
Definition iterations (ls : list (list fit)) : nat :=
  match ls with a :: b :: _ => Nat.min (List.length a) (List.length b) | _ => 0%nat end.

Fixpoint all_some {A} (l : list (option A)) : option (list A) :=
  match l with [] => Some [] | None :: _ => None | Some x :: t => match all_some t with Some r => Some (x :: r) | None => None end end.
Definition dip_at (s : schemes) (i : coord) (x : slot) : option dip := at_coord i (s (fst (fst x)) (snd (fst x))).
Definition fits_at (s : schemes) (i : coord) (x : slot) : option (list fit) := match dip_at s i x with Some d => at_prob (snd x) (d_fits d) | None => None end.
Definition put_fits (s : schemes) (i : coord) (x : slot) (l : list fit) : schemes :=
  fun sch up => if (Nat.eqb sch (fst (fst x)) && Bool.eqb up (snd (fst x)))%bool
                then alter_coord i (fun d => mkdip (d_amp d) (set_prob (snd x) l (d_fits d))) (s sch up) else s sch up.
Definition put_all (s : schemes) (i : coord) (xs : list slot) (ls : list (list fit)) : schemes :=
  fold_left (fun s p => put_fits s i (fst p) (snd p)) (combine xs ls) s.
(** traps[i].append(...) of each, 2854-2859 *)
Fixpoint extend (i : coord) (new : list trap) (t : traps) : traps :=
  match t with [] => [(i, new)] | (i', l) :: r => if coord_eqb i i' then (i', l ++ new) :: r else (i', l) :: extend i new r end.
Definition record_traps (i : coord) (new : list trap) (t : traps) : traps := match new with [] => t | _ => extend i new t end.

Definition state := (schemes * traps)%type.
(** _el_loc_2, _el_loc_3 *)
Definition visit (p : place) (st : state) (i : coord) : state :=
  let (s, t) := st in
  match all_some (map (dip_at s i) (snd p)), all_some (map (fits_at s i) (snd p)) with
  | Some ds, Some ls =>
    let (new, ls') := matching (fst p) (map d_amp ds) (iterations ls) 0 ls in
    (put_all s i (snd p) ls', record_traps i new t)
  | _, _ => st
  end.
(** _el_loc_coords2, _el_loc_coords3.  They are computed before the loops (2974-2985, 3000-3015): the
    pixels of the dictionaries do not change in them. *)
Definition is_some {A} (o : option A) : bool := match o with Some _ => true | None => false end.
Definition shared (s : schemes) (xs : list slot) : list coord :=
  match xs with
  | [] => []
  | x :: _ => filter (fun i => forallb (fun y => is_some (dip_at s i y)) xs) (map fst (s (fst (fst x)) (snd (fst x))))
  end.
Section Order.
Variable order : string -> list coord -> list coord.
Definition locate1 (st : state) (p : place) : state := fold_left (visit p) (order (fst p) (shared (fst st) (snd p))) st.
(** 2723, 2971-3031; nothing is located unless the schemes measured are the four *)
Definition four (keys : list nat) : bool := forallb (fun k => existsb (Nat.eqb k) keys) [1; 2; 3; 4]%nat && forallb (fun k => existsb (Nat.eqb k) [1; 2; 3; 4]%nat) keys.
Definition locate (keys : list nat) (s : schemes) : state := if four keys then fold_left locate1 places (s, []) else (s, []).
(** 3036-3041: len of the dictionaries of fits *)
Definition count1 (d : list (coord * dip)) : nat := fold_right (fun p n => (List.length (d_fits (snd p)) + n)%nat) 0%nat d.
Definition unused (keys : list nat) (s : schemes) : nat := fold_right (fun k n => (count1 (s k true) + count1 (s k false) + n)%nat) 0%nat keys.
(** The loop over the temperatures (2279, 2293-3043): the traps of each, and unused_fit_data as it is left
    (None: never assigned).  [keys] are the schemes measured, without repetition.
    Simplified: the temperatures are distinct, so temps[curr_temp] is new. *)
Fixpoint all_temps (last : option nat) (ts : list (R * (list nat * schemes))) : list (R * traps) * option nat :=
  match ts with
  | [] => ([], last)
  | (T, (keys, s)) :: rest =>
    let (s', tr) := locate keys s in
    let (out, l) := all_temps (Some (unused keys s')) rest in ((T, tr) :: out, l)
  end.
End Order.
