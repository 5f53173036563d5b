(** Traps followed over the temperatures: corgidrp/pump_trap_calibration.py tpump_analysis 3045-3121.

    Floats are real numbers; dictionaries are lists of keys and values without two equal keys.  The
    fit of the energy and cross section (fit_cs, 3125-3129) and what follows it are not modelled. *)
From Coq Require Import List Arith Bool Reals ZArith String.
From Verif Require Import Base LocModel.
Import ListNotations.
Local Open Scope R_scope.

Definition key := (coord * string * nat)%type.
Definition key_dec (a b : key) : {a = b} + {a <> b}.
Proof. repeat decide equality. Defined.
Definition trap_eq_dec (a b : trap) : {a = b} + {a <> b}.
Proof. decide equality; [apply Nat.eq_dec|apply (list_eq_dec Req_EM_T)|apply Req_EM_T|apply Req_EM_T|apply string_dec]. Defined.
Definition temps := list (R * traps).

(** 3046-3053 *)
Definition add_key (ks : list key) (k : key) : list key := if in_dec key_dec k ks then ks else ks ++ [k].
Definition keys_of (q : coord * list trap) : list key := map (fun tr => (fst q, t_sub tr, t_it tr)) (snd q).
Definition trap_list (ts : temps) : list key := fold_left add_key (flat_map (fun e => flat_map keys_of (snd e)) ts) [].
(** 3060: sorted *)
Fixpoint insert (x : R) (l : list R) : list R := match l with [] => [x] | y :: t => if Rle_dec x y then x :: l else y :: insert x t end.
Definition sort (l : list R) : list R := fold_right insert [] l.

(** temps[temp], where temp is one of its keys *)
Fixpoint at_temp (T : R) (ts : temps) : option traps := match ts with [] => None | (T', v) :: t => if Req_EM_T T T' then Some v else at_temp T t end.
Fixpoint alter_temp (T : R) (f : traps -> traps) (ts : temps) : temps :=
  match ts with [] => [] | (T', v) :: t => if Req_EM_T T T' then (T', f v) :: t else (T', v) :: alter_temp T f t end.
(** list.remove *)
Fixpoint remove_trap (x : trap) (l : list trap) : list trap :=
  match l with [] => [] | y :: t => if trap_eq_dec x y then t else y :: remove_trap x t end.

(** 3077-3083: the first fit in the same place *)
Fixpoint first_of (sub : string) (l : list trap) : option trap :=
  match l with [] => None | tr :: t => if String.eqb (t_sub tr) sub then Some tr else first_of sub t end.
(** 3084-3090: the first of the nearest to the last one, in the plane of temperature and tau; [best] is None
    for the infinite distance *)
Definition dist2 (T0 tau0 T : R) (tr : trap) : R := (T0 - T) ^ 2 + (tau0 - t_tau tr) ^ 2.
Fixpoint nearest (sub : string) (T0 tau0 T : R) (best : option trap) (l : list trap) : option trap :=
  match l with
  | [] => best
  | tr :: t =>
    nearest sub T0 tau0 T
      (if String.eqb (t_sub tr) sub
       then match best with None => Some tr | Some b => if Rlt_dec (dist2 T0 tau0 T tr) (dist2 T0 tau0 T b) then Some tr else best end
       else best) t
  end.
(** The points of the trap so far, the latest first; none: the key is not in trap_dict *)
Definition points := list (R * trap).
Definition pick (sub : string) (pts : points) (T : R) (l : list trap) : option trap :=
  match pts with [] => first_of sub l | (T0, tr0) :: _ => nearest sub T0 (t_tau tr0) T None l end.
(** 3071-3097, one temperature *)
Definition visit (k : key) (st : temps * points) (T : R) : temps * points :=
  let '((i, sub), _) := k in
  let (ts, pts) := st in
  match at_temp T ts with
  | None => st
  | Some tr =>
    match at_coord i tr with
    | None => st
    | Some l =>
      match pick sub pts T l with
      | None => st
      | Some x => (alter_temp T (alter_coord i (remove_trap x)) ts, (T, x) :: pts)
      end
    end
  end.
(** {'T': [...], 'tau': [...], 'sigma_tau': [...], 'cap': [...]} *)
Record entry : Type := mkentry { e_T : list R; e_tau : list R; e_sig : list R; e_cap : list (list R) }.
Definition entry_of (pts : points) : entry :=
  mkentry (map fst (rev pts)) (map (fun p => t_tau (snd p)) (rev pts)) (map (fun p => t_sig (snd p)) (rev pts)) (map (fun p => t_cap (snd p)) (rev pts)).
Definition dict := list (key * entry).
(** 3070, one trap *)
Definition track (order : list R) (st : temps * dict) (k : key) : temps * dict :=
  let (ts, d) := st in
  let (ts', pts) := fold_left (visit k) order (ts, []) in
  (ts', match pts with [] => d | _ => d ++ [(k, entry_of pts)] end).
Definition track_all (ts : temps) : temps * dict := fold_left (track (sort (map fst ts))) (trap_list ts) (ts, []).

(** 3100-3103 *)
Definition left_over (ts : temps) : nat := fold_right (fun e n => (fold_right (fun q m => (List.length (snd q) + m)%nat) 0%nat (snd e) + n)%nat) 0%nat ts.
(** 3112-3119; list.index of a temperature that is there *)
Fixpoint index (T : R) (l : list R) : nat := match l with [] => 0%nat | y :: t => if Req_EM_T T y then 0%nat else S (index T t) end.
Definition two_or_less (d : dict) : nat := List.length (filter (fun q => List.length (e_T (snd q)) <=? 2)%nat d).
Definition gaps (order : list R) (e : entry) : bool :=
  match e_T e, rev (e_T e) with
  | T1 :: _, Tf :: _ => negb (Z.eqb (Z.of_nat (List.length (e_T e)) - 1) (Z.of_nat (index Tf order) - Z.of_nat (index T1 order)))
  | _, _ => false
  end.
Definition noncontinuous (order : list R) (d : dict) : nat := List.length (filter (fun q => gaps order (snd q)) d).
