(** The table of traps: corgidrp/pump_trap_calibration.py create_TrapCalibration_from_trap_dict
    3178-3299, rebuild_dict 3301-3335.

    A dictionary is a list of keys and values without two equal keys; the cells of the table that
    are copied are of any type [V].  Simplified: the first four columns hold integers (as they do
    if the dictionary comes from tpump_analysis), a trap has all five entries that are read, and
    the header of the product is not modelled. *)
From Coq Require Import List Arith Bool ZArith String Ascii.
From Verif Require Import Base DqModel.
Import ListNotations.
Local Open Scope Z_scope.

(** key[1].split("el"), 3262 *)
Fixpoint split_el (acc s : string) : list string :=
  match s with
  | EmptyString => [acc]
  | String "e" (String "l" t) => acc :: split_el EmptyString t
  | String a t => split_el (acc ++ String a EmptyString)%string t
  end.
(** int(...) of a string.  Simplified: blanks around and underscores within the digits, which int accepts, are refused. *)
Definition digit (a : ascii) : option Z := let n := Z.of_nat (nat_of_ascii a) in if (48 <=? n) && (n <=? 57) then Some (n - 48) else None.
Fixpoint digits (acc : Z) (s : string) : option Z :=
  match s with EmptyString => Some acc | String a t => match digit a with Some d => digits (10 * acc + d) t | None => None end end.
Definition unsigned (s : string) : option Z := match s with EmptyString => None | _ => digits 0 s end.
Definition int_of (s : string) : result Z :=
  match (match s with
         | String "-" t => option_map Z.opp (unsigned t)
         | String "+" t => unsigned t
         | _ => unsigned s
         end) with Some z => Ok z | None => Raise ValueError end.
(** str(...) of a number of one digit *)
Definition str_digit (d : Z) : string := String (ascii_of_nat (Z.to_nat (48 + d))) EmptyString.

(** electrode_dict and its inverse, 3247-3249 and 3315-3321 *)
Definition electrode (s : string) : result Z :=
  if String.eqb s "LHS" then Ok 10 else if String.eqb s "CEN" then Ok 20 else if String.eqb s "RHS" then Ok 30 else Raise KeyError.
Definition electrode_inverse (k : Z) : result string :=
  if k =? 10 then Ok "LHS"%string else if k =? 20 then Ok "CEN"%string else if k =? 30 then Ok "RHS"%string else Raise KeyError.
(** 3262-3264 *)
Definition code_of (s : string) : result Z :=
  let parts := split_el EmptyString s in
  do base <- electrode (nth 0 parts EmptyString);
  match nth_error parts 1 with None => Raise IndexError | Some p => do n <- int_of p; Ok (base + n) end.
(** 3325-3327 *)
Definition string_of (code : Z) : result string :=
  do side <- electrode_inverse ((code / 10) mod 10 * 10); Ok (side ++ "el" ++ str_digit (code mod 10))%string.

Definition key : Type := ((Z * Z) * string) * Z.
Definition key_eqb (a b : key) : bool :=
  (fst (fst (fst a)) =? fst (fst (fst b))) && (snd (fst (fst a)) =? snd (fst (fst b))) && String.eqb (snd (fst a)) (snd (fst b)) && (snd a =? snd b).
Section Table.
  Variable V : Type.
  Variable zero : V.
  (** the 'cap' entry: a list of lists, as tpump_analysis makes it, or a list of numbers, as rebuild_dict does *)
  Inductive caps : Type := Nested (l : list (list V)) | Flat (l : list V).
  Record entry : Type := mkentry { e_cap : caps; e_E : V; e_cs : V; e_rsq : V; e_tau : V }.
  Record trow : Type := mktrow { t_row : Z; t_col : Z; t_code : Z; t_idx : Z; t_cap : V; t_amp : V; t_E : V; t_cs : V; t_rsq : V; t_tau : V }.
  (** dict_entry['cap'][0][j]; indexing a numpy number is an IndexError *)
  Definition cap_at (c : caps) (j : nat) : result V :=
    match c with
    | Nested (first :: _) => match nth_error first j with Some v => Ok v | None => Raise IndexError end
    | Nested [] => Raise IndexError
    | Flat _ => Raise IndexError
    end.
  (** 3253-3285 *)
  Definition encode_one (p : key * entry) : result trow :=
    let '((((r, c), s), i), e) := p in
    do code <- code_of s;
    do cap <- cap_at (e_cap e) 0; do amp <- cap_at (e_cap e) 2;
    Ok (mktrow r c code i cap amp (e_E e) (e_cs e) (e_rsq e) (e_tau e)).
  Definition encode (d : list (key * entry)) : result (list trow) := mapR encode_one d.
  (** d[key] = ...: a known key keeps its place *)
  Fixpoint assign (d : list (key * entry)) (k : key) (e : entry) : list (key * entry) :=
    match d with
    | [] => [(k, e)]
    | (k', e') :: t => if key_eqb k k' then (k', e) :: t else (k', e') :: assign t k e
    end.
  (** 3324-3335 *)
  Definition decode_one (t : trow) : result (key * entry) :=
    do s <- string_of (t_code t);
    Ok ((((t_row t, t_col t), s), t_idx t), mkentry (Flat [t_cap t; zero; t_amp t]) (t_E t) (t_cs t) (t_rsq t) (t_tau t)).
  Fixpoint rebuild (d : list (key * entry)) (rows : list trow) : result (list (key * entry)) :=
    match rows with [] => Ok d | t :: rest => do p <- decode_one t; rebuild (assign d (fst p) (snd p)) rest end.
  Definition rebuild_dict (rows : list trow) : result (list (key * entry)) := rebuild [] rows.
End Table.
Arguments Nested {V} l.
Arguments Flat {V} l.
Arguments mkentry {V}.
Arguments mktrow {V}.
