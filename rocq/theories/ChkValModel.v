(** Checks of arguments: corgidrp/check.py 10-383 (all of it).

    Values of Python: None, bools, ints, floats, complex numbers, fractions, numpy's scalars, texts, bytes, dictionaries, classes,
    lists and tuples [PSeq], numpy's arrays and other objects.  Left out: Decimal, lists nested deeper than numpy allows, objects
    that say themselves how they become arrays.  numpy's asarray is modelled up to the kind of the dtype: the kinds i, u and f
    are one, and the entries are as they were given.  The kinds form a chain along which numpy promotes. *)
From Coq Require Import List Arith Bool ZArith QArith String.
Import ListNotations.
Local Open Scope string_scope.

(** A class: an exception (with its name, and whether it can be made from a text alone), or another *)
Inductive cls : Type := Exc_class (name : string) (from_text : bool) | Other_class.
Inductive fnum : Type := Fin (q : Q) | PInf | NInf | NaN.
Inductive kind : Type := KBool | KReal | KComplex | KBytes | KText | KObject.
Inductive pyval : Type :=
| PNone | PBool (b : bool) | PInt (z : Z) | PFloat (x : fnum) | PComplex (re im : fnum) | PFrac (q : Q)
| PNpBool (b : bool) | PNpInt (z : Z) | PNpFloat (x : fnum) | PNpComplex (re im : fnum)
| PStr (s : string) | PBytes (s : string) | PDict | PObj | PClass (c : cls)
| PSeq (l : list pyval) | PArr (sh : list nat) (k : kind) (ls : list pyval).

(** What is raised: CheckException, TypeError and ValueError of Python or numpy, or the class that was given with a message *)
Inductive fault : Type := XCheck | XType | XValue | XGiven (c : cls) (msg : string).
Inductive res : Type := Ret (v : pyval) | Exc (x : fault).

(** ** numpy's asarray *)
(** The chain of kinds: bool, real, complex, bytes, text, object (numpy's promotion) *)
Definition kind_rank (k : kind) : nat := match k with KBool => 0 | KReal => 1 | KComplex => 2 | KBytes => 3 | KText => 4 | KObject => 5 end.
(** The wider of two kinds *)
Definition join (a b : kind) : kind := if (kind_rank a <=? kind_rank b)%nat then b else a.
(** The kind of something that is no list: an int wider than 64 bits is an object *)
Definition leaf_kind (v : pyval) : kind :=
  match v with
  | PBool _ | PNpBool _ => KBool
  | PInt z => if ((- 2 ^ 63 <=? z) && (z <? 2 ^ 64))%Z then KReal else KObject
  | PFloat _ | PNpInt _ | PNpFloat _ => KReal
  | PComplex _ _ | PNpComplex _ _ => KComplex
  | PStr _ => KText
  | PBytes _ => KBytes
  | _ => KObject
  end.
Definition same_shape (a b : list nat) : bool := if list_eq_dec Nat.eq_dec a b then true else false.
(** The shape, unless entries differ in it *)
Fixpoint shape_of (v : pyval) : option (list nat) :=
  match v with
  | PArr sh _ _ => Some sh
  | PSeq l =>
    match l with
    | [] => Some [0%nat]
    | x :: t =>
      match shape_of x with
      | Some s => if forallb (fun y => match shape_of y with Some s' => same_shape s' s | None => false end) t then Some (List.length l :: s) else None
      | None => None
      end
    end
  | _ => Some []
  end.
(** The kinds within a value, its entries in order, and the kind of the array; an empty list is of floats *)
Fixpoint kinds_of (v : pyval) : list kind := match v with PArr _ k _ => [k] | PSeq l => flat_map kinds_of l | _ => [leaf_kind v] end.
Fixpoint leaves_of (v : pyval) : list pyval := match v with PArr _ _ ls => ls | PSeq l => flat_map leaves_of l | _ => [v] end.
Definition kind_of (v : pyval) : kind := match kinds_of v with [] => KReal | k :: t => fold_left join t k end.
(** np.asarray: an array as it is, else shape, kind and entries; None for a ragged list *)
Definition asarray (v : pyval) : option (list nat * kind * list pyval) :=
  match v with
  | PArr sh k ls => Some (sh, k, ls)
  | _ => match shape_of v with Some sh => Some (sh, kind_of v, leaves_of v) | None => None end
  end.

(** ** Kinds of scalars *)
(** numbers.Number *)
Definition is_number (v : pyval) : bool := match v with PBool _ | PInt _ | PFloat _ | PComplex _ _ | PFrac _ | PNpInt _ | PNpFloat _ | PNpComplex _ _ => true | _ => false end.
(** 17: int_types; a bool is an int *)
Definition is_int (v : pyval) : bool := match v with PBool _ | PInt _ | PNpInt _ => true | _ => false end.
(** np.isrealobj of a scalar *)
Definition is_real (v : pyval) : bool := match v with PComplex _ _ | PNpComplex _ _ => false | _ => true end.
(** var <= 0 and var < 0 *)
Definition f_le0 (x : fnum) : bool := match x with Fin q => Qle_bool q 0 | NInf => true | _ => false end.
Definition f_lt0 (x : fnum) : bool := match x with Fin q => negb (Qle_bool 0 q) | NInf => true | _ => false end.
Definition le0 (v : pyval) : bool := match v with PBool b => negb b | PInt z | PNpInt z => (z <=? 0)%Z | PFloat x | PNpFloat x => f_le0 x | PFrac q => Qle_bool q 0 | _ => false end.
Definition lt0 (v : pyval) : bool := match v with PBool b => false | PInt z | PNpInt z => (z <? 0)%Z | PFloat x | PNpFloat x => f_lt0 x | PFrac q => negb (Qle_bool 0 q) | _ => false end.

(** ** 19-47 *)
(** check.py 13-30 *)
Definition checkname (n : pyval) : bool := match n with PStr _ | PBytes _ => true | _ => false end.
(** check.py 33-47: a class, and a subclass of Exception *)
Definition checkexc (e : pyval) : bool := match e with PClass (Exc_class _ _) => true | _ => false end.
(** raise vexc(vname + msg): no bytes before a text *)
Definition complain (n e : pyval) (msg : string) : res :=
  match n, e with
  | PStr s, PClass (Exc_class c true) => Exc (XGiven (Exc_class c true) (s ++ msg))
  | _, _ => Exc XType
  end.
(** check.py, at the start of each check: _checkname(vname), _checkexc(vexc) *)
Definition guard (n e : pyval) (r : res) : res := if negb (checkname n) then Exc XCheck else if negb (checkexc e) then Exc XCheck else r.

(** ** Scalars: 50-72, 202-320 *)
(** check.py 50-72 *)
Definition real_positive_scalar (v n e : pyval) : res := guard n e (
  if negb (is_number v) then complain n e " must be scalar" else
  if negb (is_real v) then complain n e " must be real" else
  if le0 v then complain n e " must be positive" else Ret v).
(** check.py 202-222 *)
Definition real_scalar (v n e : pyval) : res := guard n e (
  if negb (is_number v) then complain n e " must be scalar" else
  if negb (is_real v) then complain n e " must be real" else Ret v).
(** check.py 225-247 *)
Definition real_nonnegative_scalar (v n e : pyval) : res := guard n e (
  if negb (is_number v) then complain n e " must be scalar" else
  if negb (is_real v) then complain n e " must be real" else
  if lt0 v then complain n e " must be nonnegative" else Ret v).
(** check.py 250-272 *)
Definition positive_scalar_integer (v n e : pyval) : res := guard n e (
  if negb (is_number v) then complain n e " must be scalar" else
  if negb (is_int v) then complain n e " must be integer" else
  if le0 v then complain n e " must be positive" else Ret v).
(** check.py 275-297 *)
Definition nonnegative_scalar_integer (v n e : pyval) : res := guard n e (
  if negb (is_number v) then complain n e " must be scalar" else
  if negb (is_int v) then complain n e " must be integer" else
  if lt0 v then complain n e " must be nonnegative" else Ret v).
(** check.py 300-320 *)
Definition scalar_integer (v n e : pyval) : res := guard n e (
  if negb (is_number v) then complain n e " must be scalar" else
  if negb (is_int v) then complain n e " must be integer" else Ret v).

(** ** Arrays: 75-199 *)
(** np.isrealobj of an array is false and np.iscomplexobj is true: by the dtype, check.py 93, 120, 144, 171, 195 *)
Definition is_complex (k : kind) : bool := match k with KComplex => true | _ => false end.
(** var.dtype.kind in b, i, u, f: check.py 96-97 *)
Definition numeric_kind (k : kind) : bool := match k with KBool | KReal => true | _ => false end.
(** var = np.asarray(var): check.py 90, 117, 141, 165, 192; ValueError of numpy for a ragged list *)
Definition with_array (v : pyval) (f : list nat -> kind -> list pyval -> res) : res := match asarray v with Some (sh, k, ls) => f sh k ls | None => Exc XValue end.
(** check.py 75-99 *)
Definition real_array (v n e : pyval) : res := guard n e (with_array v (fun sh k ls =>
  if Nat.eqb (List.length sh) 0 then complain n e " must have length > 0" else
  if is_complex k then complain n e " must be a real array" else
  if negb (numeric_kind k) then complain n e " must be a real numeric type to be real" else Ret (PArr sh k ls))).
(** check.py 102-123 *)
Definition oneD_array (v n e : pyval) : res := guard n e (with_array v (fun sh k ls =>
  if negb (Nat.eqb (List.length sh) 1) then complain n e " must be a 1D array" else
  if is_complex k && negb (is_complex k) then complain n e " must be a real or complex 1D array" else Ret (PArr sh k ls))).
(** check.py 126-147 *)
Definition twoD_array (v n e : pyval) : res := guard n e (with_array v (fun sh k ls =>
  if negb (Nat.eqb (List.length sh) 2) then complain n e " must be a 2D array" else
  if is_complex k && negb (is_complex k) then complain n e " must be a real or complex 2D array" else Ret (PArr sh k ls))).
(** check.py 150-174 *)
Definition twoD_square_array (v n e : pyval) : res := guard n e (with_array v (fun sh k ls =>
  match sh with
  | [a; b] =>
    if negb (Nat.eqb a b) then complain n e " must be a square 2D array" else
    if is_complex k && negb (is_complex k) then complain n e " must be a real or complex square 2D array" else Ret (PArr sh k ls)
  | _ => complain n e " must be a 2D array"
  end)).
(** check.py 177-198 *)
Definition threeD_array (v n e : pyval) : res := guard n e (with_array v (fun sh k ls =>
  if negb (Nat.eqb (List.length sh) 3) then complain n e " must be a 3D array" else
  if is_complex k && negb (is_complex k) then complain n e " must be a real or complex 3D array" else Ret (PArr sh k ls))).

(** ** 323-383 *)
(** check.py 323-341 *)
Definition string_ (v n e : pyval) : res := guard n e (match v with PStr _ | PBytes _ => Ret v | _ => complain n e " must be a string" end).
(** check.py 344-362 *)
Definition boolean (v n e : pyval) : res := guard n e (match v with PBool _ => Ret v | _ => complain n e " must be a bool" end).
(** check.py 365-383 *)
Definition dictionary (v n e : pyval) : res := guard n e (match v with PDict => Ret v | _ => complain n e " must be a dict" end).
