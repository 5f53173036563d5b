(** What the checks of arguments accept, return and raise. *)
From Coq Require Import List Arith Bool ZArith QArith String.
From Verif Require Import ChkValModel.
Import ListNotations.
Local Open Scope string_scope.

(** ** Numbers *)
(** Where a real number lies; NaN lies nowhere *)
Inductive place := Below | Zero | Above | Nowhere.
Inductive float_at : fnum -> place -> Prop :=
| at_below : forall q, (q < 0)%Q -> float_at (Fin q) Below | at_zero : forall q, (q == 0)%Q -> float_at (Fin q) Zero | at_above : forall q, (0 < q)%Q -> float_at (Fin q) Above
| at_minf : float_at NInf Below | at_inf : float_at PInf Above | at_nan : float_at NaN Nowhere.
Definition int_at (z : Z) (p : place) : Prop := ((z < 0)%Z /\ p = Below) \/ (z = 0%Z /\ p = Zero) \/ ((0 < z)%Z /\ p = Above).
(** Whole numbers: a bool is 0 or 1 *)
Inductive whole : pyval -> place -> Prop :=
| whole_false : whole (PBool false) Zero | whole_true : whole (PBool true) Above
| whole_int : forall z p, int_at z p -> whole (PInt z) p | whole_np : forall z p, int_at z p -> whole (PNpInt z) p.
Inductive real : pyval -> place -> Prop :=
| real_whole : forall v p, whole v p -> real v p
| real_float : forall x p, float_at x p -> real (PFloat x) p | real_np : forall x p, float_at x p -> real (PNpFloat x) p | real_frac : forall q p, float_at (Fin q) p -> real (PFrac q) p.
Inductive complex : pyval -> Prop := complex_py : forall a b, complex (PComplex a b) | complex_np : forall a b, complex (PNpComplex a b).
Definition number (v : pyval) : Prop := (exists p, real v p) \/ complex v.

(** ** Arrays *)
Definition sequence (v : pyval) : Prop := (exists l, v = PSeq l) \/ exists sh k ls, v = PArr sh k ls.
Inductive shaped : pyval -> list nat -> Prop :=
| shaped_one : forall v, ~ sequence v -> shaped v []
| shaped_arr : forall sh k ls, shaped (PArr sh k ls) sh
| shaped_none : shaped (PSeq []) [0%nat]
| shaped_seq : forall x l sh, shaped x sh -> (forall y, In y l -> shaped y sh) -> shaped (PSeq (x :: l)) (S (List.length l) :: sh).
Definition ragged (v : pyval) : Prop := forall sh, ~ shaped v sh.
(** The parts of a value, down to arrays and what is no list *)
Inductive part : pyval -> pyval -> Prop :=
| part_self : forall v, (forall l, v <> PSeq l) -> part v v
| part_in : forall l x v, In x l -> part x v -> part (PSeq l) v.
Inductive kind_is : pyval -> kind -> Prop :=
| kind_bool : forall b, kind_is (PBool b) KBool | kind_npbool : forall b, kind_is (PNpBool b) KBool
| kind_int : forall z, (- 2 ^ 63 <= z < 2 ^ 64)%Z -> kind_is (PInt z) KReal | kind_long : forall z, ~ (- 2 ^ 63 <= z < 2 ^ 64)%Z -> kind_is (PInt z) KObject
| kind_float : forall x, kind_is (PFloat x) KReal | kind_npint : forall z, kind_is (PNpInt z) KReal | kind_npfloat : forall x, kind_is (PNpFloat x) KReal
| kind_complex : forall a b, kind_is (PComplex a b) KComplex | kind_npcomplex : forall a b, kind_is (PNpComplex a b) KComplex
| kind_text : forall s, kind_is (PStr s) KText | kind_bytes : forall s, kind_is (PBytes s) KBytes
| kind_frac : forall q, kind_is (PFrac q) KObject | kind_none : kind_is PNone KObject | kind_dict : kind_is PDict KObject | kind_obj : kind_is PObj KObject | kind_class : forall c, kind_is (PClass c) KObject
| kind_arr : forall sh k ls, kind_is (PArr sh k ls) k.
(** bool, real, complex, bytes, text, object *)
Definition order (k : kind) : nat := match k with KBool => 0 | KReal => 1 | KComplex => 2 | KBytes => 3 | KText => 4 | KObject => 5 end.
Definition promoted (v : pyval) (k : kind) : Prop :=
  ((forall p, ~ part v p) /\ k = KReal) \/ ((exists p, part v p /\ kind_is p k) /\ forall p k', part v p -> kind_is p k' -> (order k' <= order k)%nat).
Inductive entries : pyval -> list pyval -> Prop :=
| entries_one : forall v, ~ sequence v -> entries v [v]
| entries_arr : forall sh k ls, entries (PArr sh k ls) ls
| entries_none : entries (PSeq []) []
| entries_seq : forall x l a b, entries x a -> entries (PSeq l) b -> entries (PSeq (x :: l)) (a ++ b)%list.
Definition array_of (v : pyval) (sh : list nat) (k : kind) (ls : list pyval) : Prop := shaped v sh /\ promoted v k /\ entries v ls.

(** ** The checks *)
Inductive chk := RealPositive | RealScalar | RealNonnegative | PositiveInteger | NonnegativeInteger | Integer | RealArray | OneD | TwoD | Square | ThreeD | Text | Boolean | Dictionary.
Definition run (c : chk) : pyval -> pyval -> pyval -> res :=
  match c with
  | RealPositive => real_positive_scalar | RealScalar => real_scalar | RealNonnegative => real_nonnegative_scalar
  | PositiveInteger => positive_scalar_integer | NonnegativeInteger => nonnegative_scalar_integer | Integer => scalar_integer
  | RealArray => real_array | OneD => oneD_array | TwoD => twoD_array | Square => twoD_square_array | ThreeD => threeD_array
  | Text => string_ | Boolean => boolean | Dictionary => dictionary
  end.
Definition of_arrays (c : chk) : Prop := match c with RealArray | OneD | TwoD | Square | ThreeD => True | _ => False end.
(** What is accepted, and what is returned *)
Definition good_scalar (c : chk) (v : pyval) : Prop :=
  match c with
  | RealPositive => exists p, real v p /\ (p = Above \/ p = Nowhere)
  | RealScalar => exists p, real v p
  | RealNonnegative => exists p, real v p /\ p <> Below
  | PositiveInteger => whole v Above
  | NonnegativeInteger => whole v Above \/ whole v Zero
  | Integer => exists p, whole v p
  | Text => (exists s, v = PStr s) \/ exists s, v = PBytes s
  | Boolean => exists b, v = PBool b
  | Dictionary => v = PDict
  | _ => False
  end.
Definition good_array (c : chk) (sh : list nat) (k : kind) : Prop :=
  match c with
  | RealArray => sh <> [] /\ (k = KBool \/ k = KReal)
  | OneD => exists a, sh = [a]
  | TwoD => exists a b, sh = [a; b]
  | Square => exists a, sh = [a; a]
  | ThreeD => exists a b d, sh = [a; b; d]
  | _ => False
  end.
Definition accepted (c : chk) (v r : pyval) : Prop := (good_scalar c v /\ r = v) \/ exists sh k ls, array_of v sh k ls /\ good_array c sh k /\ r = PArr sh k ls.
(** What is said of the others *)
Definition bad_scalar (c : chk) (v : pyval) (msg : string) : Prop :=
  match c with
  | RealPositive => (~ number v /\ msg = " must be scalar") \/ (complex v /\ msg = " must be real") \/ ((real v Below \/ real v Zero) /\ msg = " must be positive")
  | RealScalar => (~ number v /\ msg = " must be scalar") \/ (complex v /\ msg = " must be real")
  | RealNonnegative => (~ number v /\ msg = " must be scalar") \/ (complex v /\ msg = " must be real") \/ (real v Below /\ msg = " must be nonnegative")
  | PositiveInteger => (~ number v /\ msg = " must be scalar") \/ (number v /\ (forall p, ~ whole v p) /\ msg = " must be integer") \/ ((whole v Below \/ whole v Zero) /\ msg = " must be positive")
  | NonnegativeInteger => (~ number v /\ msg = " must be scalar") \/ (number v /\ (forall p, ~ whole v p) /\ msg = " must be integer") \/ (whole v Below /\ msg = " must be nonnegative")
  | Integer => (~ number v /\ msg = " must be scalar") \/ (number v /\ (forall p, ~ whole v p) /\ msg = " must be integer")
  | Text => ~ good_scalar Text v /\ msg = " must be a string"
  | Boolean => ~ good_scalar Boolean v /\ msg = " must be a bool"
  | Dictionary => v <> PDict /\ msg = " must be a dict"
  | _ => False
  end.
Definition bad_array (c : chk) (sh : list nat) (k : kind) (msg : string) : Prop :=
  match c with
  | RealArray => (sh = [] /\ msg = " must have length > 0") \/ (sh <> [] /\ k = KComplex /\ msg = " must be a real array") \/
                 (sh <> [] /\ (k = KBytes \/ k = KText \/ k = KObject) /\ msg = " must be a real numeric type to be real")
  | OneD => (forall a, sh <> [a]) /\ msg = " must be a 1D array"
  | TwoD => (forall a b, sh <> [a; b]) /\ msg = " must be a 2D array"
  | Square => ((forall a b, sh <> [a; b]) /\ msg = " must be a 2D array") \/ ((exists a b, sh = [a; b] /\ a <> b) /\ msg = " must be a square 2D array")
  | ThreeD => (forall a b d, sh <> [a; b; d]) /\ msg = " must be a 3D array"
  | _ => False
  end.
Definition rejected (c : chk) (v : pyval) (msg : string) : Prop := bad_scalar c v msg \/ exists sh k ls, array_of v sh k ls /\ bad_array c sh k msg.
(** Names and exceptions *)
Definition nameable (n : pyval) : Prop := (exists s, n = PStr s) \/ exists s, n = PBytes s.
Definition raisable (e : pyval) : Prop := exists c t, e = PClass (Exc_class c t).
(** The given exception with its message, if the name is a text and the class takes one *)
Definition voiced (n e : pyval) (msg : string) (x : fault) : Prop :=
  (exists s c, n = PStr s /\ e = PClass (Exc_class c true) /\ x = XGiven (Exc_class c true) (s ++ msg)) \/
  (((exists s, n = PBytes s) \/ exists c, e = PClass (Exc_class c false)) /\ x = XType).
Definition faulted (c : chk) (v n e : pyval) (x : fault) : Prop :=
  (~ (nameable n /\ raisable e) /\ x = XCheck) \/
  (nameable n /\ raisable e /\ ((of_arrays c /\ ragged v /\ x = XValue) \/ exists msg, rejected c v msg /\ voiced n e msg x)).

(** ** Entries by their indices *)
Fixpoint offset (sh idx : list nat) : option nat :=
  match sh, idx with
  | [], [] => Some 0%nat
  | s :: sh, i :: idx => if (i <? s)%nat then match offset sh idx with Some k => Some (i * fold_right Nat.mul 1 sh + k)%nat | None => None end else None
  | _, _ => None
  end.
Inductive at_index : pyval -> list nat -> pyval -> Prop :=
| index_one : forall v, ~ sequence v -> at_index v [] v
| index_seq : forall l i idx x v, nth_error l i = Some x -> at_index x idx v -> at_index (PSeq l) (i :: idx) v
| index_arr : forall sh k ls idx o v, offset sh idx = Some o -> nth_error ls o = Some v -> at_index (PArr sh k ls) idx v.
(** Arrays have as many entries as their shape says *)
Definition proper (v : pyval) : Prop := forall sh k ls, part v (PArr sh k ls) -> List.length ls = fold_right Nat.mul 1%nat sh.
(** What one check implies *)
Definition stronger (c c' : chk) : Prop :=
  match c, c' with
  | PositiveInteger, (NonnegativeInteger | Integer | RealPositive | RealNonnegative | RealScalar) => True
  | NonnegativeInteger, (Integer | RealNonnegative | RealScalar) => True
  | Integer, RealScalar => True
  | RealPositive, (RealNonnegative | RealScalar) => True
  | RealNonnegative, RealScalar => True
  | Square, TwoD => True
  | Boolean, (NonnegativeInteger | Integer | RealNonnegative | RealScalar) => True
  | _, _ => False
  end.
