(** Specification of the bad pixel map. *)
From Coq Require Import List Arith Reals ZArith NArith.
From Verif Require Import Base DqModel DqSpec.
Import ListNotations.
Local Open Scope R_scope.

Definition rect {A} (nr nc : nat) (img : list (list A)) : Prop := List.length img = nr /\ forall row, In row img -> List.length row = nc.
(** The value at row [r] and column [c]. *)
Definition cell {A} (img : list (list A)) (r c : nat) (v : A) : Prop := exists row, nth_error img r = Some row /\ nth_error row c = Some v.
Definition total (l : list R) : R := fold_right Rplus 0 l.
Definition numbers (l : list (option R)) (xs : list R) : Prop := Forall2 (fun o x => o = Some x) l xs.

(** [m] is the mean and [s] the standard deviation of the numbers. *)
Definition moments (xs : list R) (m s : R) : Prop :=
  xs <> [] /\ m * INR (List.length xs) = total xs /\ 0 <= s /\ s ^ 2 * INR (List.length xs) = total (map (fun x => (x - m) ^ 2) xs).
(** Hot: more than [k] deviations above the mean of a dark without NaN. *)
Definition hot (dark : list (list (option R))) (k : R) (r c : nat) : Prop :=
  exists v xs m s, cell dark r c (Some v) /\ numbers (List.concat dark) xs /\ moments xs m s /\ m + k * s < v.

(** The box of width [w] around a coordinate: it starts half a width (rounded
    down) before it. *)
Definition in_box (w : Z) (nr nc r c i j : nat) : Prop :=
  (i < nr /\ j < nc)%nat /\ (Z.of_nat r - w / 2 <= Z.of_nat i < Z.of_nat r - w / 2 + w)%Z /\ (Z.of_nat c - w / 2 <= Z.of_nat j < Z.of_nat c - w / 2 + w)%Z.
(** Dead: below the fraction of the mean of the box, which is without NaN. *)
Definition dead (flat : list (list (option R))) (nr nc : nat) (f : R) (w : Z) (r c : nat) : Prop :=
  exists v ps vs, cell flat r c (Some v) /\ NoDup ps /\ (forall i j, In (i, j) ps <-> in_box w nr nc r c i j)
  /\ Forall2 (fun p x => cell flat (fst p) (snd p) (Some x)) ps vs /\ vs <> [] /\ v < f * (total vs / INR (List.length vs)).

Definition is_map (dark flat : list (list (option R))) (nr nc : nat) (k f : R) (w : Z) (bpm : list (list N)) : Prop :=
  rect nr nc bpm /\ forall r c b, cell bpm r c b ->
    (N.testbit b 3 = true <-> hot dark k r c) /\ (N.testbit b 2 = true <-> dead flat nr nc f w r c) /\ forall i, i <> 2%N -> i <> 3%N -> N.testbit b i = false.

(** Every value replaced by [a] times it plus [b]. *)
Definition rescaled (a b : R) (img : list (list (option R))) : list (list (option R)) := map (map (option_map (fun x => a * x + b))) img.
