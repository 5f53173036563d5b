(** Dipoles of trap pumping: corgidrp/pump_trap_calibration.py trap_id 334-549.

    A frame is a list of rows of equal length of real numbers; NaN, infinities and rounding
    (also that of the sum of fractions before np.ceil) are not modelled.  A dictionary is a
    list of keys and values; the order of its keys, that of a Python set in the code, is here
    that of the pixels. *)
From Coq Require Import List Arith Bool Reals ZArith.
From Verif Require Import Base DqModel CombineModel FindModel IllModel.
Import ListNotations.
Local Open Scope R_scope.

Notation frame := (list (list R)) (only parsing).
(** np.median(frame) -/+ np.std(frame) * thresh_factor; NaN for a frame without pixels *)
Definition mean (l : list R) : R := rsum l / INR (List.length l).
Definition std (l : list R) : R := sqrt (mean (map (fun x => (x - mean l) ^ 2) l)).
Definition level (f : R) (fr : frame) : option R := option_map (fun m => m + std (List.concat fr) * f) (nanmedian (map Some (List.concat fr))).
Definition over (t : option R) (x : R) : bool := match t with Some l => if Rlt_dec l x then true else false | None => false end.
Definition under (t : option R) (x : R) : bool := match t with Some l => if Rlt_dec x l then true else false | None => false end.
Definition b2n (b : bool) : nat := if b then 1%nat else 0%nat.
(** 467-474 *)
Definition upper (f : R) (fr : frame) : list (list nat) := map (map (fun x => b2n (over (level f fr) x))) fr.
Definition lower (f : R) (fr : frame) : list (list nat) := map (map (fun x => b2n (under (level (- f) fr) x))) fr.
(** np.roll by -1 and by 1 along the rows, 480-484: then the last, the first row is zeroed *)
Definition roll_up {A} (l : list A) : list A := match l with [] => [] | h :: t => t ++ [h] end.
Definition roll_down {A} (l : list A) : list A := match rev l with [] => [] | h :: t => h :: rev t end.
Definition add2 (a b : list (list nat)) : list (list nat) := map (map (fun p => (fst p + snd p)%nat)) (zipgrid a b).
Definition zero_row (l : list nat) : list nat := map (fun _ => 0%nat) l.
Definition zero_last (l : list (list nat)) : list (list nat) := match rev l with [] => [] | h :: t => rev t ++ [zero_row h] end.
Definition zero_first (l : list (list nat)) : list (list nat) := match l with [] => [] | h :: t => zero_row h :: t end.
Definition above (f : R) (fr : frame) : list (list nat) := zero_last (add2 (upper f fr) (roll_up (lower f fr))).
Definition below (f : R) (fr : frame) : list (list nat) := zero_first (add2 (upper f fr) (roll_down (lower f fr))).
(** 488-489: a pixel has both *)
Definition dipole_at (d : list (list nat)) (r c : nat) : bool :=
  match nth_error d r with Some row => match nth_error row c with Some n => (1 <? n)%nat | None => false end | None => false end.

(** 491-503: one divided by the number of frames of the same phase time, summed, rounded up *)
Definition time_count (times : list R) (t : R) : nat := List.length (filter (fun u => if Req_EM_T u t then true else false) times).
Definition score (dips : list (list (list nat))) (times : list R) (r c : nat) : R :=
  rsum (map (fun p => (if dipole_at (fst p) r c then 1 else 0) / INR (time_count times (snd p))) (combine dips times)).
Definition enough (dips : list (list (list nat))) (times : list R) (limit : Z) (p : nat * nat) : bool := (limit <=? ceil (score dips times (fst p) (snd p)))%Z.

Record trap : Type := mktrap { amps : list R; med_min : R; med_max : R }.
Record both_trap : Type := mkboth { b_trap : trap; b_above : list (R * R); b_below : list (R * R) }.   (* amplitude and time *)
Definition pixel (img : list (list R)) (p : nat * nat) : result R :=
  match nth_error img (fst p) with Some row => match nth_error row (snd p) with Some v => Ok v | None => Raise IndexError end | None => Raise IndexError end.
Definition entry (stack : list frame) (imin imax : list (list R)) (p : nat * nat) : result ((nat * nat) * trap) :=
  do a <- mapR (fun fr => pixel fr p) stack; do mn <- pixel imin p; do mx <- pixel imax p; Ok (p, mktrap a mn mx).
(** 519-531: the amplitudes and times of the frames with a dipole *)
Definition shown (dips : list (list (list nat))) (stack : list frame) (times : list R) (p : nat * nat) : result (list (R * R)) :=
  mapR (fun x => do a <- pixel (fst (snd x)) p; Ok (a, snd (snd x))) (filter (fun x => dipole_at (fst x) (fst p) (snd p)) (combine dips (combine stack times))).
Definition both_entry (f : R) (stack : list frame) (imin imax : list (list R)) (times : list R) (p : nat * nat) : result ((nat * nat) * both_trap) :=
  do e <- entry stack imin imax p;
  do a <- shown (map (above f) stack) stack times p; do b <- shown (map (below f) stack) stack times p;
  Ok (p, mkboth (snd e) a b).
Definition is_shape (nr nc : nat) (img : list (list R)) : bool := Nat.eqb (List.length img) nr && forallb (fun row => Nat.eqb (List.length row) nc) img.
Definition member (p : nat * nat) (l : list (nat * nat)) : bool := existsb (fun q => Nat.eqb (fst p) (fst q) && Nat.eqb (snd p) (snd q)) l.

(** The three dictionaries: above, below, both.  np.stack of nothing or of frames of different shapes is a
    TypeError; a frame without rows an IndexError at the zeroing of its edge. *)
Definition search (nr nc : nat) (stack : list frame) (imin imax : list (list R)) (times : list R) (f : R) (limit : Z)
  : result (list ((nat * nat) * trap) * list ((nat * nat) * trap) * list ((nat * nat) * both_trap)) :=
  if negb (forallb (is_shape nr nc) stack) then Raise TypeError
  else if negb (is_shape nr nc imin) then Raise ValueError
  else if negb (is_shape nr nc imax) then Raise ValueError
  else if negb (Nat.eqb (List.length times) (List.length stack)) then Raise ValueError
  else if (if Rlt_dec 0 f then false else true) then Raise TypeError
  else if (limit <=? 0)%Z then Raise TypeError
  else if (Z.of_nat (List.length stack) <? limit)%Z then Raise ValueError
  else if Nat.eqb nr 0 then Raise IndexError
  else
    let pixels := list_prod (seq 0 nr) (seq 0 nc) in
    let a := filter (enough (map (above f) stack) times limit) pixels in
    let b := filter (enough (map (below f) stack) times limit) pixels in
    let only_a := filter (fun p => negb (member p b)) a in
    let only_b := filter (fun p => negb (member p a)) b in
    let both := filter (fun p => negb (member p only_a)) a in
    do rc_both <- mapR (both_entry f stack imin imax times) both;
    do rc_above <- mapR (entry stack imin imax) only_a;
    do rc_below <- mapR (entry stack imin imax) only_b;
    Ok (rc_above, rc_below, rc_both).
Definition trap_id (stack : list frame) (imin imax : list (list R)) (times : list R) (f : R) (limit : Z)
  : result (list ((nat * nat) * trap) * list ((nat * nat) * trap) * list ((nat * nat) * both_trap)) :=
  match stack with [] => Raise TypeError | fr0 :: _ => search (List.length fr0) (ncol fr0) stack imin imax times f limit end.
