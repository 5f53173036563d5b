(** Specification of combinations and of star matching. *)
From Coq Require Import List Arith Reals ZArith String Sorted Permutation.
From Verif Require Import Base AngleModel AngleSpec.
Import ListNotations.
Local Open Scope list_scope.

(** The strictly increasing tuples of [r] numbers below [n], and their order. *)
Definition combo (n r : nat) (t : list nat) : Prop := List.length t = r /\ StronglySorted lt t /\ Forall (fun x => x < n) t.
Inductive lex : list nat -> list nat -> Prop :=
| lex_here : forall x y l m, x < y -> lex (x :: l) (y :: m)
| lex_later : forall x l m, lex l m -> lex (x :: l) (x :: m).
Definition all_combos (n r : nat) (l : list (list nat)) : Prop := (forall t, In t l <-> combo n r t) /\ StronglySorted lex l.

Local Open Scope R_scope.

(** The position of the first smallest value, which must be below the bound. *)
Definition first_min (bound : R) (vs : list (option R)) (i : nat) : Prop :=
  exists v, nth_error vs i = Some (Some v) /\ v < bound /\ (forall j w, nth_error vs j = Some (Some w) -> v <= w)
  /\ forall j w, (j < i)%nat -> nth_error vs j = Some (Some w) -> v < w.

(** The members of [l] that satisfy [P], in order. *)
Inductive sieve {A} (P : A -> Prop) : list A -> list A -> Prop :=
| sieve_nil : sieve P [] []
| sieve_in : forall x l m, P x -> sieve P l m -> sieve P (x :: l) (x :: m)
| sieve_out : forall x l m, ~ P x -> sieve P l m -> sieve P (x :: l) m.

Definition ascending (a b c : R) (s : R * R * R) : Prop :=
  let '(x, y, z) := s in x <= y <= z /\ Permutation [a; b; c] [x; y; z].

(** A sky triangle fits when every side is within the tolerance of the guessed scale. *)
Definition fits (guess tol : R) (img sky : R * R * R) : Prop :=
  let '(l1, l2, l3) := img in let '(s1, s2, s3) := sky in
  forall l s, In (l, s) [(l1, s1); (l2, s2); (l3, s3)] -> guess * (1 - tol) <= s / l <= guess * (1 + tol).
(** Its score: the squared distance of the shapes, or that of the image's shape
    from nothing when it does not fit. *)
Definition shape (t : R * R * R) : R * R * R := let '(a, b, c) := t in (a / (a + b + c), b / (a + b + c), c / (a + b + c)).
Definition square_distance (s t : R * R * R) : R := let '(a, b, c) := s in let '(x, y, z) := t in (a - x) ^ 2 + (b - y) ^ 2 + (c - z) ^ 2.
Definition scored (guess tol : R) (img sky : R * R * R) (v : R) : Prop :=
  (fits guess tol img sky -> let '(a, b, c) := sky in a + b + c <> 0 /\ v = square_distance (shape img) (shape sky))
  /\ (~ fits guess tol img sky -> v = square_distance (shape img) (0, 0, 0)).

Section Match.
Variable star : Type.
Variables ra dec : star -> R.
Variable sep : star -> star -> R.
Variable pa : star -> R.
Variable predict : R -> R -> star -> R * R.
Variable bright : list star -> list star.

Definition triangle (stars : list star) (t : list nat) (a b c : star) : Prop :=
  exists j k l, t = [j; k; l] /\ nth_error stars j = Some a /\ nth_error stars k = Some b /\ nth_error stars l = Some c.
Definition side_of (stars : list star) (t : list nat) (s : R * R * R) : Prop := exists a b c, triangle stars t a b c /\ ascending (sep a b) (sep b c) (sep c a) s.
(** The first of the best-scoring triangles. *)
Definition best_triangle (guess tol : R) (img : R * R * R) (stars : list star) (t : list nat) (s : R * R * R) : Prop :=
  combo (List.length stars) 3 t /\ side_of stars t s /\ exists v, scored guess tol img s v /\ v < 10000000000
  /\ forall t' s' v', combo (List.length stars) 3 t' -> side_of stars t' s' -> scored guess tol img s' v' -> v <= v' /\ (lex t' t -> v < v').

Definition off2 (p q : R * R) : R := (fst p - fst q) ^ 2 + (snd p - snd q) ^ 2.
Definition visible (p : R * R) : Prop := 0 <= fst p <= 1024 /\ 0 <= snd p <= 1024.
(** The first of the visible stars predicted nearest to the source, within 1000 pixels. *)
Definition nearest_star (place : star -> R * R) (stars : list star) (src : R * R) (m : star) : Prop :=
  exists i, nth_error stars i = Some m /\ visible (place m) /\ off2 src (place m) < 1000000
  /\ forall j m', nth_error stars j = Some m' -> visible (place m') -> off2 src (place m) <= off2 src (place m') /\ ((j < i)%nat -> off2 src (place m) < off2 src (place m')).

Definition matched (cols : list string) (srcs : list (R * R)) (tra tdec : R) (tgt : R * R) (field : list star) (threshold : nat) (radius guess tol : R) (table : list ((R * R) * (R * R))) : Prop :=
  In "VMAG"%string cols /\ In "RA"%string cols /\ In "DEC"%string cols /\
  exists s1 s2 s3 rest sub img t b a b' c a1 a2 a3,
    srcs = s1 :: s2 :: s3 :: rest
    /\ sieve (fun s => tra - radius <= ra s <= tra + radius /\ tdec - radius <= dec s <= tdec + radius) field sub
    /\ ascending (dist s1 s2) (dist s2 s3) (dist s3 s1) img
    /\ let stars := firstn threshold (bright sub) in
       best_triangle guess tol img stars t b /\ triangle stars t a b' c
    /\ is_pa tgt s1 a1 /\ is_pa tgt s2 a2 /\ is_pa tgt s3 a3
    /\ let scale := (fst (fst b) / fst (fst img) + snd (fst b) / snd (fst img) + snd b / snd img) / 3 in
       let north := Rabs ((pa a + pa b' + pa c - (a1 + a2 + a3)) / 3) in
       Forall2 (fun src row => fst row = src /\ exists m, nearest_star (predict scale north) sub src m /\ snd row = (ra m, dec m)) srcs table.
End Match.

(** Pascal's triangle. *)
Fixpoint binom (n r : nat) : nat := match n, r with _, O => 1 | O, S _ => 0 | S n', S r' => (binom n' r' + binom n' (S r'))%nat end.
