(** Days, instants and the texts of times. *)
From Coq Require Import List ZArith Bool String Ascii.
From Verif Require Import Base UtcModel.
Import ListNotations.
Local Open Scope Z_scope.

(** ** The calendar *)
Definition leap (y : Z) : Prop := Z.divide 4 y /\ (Z.divide 100 y -> Z.divide 400 y).
(** The last day of a month. *)
Definition last_day (y m d : Z) : Prop :=
  (In m [1; 3; 5; 7; 8; 10; 12] /\ d = 31) \/ (In m [4; 6; 9; 11] /\ d = 30) \/ (m = 2 /\ leap y /\ d = 29) \/ (m = 2 /\ ~ leap y /\ d = 28).
Inductive next_day : Z * Z * Z -> Z * Z * Z -> Prop :=
| within_month : forall y m d e, last_day y m e -> d < e -> next_day (y, m, d) (y, m, d + 1)
| next_month : forall y m d, last_day y m d -> m < 12 -> next_day (y, m, d) (y, m + 1, 1)
| next_year : forall y, next_day (y, 12, 31) (y + 1, 1, 1).
(** Day 1 is the first of January of the year 1. *)
Inductive day_number : Z -> Z * Z * Z -> Prop :=
| first_day : day_number 1 (1, 1, 1)
| day_after : forall n p q, day_number n p -> next_day p q -> day_number (n + 1) q.
(** ** Instants, in microseconds *)
Definition reads (a : moment) (t : Z) : Prop :=
  exists n, day_number n (year a, month a, day a) /\ 0 <= hour a < 24 /\ 0 <= minute a < 60 /\ 0 <= second a < 60 /\ 0 <= micro a < 1000000 /\
    t = n * 86400000000 + hour a * 3600000000 + minute a * 60000000 + second a * 1000000 + micro a.
(** The years of the library are 1 to 9999. *)
Definition representable (t : Z) : Prop := exists a, reads a t /\ year a <= 9999.
Definition universal (t : Z) (zone : option Z) (u : Z) : Prop := (zone = None /\ u = t) \/ exists off, zone = Some off /\ u + off = t.
(** The nearest tenth of a second, the later of two. *)
Definition nearest_tenth (u k : Z) : Prop := 2 * Z.abs (u - k * 100000) <= 100000 /\ 2 * (u - k * 100000) <> 100000.
(** ** Texts *)
Definition is_number (c : ascii) (d : Z) : Prop := 0 <= d <= 9 /\ Z.of_nat (nat_of_ascii c) = 48 + d.
Inductive number : string -> nat -> Z -> Prop :=
| no_digits : number EmptyString 0 0
| one_more : forall s w n c d, number s w n -> is_number c d -> number (s ++ String c EmptyString)%string (S w) (10 * n + d).
Definition written (a : moment) (text : string) : Prop :=
  exists y m d h i s t, text = (y ++ m ++ d ++ "T" ++ h ++ i ++ s ++ t)%string /\ number y 4 (year a) /\ number m 2 (month a) /\ number d 2 (day a) /\ number h 2 (hour a) /\ number i 2 (minute a) /\ number s 2 (second a)
    /\ exists k, number t 1 k /\ micro a = k * 100000.
