(** Specification: the civil calendar by counting days, instants in microseconds,
    and the text of an instant. *)
From Coq Require Import List ZArith Bool String Ascii.
From Verif Require Import Base TimeModel.
Import ListNotations.
Local Open Scope Z_scope.

(** A year divisible by 4 is a leap year unless it is a century not divisible by 400. *)
Definition leap (y : Z) : Prop := (4 | y) /\ (~ (100 | y) \/ (400 | y)).
Inductive month_len (y : Z) : Z -> Z -> Prop :=
| ml_31 : forall m, In m [1; 3; 5; 7; 8; 10; 12] -> month_len y m 31
| ml_30 : forall m, In m [4; 6; 9; 11] -> month_len y m 30
| ml_feb : ~ leap y -> month_len y 2 28
| ml_feb_leap : leap y -> month_len y 2 29.
Definition valid (t : dt) : Prop :=
  1 <= d_y t <= 9999 /\ (exists n, month_len (d_y t) (d_mo t) n /\ 1 <= d_d t <= n)
  /\ 0 <= d_h t < 24 /\ 0 <= d_mi t < 60 /\ 0 <= d_s t < 60 /\ 0 <= d_us t < 1000000.
(** The day after a date *)
Inductive next_day : Z * Z * Z -> Z * Z * Z -> Prop :=
| nd_day : forall y m d n, month_len y m n -> 1 <= d < n -> next_day (y, m, d) (y, m, d + 1)
| nd_month : forall y m n, month_len y m n -> m < 12 -> next_day (y, m, n) (y, m + 1, 1)
| nd_year : forall y, next_day (y, 12, 31) (y + 1, 1, 1).
(** Day number: 1 January of year 1 is day 1, the next day has the next number. *)
Inductive day_no : Z * Z * Z -> Z -> Prop :=
| dn_one : day_no (1, 1, 1) 1
| dn_next : forall a b n, day_no a n -> next_day a b -> day_no b (n + 1).
(** Microseconds since midnight before 1 January of year 1 *)
Definition instant (t : dt) (us : Z) : Prop :=
  exists n, day_no (d_y t, d_mo t, d_d t) n /\ us = (((n - 1) * 24 + d_h t) * 60 + d_mi t) * 60000000 + d_s t * 1000000 + d_us t.
(** Nearest multiple of 0.1 s, halves up. *)
Definition nearest_tenth (us r : Z) : Prop := (100000 | r) /\ r - 50000 <= us < r + 50000.
(** the end of year 9999, the beginning of year 1000 *)
Definition end_of_time : Z := 3652059 * 86400000000.
Definition thousand : Z := 364877 * 86400000000.
(** the instant meant by a local time with a UTC offset *)
Definition shift (off : option Z) (us : Z) : Z := match off with Some o => us - o | None => us end.

(** Decimal numerals *)
Definition digit (n : Z) (c : ascii) : Prop := 0 <= n <= 9 /\ nat_of_ascii c = (48 + Z.to_nat n)%nat.
Inductive numeral : Z -> string -> Prop :=
| nu_one : forall n c, digit n c -> numeral n (String c EmptyString)
| nu_more : forall n s k c, numeral n s -> digit k c -> numeral (10 * n + k) (s ++ String c EmptyString).
(** The year is four digits wide, or as wide as needed. *)
Definition year_digits (pad : bool) (y : Z) (s : string) : Prop :=
  numeral y s /\ if pad then String.length s = 4%nat else forall u, s <> String "0" u.
Definition field (n : Z) (w : nat) (s : string) : Prop := numeral n s /\ String.length s = w.
(** The text of a time: date and time fields, two digits each, and the tenths *)
Definition text_of (pad : bool) (t : dt) (s : string) : Prop :=
  exists y mo d h mi sec z, s = (y ++ mo ++ d ++ "T" ++ h ++ mi ++ sec ++ z)%string
  /\ year_digits pad (d_y t) y /\ field (d_mo t) 2 mo /\ field (d_d t) 2 d /\ field (d_h t) 2 h /\ field (d_mi t) 2 mi /\ field (d_s t) 2 sec
  /\ field (d_us t / 100000) 1 z.
