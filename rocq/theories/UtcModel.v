(** File time stamps: corgidrp/data.py format_ftimeutc 2504-2548.

    datetime.fromisoformat is an unknown function [parse] that gives a naive date and time with its offset from UTC in
    microseconds, if any, or nothing where it raises ValueError.  The arithmetic of datetime is that of CPython's
    Lib/datetime.py (_days_before_year, _ymd2ord, _ord2ymd, datetime.__add__); its OverflowError is [PyException].  The
    rounding 100000 / 2 is exact in floating point.  %Y is taken to have four digits for years below 1000 too. *)
From Coq Require Import List ZArith Bool String Ascii.
From Verif Require Import Base.
Import ListNotations.
Local Open Scope Z_scope.

Record moment : Type := mkmoment { year : Z; month : Z; day : Z; hour : Z; minute : Z; second : Z; micro : Z }.

(** ** The library's calendar *)
Definition is_leap (y : Z) : bool := (y mod 4 =? 0) && (negb (y mod 100 =? 0) || (y mod 400 =? 0)).
Definition before_year (y : Z) : Z := (y - 1) * 365 + (y - 1) / 4 - (y - 1) / 100 + (y - 1) / 400.
(** _DAYS_IN_MONTH and _DAYS_BEFORE_MONTH, of a year that is not a leap year *)
Definition month_days (m : Z) : Z :=
  match m with 1 => 31 | 2 => 28 | 3 => 31 | 4 => 30 | 5 => 31 | 6 => 30 | 7 => 31 | 8 => 31 | 9 => 30 | 10 => 31 | 11 => 30 | _ => 31 end.
Definition month_start (m : Z) : Z :=
  match m with 1 => 0 | 2 => 31 | 3 => 59 | 4 => 90 | 5 => 120 | 6 => 151 | 7 => 181 | 8 => 212 | 9 => 243 | 10 => 273 | 11 => 304 | _ => 334 end.
Definition one_if (b : bool) : Z := if b then 1 else 0.
Definition to_ordinal (y m d : Z) : Z := before_year y + (month_start m + one_if ((2 <? m) && is_leap y)) + d.
Definition from_ordinal (n : Z) : Z * Z * Z :=
  let n := n - 1 in
  let n400 := n / 146097 in let n := n mod 146097 in
  let y := n400 * 400 + 1 in
  let n100 := n / 36524 in let n := n mod 36524 in
  let n4 := n / 1461 in let n := n mod 1461 in
  let n1 := n / 365 in let n := n mod 365 in
  let y := y + (n100 * 100 + n4 * 4 + n1) in
  if (n1 =? 4) || (n100 =? 4) then (y - 1, 12, 31) else
  let leap := (n1 =? 3) && (negb (n4 =? 24) || (n100 =? 3)) in
  let m := (n + 50) / 32 in
  let preceding := month_start m + one_if ((2 <? m) && leap) in
  if n <? preceding
  then let m := m - 1 in let preceding := preceding - (month_days m + one_if ((m =? 2) && leap)) in (y, m, n - preceding + 1)
  else (y, m, n - preceding + 1).
Definition stamp_of (a : moment) : Z := (((to_ordinal (year a) (month a) (day a) * 24 + hour a) * 60 + minute a) * 60 + second a) * 1000000 + micro a.
Definition plus (a : moment) (delta : Z) : result moment :=
  let t := stamp_of a + delta in
  let days := t / 86400000000 in
  let us := t mod 86400000000 in
  if (0 <? days) && (days <=? 3652059)
  then let '(y, m, d) := from_ordinal days in
       let s := us / 1000000 in
       Ok (mkmoment y m d (s / 3600) (s mod 3600 / 60) (s mod 3600 mod 60) (us mod 1000000))
  else Raise PyException.
(** replace(microsecond=...) *)
Definition with_micro (a : moment) (us : Z) : moment := mkmoment (year a) (month a) (day a) (hour a) (minute a) (second a) us.

(** ** Texts: the last [w] decimal digits *)
Definition digit_char (d : Z) : ascii := ascii_of_nat (Z.to_nat (48 + d)).
Fixpoint put (w : nat) (n : Z) : string := match w with O => EmptyString | S w' => (put w' (n / 10) ++ String (digit_char (n mod 10)) EmptyString)%string end.

Section Utc.
  Variable parse : string -> option (moment * option Z).
  (** 2504-2548 *)
  Definition format_ftimeutc (s : string) : result string :=
    match parse s with
    | None => Raise ValueError
    | Some (a, zone) =>
      do a <- match zone with Some off => plus a (- off) | None => Ok a end;
      let us := (micro a + 50000) / 100000 * 100000 in
      do a <- (if 1000000 <=? us then plus (with_micro a 0) 1000000 else Ok (with_micro a us));
      Ok (put 4 (year a) ++ put 2 (month a) ++ put 2 (day a) ++ "T" ++ put 2 (hour a) ++ put 2 (minute a) ++ put 2 (second a) ++ put 1 (micro a / 100000))%string
    end.
End Utc.
