(** FTIMEUTC stamps: corgidrp/data.py format_ftimeutc (2504-2546).

    The part of Python's datetime used there is modelled as documented:
    a naive datetime is its seven fields; adding a timedelta goes through the
    proleptic Gregorian ordinal (datetime.toordinal, date.fromordinal, the
    algorithms of the standard library's datetime.py).  datetime.fromisoformat
    is an arbitrary function from the text to a datetime and a UTC offset. *)
From Coq Require Import List ZArith Bool String Ascii.
From Verif Require Import Base.
Import ListNotations.
Local Open Scope Z_scope.

Record dt : Type := mkdt { d_y : Z; d_mo : Z; d_d : Z; d_h : Z; d_mi : Z; d_s : Z; d_us : Z }.

Definition is_leap (y : Z) : bool := (y mod 4 =? 0) && (negb (y mod 100 =? 0) || (y mod 400 =? 0)).
(** _days_before_year *)
Definition before_year (y : Z) : Z := (y - 1) * 365 + (y - 1) / 4 - (y - 1) / 100 + (y - 1) / 400.
(** _DAYS_IN_MONTH, _DAYS_BEFORE_MONTH *)
Definition dim_table (m : Z) : Z :=
  if (m =? 2) then 28 else if (m =? 4) || (m =? 6) || (m =? 9) || (m =? 11) then 30 else 31.
Definition dbm_table (m : Z) : Z :=
  if m =? 1 then 0 else if m =? 2 then 31 else if m =? 3 then 59 else if m =? 4 then 90 else if m =? 5 then 120 else if m =? 6 then 151
  else if m =? 7 then 181 else if m =? 8 then 212 else if m =? 9 then 243 else if m =? 10 then 273 else if m =? 11 then 304 else 334.
Definition before_month (leap : bool) (m : Z) : Z := dbm_table m + (if (2 <? m) && leap then 1 else 0).
Definition toordinal (y m d : Z) : Z := before_year y + before_month (is_leap y) m + d.
(** the end of _ord2ymd: month and day from the day of the year (from 0) *)
Definition month_day (leap : bool) (n : Z) : Z * Z :=
  let month := (n + 50) / 32 in
  let preceding := before_month leap month in
  if n <? preceding then
    let month := month - 1 in
    let preceding := preceding - (dim_table month + (if (month =? 2) && leap then 1 else 0)) in
    (month, n - preceding + 1)
  else (month, n - preceding + 1).
(** _ord2ymd *)
Definition fromordinal (n0 : Z) : Z * Z * Z :=
  let n := n0 - 1 in
  let n400 := n / 146097 in let n := n mod 146097 in
  let n100 := n / 36524 in let n := n mod 36524 in
  let n4 := n / 1461 in let n := n mod 1461 in
  let n1 := n / 365 in let n := n mod 365 in
  let year := n400 * 400 + 1 + n100 * 100 + n4 * 4 + n1 in
  if (n1 =? 4) || (n100 =? 4) then (year - 1, 12, 31)
  else
    let leap := (n1 =? 3) && (negb (n4 =? 24) || (n100 =? 3)) in
    let md := month_day leap n in (year, fst md, snd md).
Definition max_ordinal : Z := 3652059.
(** datetime + timedelta of [us] microseconds; OverflowError outside years 1..9999 *)
Definition add_us (t : dt) (us : Z) : result dt :=
  let total := ((toordinal (d_y t) (d_mo t) (d_d t) * 24 + d_h t) * 60 + d_mi t) * 60 * 1000000 + d_s t * 1000000 + d_us t + us in
  let days := total / 86400000000 in
  let rest := total mod 86400000000 in
  let secs := rest / 1000000 in
  if (0 <? days) && (days <=? max_ordinal) then
    let '(y, m, d) := fromordinal days in
    Ok (mkdt y m d (secs / 3600) (secs mod 3600 / 60) (secs mod 60) (rest mod 1000000))
  else Raise PyException.

(** Decimal digits. *)
Definition dig (n : Z) : ascii := ascii_of_nat (48 + Z.to_nat (n mod 10)).
Definition pad2 (n : Z) : string := String (dig (n / 10)) (String (dig n) EmptyString).
(** strftime('%Y'): padded to four digits or not below year 1000, depending on the
    platform *)
Definition year_text (pad : bool) (y : Z) : string :=
  if pad || (1000 <=? y) then String (dig (y / 1000)) (String (dig (y / 100)) (pad2 y))
  else if 100 <=? y then String (dig (y / 100)) (pad2 y)
  else if 10 <=? y then pad2 y else String (dig y) EmptyString.

Section Time.
Variable pad : bool.
(** datetime.fromisoformat: None for a ValueError; the offset is in microseconds *)
Variable parse : string -> option (dt * option Z).

(** 2533-2546 *)
Definition round_tenth (t : dt) : result dt :=
  let rounded := (d_us t + 50000) / 100000 * 100000 in
  if 1000000 <=? rounded then
    add_us (mkdt (d_y t) (d_mo t) (d_d t) (d_h t) (d_mi t) (d_s t) 0) 1000000
  else Ok (mkdt (d_y t) (d_mo t) (d_d t) (d_h t) (d_mi t) (d_s t) rounded).
Definition stamp (t : dt) : string :=
  (year_text pad (d_y t) ++ pad2 (d_mo t) ++ pad2 (d_d t) ++ "T" ++ pad2 (d_h t) ++ pad2 (d_mi t) ++ pad2 (d_s t) ++ String (dig (d_us t / 100000)) EmptyString)%string.
(** 2504-2548 *)
Definition format_ftimeutc (s : string) : result string :=
  match parse s with
  | None => Raise ValueError
  | Some (t, off) =>
    do u <- match off with Some o => add_us t (- o) | None => Ok t end;
    do r <- round_tenth u;
    Ok (stamp r)
  end.
End Time.
