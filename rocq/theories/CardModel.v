(** The cards of detected sources: written by corgidrp/l4_to_tda.py find_source 490-492, read by
    measure_companions.py parse_companions 237-255, moved by
    update_companion_location_in_cropped_image 467-494.

    A header is the list of its cards with a text value, keywords in capitals as astropy keeps
    them; cards with another value are not modelled.  float() is modelled for an optional sign,
    digits and at most one point, surrounded by blanks; the exponents, underscores, inf and nan
    it also accepts are refused by the model.  A number formatted .1f is rounded half to even
    from its exact value. *)
From Coq Require Import List Arith Bool Reals ZArith String Ascii DecimalString Decimal.
From Verif Require Import Base NearModel FindModel.
Import ListNotations.
Local Open Scope string_scope.

Definition header : Type := list (string * string).
Fixpoint get_card (k : string) (h : header) : option string :=
  match h with [] => None | (k', v) :: t => if String.eqb k k' then Some v else get_card k t end.
(** An assignment changes the card of that keyword in place, or appends one *)
Fixpoint set_card (k v : string) (h : header) : header :=
  match h with [] => [(k, v)] | (k', v') :: t => if String.eqb k k' then (k, v) :: t else (k', v') :: set_card k v t end.

(** ** Formatting *)
Definition digits (n : nat) : string := NilEmpty.string_of_uint (Nat.to_uint n).
Fixpoint fill (c : ascii) (n : nat) (s : string) : string := match n with O => s | S m => String c (fill c m s) end.
Definition pad (c : ascii) (width : nat) (s : string) : string := fill c (width - String.length s) s.
(** {i:03d}, {z:4d}, {x:5.1f} *)
Definition fmt_03d (n : nat) : string := pad "0" 3 (digits n).
Definition fmt_d (z : Z) : string := if (z <? 0)%Z then "-" ++ digits (Z.abs_nat z) else digits (Z.abs_nat z).
Definition fmt_4d (z : Z) : string := pad " " 4 (fmt_d z).
Definition tenths (x : R) : nat := Z.abs_nat (rint (10 * Rabs x)).
Definition fmt_51f (x : R) : string :=
  let t := tenths x in
  let s := (digits (t / 10) ++ "." ++ digits (t mod 10))%string in
  pad " " 5 (if Rlt_dec x 0 then "-" ++ s else s).
Definition key (i : nat) : string := "SNYX" ++ fmt_03d i.
Definition text (sn : R) (y x : Z) : string := fmt_51f sn ++ "," ++ fmt_4d y ++ "," ++ fmt_4d x.

(** 490-492 *)
Fixpoint record_from (i : nat) (l : list (R * (nat * nat))) (h : header) : header :=
  match l with [] => h | (sn, (y, x)) :: t => record_from (S i) t (set_card (key i) (text sn (Z.of_nat y) (Z.of_nat x)) h) end.
Definition record (l : list (R * (nat * nat))) (h : header) : header := record_from 0 l h.

(** find_source as a whole: the image, which keeps its data, and its new header; None while it
    is still searching *)
Definition find_source (cc : list (list bool) -> list (list (option R)) -> list (list (option R))) stat scale (img : list (list (option R))) (h : header)
  (psf : option (list (list R))) (fwhm thr : R) (wop : option (list (list (option R)))) (fuel : nat) : option (result (list (list (option R)) * header)) :=
  match find_sources cc stat scale img psf fwhm thr wop fuel with
  | Done l => Some (Ok (img, record l h))
  | Failed e => Some (Raise e)
  | Running => None
  end.

(** ** Reading *)
Fixpoint split_on (c : ascii) (s : string) : list string :=
  match s with
  | EmptyString => [""]
  | String a t => if Ascii.eqb a c then "" :: split_on c t else match split_on c t with [] => [String a ""] | p :: ps => String a p :: ps end
  end.
Definition is_blank (a : ascii) : bool := Ascii.eqb a " ".
Fixpoint lstrip (s : string) : string := match s with String a t => if is_blank a then lstrip t else s | EmptyString => "" end.
Fixpoint rstrip (s : string) : string :=
  match s with String a t => match rstrip t with EmptyString => if is_blank a then "" else String a "" | t' => String a t' end | EmptyString => "" end.
Definition unsigned (s : string) : result R :=
  match split_on "." s with
  | [a] => if String.eqb a "" then Raise ValueError else match NilEmpty.uint_of_string a with Some d => Ok (INR (Nat.of_uint d)) | None => Raise ValueError end
  | [a; b] =>
    if String.eqb a "" && String.eqb b "" then Raise ValueError
    else match NilEmpty.uint_of_string a, NilEmpty.uint_of_string b with
         | Some d, Some e => Ok (INR (Nat.of_uint d) + INR (Nat.of_uint e) / 10 ^ String.length b)%R
         | _, _ => Raise ValueError
         end
  | _ => Raise ValueError
  end.
Definition to_float (s : string) : result R :=
  match rstrip (lstrip s) with
  | String "-" t => do x <- unsigned t; Ok (- x)%R
  | String "+" t => unsigned t
  | t => unsigned t
  end.

(** parse_companions *)
Fixpoint parse_companions (h : header) : result (list (string * R * R)) :=
  match h with
  | [] => Ok []
  | (k, v) :: t =>
    if String.prefix "SNYX" k then
      match split_on "," v with
      | _ :: y :: x :: _ => do y' <- to_float y; do x' <- to_float x; do r <- parse_companions t; Ok ((k, y', x') :: r)
      | _ => parse_companions t
      end
    else parse_companions t
  end.

(** update_companion_location_in_cropped_image; the hosts are (x, y); round() is half to even *)
Definition update_location (h : header) (k : string) (old new : R * R) : result header :=
  match get_card k h with
  | None => Raise KeyError
  | Some v =>
    match split_on "," v with
    | sn :: y :: x :: _ =>
      do sn' <- to_float sn; do y' <- to_float y; do x' <- to_float x;
      Ok (set_card k (text sn' (rint (y' - snd old + snd new)) (rint (x' - fst old + fst new))) h)
    | _ => Raise ValueError
    end
  end.
