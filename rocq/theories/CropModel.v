(** Cropping: corgidrp/l3_to_l4.py crop 271-400.

    An array of planes is the list of its planes, a plane the list of its rows.
    A 2-D frame has one plane, a 3-D frame any number.  The height and width of
    the data are fields; the constructor of Image makes the shapes of err and
    dq agree (data.py).  sizexy is absent, one int or a pair, centerxy absent, one
    int, one float or a pair; other lengths and numpy scalars are not
    modelled, nor NaN.  Frames are copies of the input's (C06).  UserWarning is
    raised as an exception.  The history text is left out. *)
From Coq Require Import List Arith Bool QArith Qround ZArith String.
From Verif Require Import Base.
Import ListNotations.
Local Open Scope Z_scope.
Local Open Scope list_scope.

Section Crop.
Variables V E D : Type.   (* values, errors, flags *)
Notation plane X := (list (list X)) (only parsing).

Record chdr : Type := mkchdr {
  h_lsam : option string; h_starx : option Q; h_stary : option Q; h_crpix1 : option Q; h_crpix2 : option Q;
  h_det0x : option Q; h_det0y : option Q;
  h_ext_naxis : option Z * option Z * option Z; h_dq_naxis : option Z * option Z * option Z; h_err_naxis : option Z * option Z * option Z * option Z }.
Record cframe : Type := mkcframe {
  c_ndim : nat; c_h : Z; c_w : Z; c_data : list (plane V); c_err : list (list (plane E)); c_dq : list (plane D); c_hdr : chdr }.

Inductive size : Type := SzNone | SzInt (n : Z) | SzPair (x y : Z).
Inductive centre : Type := CeNone | CeInt (z : Z) | CeFloat (q : Q) | CePair (x y : Q).

(** 299-301 *)
Definition even_size (s : size) : bool := match s with SzNone => true | SzInt n => n mod 2 =? 0 | SzPair x y => (x mod 2 =? 0) && (y mod 2 =? 0) end.

(** numpy: rounding half to even, truncation, slicing *)
Definition round_even (q : Q) : Z :=
  let f := Qfloor q in
  match Qcompare (q - inject_Z f) (1 # 2) with Lt => f | Gt => f + 1 | Eq => if Z.even f then f else f + 1 end.
Definition truncQ (q : Q) : Z := if Qle_bool 0 q then Qfloor q else Qceiling q.
Definition slice {X} (i j : Z) (l : list X) : list X :=
  let n := Z.of_nat (List.length l) in
  let fix_ k := Z.max 0 (Z.min n (if k <? 0 then k + n else k)) in
  firstn (Z.to_nat (fix_ j - fix_ i)) (skipn (Z.to_nat (fix_ i)) l).
Definition cut {X} (x1 x2 y1 y2 : Z) (p : plane X) : plane X := map (slice x1 x2) (slice y1 y2 p).

(** 330-335 *)
Definition is_half (q : Q) : bool := Qeq_bool (q - inject_Z (Qfloor q)) (1 # 2).
Definition snap (c : Q * Q) : Q * Q :=
  if is_half (fst c) && is_half (snd c) then c
  else (inject_Z (round_even (fst c - (1 # 2))) + (1 # 2), inject_Z (round_even (snd c - (1 # 2))) + (1 # 2))%Q.

(** 376-389 *)
Definition sub (o : option Q) (d : Z) : result (option Q) := do q <- getkey o; Ok (Some (q - inject_Z d)%Q).
Definition shift_pair (a b : option Q) (x1 y1 : Z) : result (option Q * option Q) :=
  match a with None => Ok (a, b) | Some _ => do a' <- sub a x1; do b' <- sub b y1; Ok (a', b') end.
Definition det_pair (a b : option Q) (x1 y1 : Z) : result (option Q * option Q) :=
  match a with
  | None => Ok (Some (0 + inject_Z x1)%Q, Some (0 + inject_Z y1)%Q)
  | Some a' => do b' <- getkey b; Ok (Some (a' + inject_Z x1)%Q, Some (b' + inject_Z y1)%Q)
  end.

(** one frame, with the size and the centre settled: 337-393 *)
Definition crop_frame (sx sy : Z) (c : Q * Q) (f : cframe) : result cframe :=
  let x1 := truncQ (fst c + (1 # 2) - inject_Z sx / 2) in let y1 := truncQ (snd c + (1 # 2) - inject_Z sy / 2) in
  let x2 := truncQ (fst c + (1 # 2) + inject_Z sx / 2) in let y2 := truncQ (snd c + (1 # 2) + inject_Z sy / 2) in
  if (x1 <? 0) || (c_w f <? x2) || (y1 <? 0) || (c_h f <? y2) then Raise ValueError
  else if negb ((c_ndim f =? 2)%nat || (c_ndim f =? 3)%nat) then Raise ValueError
  else
  let h := c_hdr f in
  let err := map (map (cut x1 x2 y1 y2)) (c_err f) in
  do s <- shift_pair (h_starx h) (h_stary h) x1 y1;
  do p <- shift_pair (h_crpix1 h) (h_crpix2 h) x1 y1;
  do d <- det_pair (h_det0x h) (h_det0y h) x1 y1;
  let three := (c_ndim f =? 3)%nat in
  let planes := Some (Z.of_nat (List.length (c_data f))) in
  let layers := Some (Z.of_nat (List.length (c_err f))) in
  let '(_, _, e3) := h_ext_naxis h in let '(_, _, q3) := h_dq_naxis h in let '(_, _, _, r4) := h_err_naxis h in
  Ok (mkcframe (c_ndim f) sy sx (map (cut x1 x2 y1 y2) (c_data f)) err (map (cut x1 x2 y1 y2) (c_dq f))
        (mkchdr (h_lsam h) (fst s) (snd s) (fst p) (snd p) (fst d) (snd d)
           (Some sx, Some sy, if three then planes else e3) (Some sx, Some sy, if three then Some (Z.of_nat (List.length (c_dq f))) else q3)
           (Some sx, Some sy, if three then planes else layers, if three then layers else r4))).

(** 312-335: the size and the centre are stored in the variables the next frame
    reads.  A scalar int centre becomes a numpy float here. *)
Definition settle_size (s : size) (f : cframe) : result (Z * Z) :=
  match s with
  | SzInt n => Ok (n, n)
  | SzPair x y => Ok (x, y)
  | SzNone => do l <- getkey (h_lsam (c_hdr f)); if String.eqb l "NFOV" then Ok (60, 60) else Raise PyException
  end.
Definition settle_centre (c : centre) (f : cframe) : result ((Q * Q) * centre) :=
  match c with
  | CePair x y => let p := snap (x, y) in Ok (p, CePair (fst p) (snd p))
  | CeFloat q => let p := snap (q, q) in Ok (p, CePair (fst p) (snd p))
  | CeInt z => let p := snap (inject_Z z, inject_Z z) in Ok (p, CeFloat (fst p))
  | CeNone => match h_starx (c_hdr f), h_stary (c_hdr f) with
              | Some x, Some y => let p := snap (x, y) in Ok (p, CePair (fst p) (snd p))
              | _, _ => Raise ValueError
              end
  end.
Fixpoint crop_all (s : size) (c : centre) (fs : list cframe) : result (list cframe * centre) :=
  match fs with
  | [] => Ok ([], c)
  | f :: r =>
    do z <- settle_size s f;
    do q <- settle_centre c f;
    do g <- crop_frame (fst z) (snd z) (fst q) f;
    do t <- crop_all (SzPair (fst z) (snd z)) (snd q) r;
    Ok (g :: fst t, snd t)
  end.
(** 395-400: the message makes a list of the centre, which a scalar refuses;
    a dataset is never empty *)
Definition crop (s : size) (c : centre) (fs : list cframe) : result (list cframe) :=
  if even_size s then
    do r <- crop_all s c fs;
    match fst r, snd r with
    | [], _ => Raise ValueError
    | _, CePair _ _ => Ok (fst r)
    | _, _ => Raise TypeError
    end
  else Raise PyException.
End Crop.
Arguments crop {V E D}. Arguments crop_frame {V E D}. Arguments crop_all {V E D}. Arguments mkcframe {V E D}.
Arguments c_ndim {V E D}. Arguments c_h {V E D}. Arguments c_w {V E D}. Arguments c_data {V E D}. Arguments c_err {V E D}. Arguments c_dq {V E D}. Arguments c_hdr {V E D}.
