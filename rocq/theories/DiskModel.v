(** Frames and FITS files: corgidrp/data.py 276-430 Image.__init__, 436-466 save, 601-617 add_extension_hdu.

    A FITS file is a primary header and a list of HDUs, each a header and an array; what is written is what is read (astropy).
    Headers are lists of cards, with the HISTORY and COMMENT cards apart; keywords are upper case.  Arrays are a shape and the
    values in C order, of an arbitrary type with a zero. *)
From Coq Require Import List Arith Bool String Ascii ZArith QArith DecimalString.
From Verif Require Import Base.
Import ListNotations.
Local Open Scope nat_scope.
Local Open Scope string_scope.
Local Open Scope list_scope.

(** ** Headers (astropy.io.fits.Header) *)
Inductive hv : Type := HB (b : bool) | HZ (z : Z) | HQ (q : Q) | HS (s : string) | HU.
Record hdr : Type := mkh { cards : list (string * hv); hist : list string; comm : list string }.
Definition blank : hdr := mkh [] [] [].
Fixpoint find_card (k : string) (l : list (string * hv)) : option hv :=
  match l with [] => None | (a, v) :: t => if String.eqb a k then Some v else find_card k t end.
Definition get (k : string) (h : hdr) : option hv := find_card k (cards h).
Definition has (k : string) (h : hdr) : bool := match get k h with Some _ => true | None => false end.
Fixpoint put_card (k : string) (v : hv) (l : list (string * hv)) : list (string * hv) :=
  match l with [] => [(k, v)] | (a, w) :: t => if String.eqb a k then (a, v) :: t else (a, w) :: put_card k v t end.
Definition set (k : string) (v : hv) (h : hdr) : hdr := mkh (put_card k v (cards h)) (hist h) (comm h).
Definition set_new (k : string) (v : hv) (h : hdr) : hdr := if has k h then h else set k v h.
Fixpoint drop_card (k : string) (l : list (string * hv)) : list (string * hv) :=
  match l with [] => [] | (a, w) :: t => if String.eqb a k then t else (a, w) :: drop_card k t end.
Definition del (k : string) (h : hdr) : result hdr := if has k h then Ok (mkh (drop_card k (cards h)) (hist h) (comm h)) else Raise KeyError.
Definition add_hist (s : string) (h : hdr) : hdr := mkh (cards h) (hist h ++ [s]) (comm h).
Definition add_comm (s : string) (h : hdr) : hdr := mkh (cards h) (hist h) (comm h ++ [s]).
Definition decimal (n : nat) : string := NilEmpty.string_of_uint (Nat.to_uint n).

(** ** Text *)
Definition up_char (c : ascii) : ascii := let n := nat_of_ascii c in if andb (Nat.leb 97 n) (Nat.leb n 122) then ascii_of_nat (n - 32) else c.
Fixpoint up (s : string) : string := match s with EmptyString => EmptyString | String c t => String (up_char c) (up t) end.
(** s.split("/") *)
Fixpoint split_slash (s : string) : list string :=
  match s with
  | EmptyString => [EmptyString]
  | String c t => if Ascii.eqb c "/" then EmptyString :: split_slash t
                  else match split_slash t with [] => [String c EmptyString] | a :: r => String c a :: r end
  end.
(** "/".join(l) *)
Fixpoint join_slash (l : list string) : string :=
  match l with [] => EmptyString | [a] => a | a :: t => (a ++ "/" ++ join_slash t)%string end.
Fixpoint ends_slash (s : string) : bool := match s with EmptyString => false | String c EmptyString => Ascii.eqb c "/" | String _ t => ends_slash t end.
(** os.path.join(d, f) *)
Definition path_join (d f : string) : string :=
  if String.prefix "/" f then f else if orb (String.eqb d "") (ends_slash d) then (d ++ f)%string else (d ++ "/" ++ f)%string.
(** 326-333: directory and name *)
Definition dir_name (p : string) : string * string :=
  match split_slash p with
  | [] => (".", EmptyString)
  | [a] => (".", a)
  | l => (join_slash (removelast l), last l EmptyString)
  end.

Section Disk.
Variable E : Type.
Variable zero : E.

(** ** Arrays *)
Record arr : Type := mka { shp : list nat; vals : list E }.
Definition ndim (a : arr) : nat := List.length (shp a).
Definition size (s : list nat) : nat := fold_right Nat.mul 1 s.
Definition zeros (s : list nat) : arr := mka s (repeat zero (size s)).
(** a.reshape((1,)+a.shape) *)
Definition one_more (a : arr) : arr := mka (1 :: shp a) (vals a).
(** a[:1] *)
Definition first_plane (a : arr) : arr := match shp a with [] => a | n :: t => mka (Nat.min 1 n :: t) (firstn (Nat.min 1 n * size t) (vals a)) end.
(** l[-n:] *)
Definition lastn {X} (n : nat) (l : list X) : list X := match n with 0 => l | _ => skipn (List.length l - n) l end.
Definition list_eqb (a b : list nat) : bool := if list_eq_dec Nat.eq_dec a b then true else false.

(** ** HDUs and files *)
Record hdu : Type := mkhdu { h_hdr : hdr; h_data : arr }.
(** hdu.name *)
Definition h_name (x : hdu) : string := match get "EXTNAME" (h_hdr x) with Some (HS s) => s | _ => EmptyString end.
Record file : Type := mkfile { f_pri : hdr; f_hdus : list hdu }.
(** hdulist.pop(key): the first of this name, in any case *)
Fixpoint pop_name (k : string) (l : list hdu) : option (hdu * list hdu) :=
  match l with
  | [] => None
  | x :: t => if String.eqb (up (h_name x)) k then Some (x, t)
              else match pop_name k t with Some (y, r) => Some (y, x :: r) | None => None end
  end.

(** ** Frames *)
Record image : Type := mkim { i_pri : hdr; i_ext : hdr; i_data : arr; i_err : arr; i_errh : hdr; i_dq : arr; i_dqh : hdr;
  i_list : list hdu; i_names : list string; i_dir : string; i_file : string }.

(** 292-299, 347-356 *)
Definition take_err (data err : arr) : result arr :=
  if list_eqb (shp data) (lastn (ndim data) (shp err)) then Ok (if Nat.eqb (ndim err) (ndim data + 1) then err else one_more err) else Raise ValueError.
(** 309-312, 358-361 *)
Definition take_dq (data dq : arr) : result arr := if list_eqb (shp data) (shp dq) then Ok dq else Raise ValueError.
(** 399-405: the cards of the layers dropped *)
Fixpoint del_layers (i n : nat) (h : hdr) : result hdr :=
  match n with 0 => Ok h | S k => do h1 <- del ("LAYER_" ++ decimal (i + 2))%string h; del_layers (i + 1) k h1 end.
(** 385-428; [eh] and [dh] are the headers found so far *)
Definition finish (track : bool) (pri ext : hdr) (data err dq : arr) (eh dh : option hdr) (err_hdr dq_hdr : option hdr)
  (l : list hdu) (names : list string) (dir name : string) : result image :=
  let eh1 := match err_hdr with Some h => h | None => match eh with Some h => h | None => blank end end in
  let dh1 := match dq_hdr with Some h => h | None => match dh with Some h => h | None => blank end end in
  let eh2 := set "EXTNAME" (HS "ERR") eh1 in
  let dh2 := set "EXTNAME" (HS "DQ") dh1 in
  do ee <- (if andb (negb track) (Nat.ltb 1 (hd 0 (shp err))) then do h <- del_layers 0 (hd 0 (shp err) - 1) eh2; Ok (h, first_plane err) else Ok (eh2, err));
  let ext1 := set_new "IS_BAD" (HB false) (set_new "CTI_CORR" (HB false) (set_new "DESMEAR" (HB false) ext)) in
  Ok (mkim (set "ORIGIN" (HS "DRP") pri) ext1 data (snd ee) (set "TRK_ERRS" (HB track) (fst ee)) dq dh2 l names dir name).

(** 277-333: from the file at the path p *)
Definition load_image (track : bool) (p : string) (f : file) (err dq : option arr) (err_hdr dq_hdr : option hdr) (input : option (list hdu)) : result image :=
  match f_hdus f with
  | [] => Raise IndexError
  | x :: l =>
    let names := map h_name l in
    let data := h_data x in
    do el <- (match err with
              | Some e => do e1 <- take_err data e; Ok (e1, None, l)
              | None => if existsb (String.eqb "ERR") names
                        then match pop_name "ERR" l with
                             | None => Raise KeyError
                             | Some (y, r) => Ok (if Nat.eqb (ndim (h_data y)) (ndim data) then one_more (h_data y) else h_data y, Some (h_hdr y), r)
                             end
                        else Ok (zeros (1 :: shp data), None, l)
              end);
    do dl <- (match dq with
              | Some d => do d1 <- take_dq data d; Ok (d1, None, snd el)
              | None => if existsb (String.eqb "DQ") names
                        then match pop_name "DQ" (snd el) with
                             | None => Raise KeyError
                             | Some (y, r) => Ok (h_data y, Some (h_hdr y), r)
                             end
                        else Ok (zeros (shp data), None, snd el)
              end);
    finish track (f_pri f) (h_hdr x) data (fst (fst el)) (fst (fst dl)) (snd (fst el)) (snd (fst dl)) err_hdr dq_hdr
      (match input with Some i => i | None => snd dl end) names (fst (dir_name p)) (snd (dir_name p))
  end.
(** 335-383: from an array; version and time as texts *)
Definition new_image (track : bool) (version now : string) (data : arr) (pri ext : option hdr) (err dq : option arr) (err_hdr dq_hdr : option hdr)
  (input : option (list hdu)) : result image :=
  match pri, ext with
  | Some pri, Some ext =>
    do e <- (match err with Some e => take_err data e | None => Ok (zeros (1 :: shp data)) end);
    do d <- (match dq with Some d => take_dq data d | None => Ok (zeros (shp data)) end);
    let l := match input with Some i => i | None => [] end in
    finish track pri (set "DRPCTIME" (HS now) (set "DRPVERSN" (HS version) ext)) data e d None None err_hdr dq_hdr l (["ERR"; "DQ"] ++ map h_name l) "." EmptyString
  | _, _ => Raise ValueError
  end.

(** 430-433 *)
Definition filepath (x : image) : string := path_join (i_dir x) (i_file x).
(** 436-466: the frame, and the path and file written *)
Definition place (dir name : option string) (x : image) : image :=
  mkim (i_pri x) (i_ext x) (i_data x) (i_err x) (i_errh x) (i_dq x) (i_dqh x) (i_list x) (i_names x)
    (match dir with Some d => d | None => i_dir x end) (match name with Some n => n | None => i_file x end).
Definition written (x : image) : file := mkfile (i_pri x) (mkhdu (i_ext x) (i_data x) :: mkhdu (i_errh x) (i_err x) :: mkhdu (i_dqh x) (i_dq x) :: i_list x).
Definition save_image (dir name : option string) (x : image) : image * result (string * file) :=
  let y := place dir name x in
  (y, if String.eqb (i_file y) EmptyString then Raise ValueError else Ok (filepath y, written y)).
(** 601-617; astropy writes the name of the extension in upper case *)
Definition add_extension (name : string) (data : arr) (header : option hdr) (x : image) : result image :=
  if existsb (String.eqb name) (i_names x) then Raise ValueError
  else Ok (mkim (i_pri x) (i_ext x) (i_data x) (i_err x) (i_errh x) (i_dq x) (i_dqh x)
             (i_list x ++ [mkhdu (set "EXTNAME" (HS (up name)) (match header with Some h => h | None => blank end)) data]) (i_names x ++ [name]) (i_dir x) (i_file x)).
End Disk.
Arguments mka {E} _ _. Arguments shp {E} _. Arguments vals {E} _. Arguments ndim {E} _. Arguments one_more {E} _. Arguments first_plane {E} _.
Arguments mkhdu {E} _ _. Arguments h_hdr {E} _. Arguments h_data {E} _. Arguments h_name {E} _. Arguments mkfile {E} _ _. Arguments f_pri {E} _. Arguments f_hdus {E} _.
Arguments pop_name {E} _ _. Arguments mkim {E}. Arguments i_pri {E} _. Arguments i_ext {E} _. Arguments i_data {E} _. Arguments i_err {E} _. Arguments i_errh {E} _.
Arguments i_dq {E} _. Arguments i_dqh {E} _. Arguments i_list {E} _. Arguments i_names {E} _. Arguments i_dir {E} _. Arguments i_file {E} _.
Arguments take_err {E} _ _. Arguments take_dq {E} _ _. Arguments finish {E}. Arguments load_image {E}. Arguments new_image {E}. Arguments filepath {E} _. Arguments place {E} _ _ _.
Arguments written {E} _. Arguments save_image {E} _ _ _. Arguments add_extension {E} _ _ _ _.
