(** Specification of frames and FITS files. *)
From Coq Require Import List Arith Bool String Ascii ZArith QArith.
From Verif Require Import Base DiskModel.
Import ListNotations.
Local Open Scope nat_scope.
Local Open Scope string_scope.
Local Open Scope list_scope.

(** ** Paths *)
Definition no_slash (s : string) : Prop := forall a b, s <> (a ++ "/" ++ b)%string.
(** Directory and name of a path *)
Definition splits (p d f : string) : Prop := no_slash p /\ d = "." /\ f = p \/ p = (d ++ "/" ++ f)%string /\ no_slash f.

(** ** Upper case, by a table of the letters *)
Definition letters : list (ascii * ascii) := combine (list_ascii_of_string "abcdefghijklmnopqrstuvwxyz") (list_ascii_of_string "ABCDEFGHIJKLMNOPQRSTUVWXYZ").
Definition big (c d : ascii) : Prop := In (c, d) letters \/ d = c /\ forall e, ~ In (c, e) letters.

Section Spec.
Context {E : Type}.
Variable zero : E.
Notation arr := (arr E).
Notation hdu := (hdu E).
Notation image := (image E).
Notation file := (file E).

(** ** Arrays of a frame *)
(** The error array given for the data: its last axes are those of the data *)
Definition err_for (data err e : arr) : Prop :=
  exists pre, shp err = pre ++ shp data /\ (shp data = [] -> pre = [])
  /\ (List.length pre = 1 /\ e = err \/ List.length pre <> 1 /\ shp e = 1 :: shp err /\ vals e = vals err).
Definition all_zero (s : list nat) (a : arr) : Prop := shp a = s /\ Forall (eq zero) (vals a) /\ List.length (vals a) = fold_right Nat.mul 1 s.
(** The first HDU of a name, and the others *)
Definition first_named (k : string) (l : list hdu) (y : hdu) (r : list hdu) : Prop :=
  exists a b, l = a ++ y :: b /\ r = a ++ b /\ up (h_name y) = k /\ forall x, In x a -> up (h_name x) <> k.
Definition plain_err (data : arr) (given : option arr) (e : arr) : Prop := match given with Some e0 => err_for data e0 e | None => all_zero (1 :: shp data) e end.
Definition plain_dq (data : arr) (given : option arr) (d : arr) : Prop := match given with Some d0 => shp d0 = shp data /\ d = d0 | None => all_zero (shp data) d end.
(** The error of a file: the one given, else that of the file, else zeros; [names] are those of the file *)
Definition file_err (data : arr) (given : option arr) (names : list string) (l : list hdu) (e : arr) (h : option hdr) (r : list hdu) : Prop :=
  (given <> None \/ ~ In "ERR" names) /\ plain_err data given e /\ h = None /\ r = l
  \/ given = None /\ In "ERR" names /\ exists y, first_named "ERR" l y r /\ h = Some (h_hdr y)
     /\ (List.length (shp (h_data y)) = List.length (shp data) /\ shp e = 1 :: shp (h_data y) /\ vals e = vals (h_data y) \/ List.length (shp (h_data y)) <> List.length (shp data) /\ e = h_data y).
Definition file_dq (data : arr) (given : option arr) (names : list string) (l : list hdu) (d : arr) (h : option hdr) (r : list hdu) : Prop :=
  (given <> None \/ ~ In "DQ" names) /\ plain_dq data given d /\ h = None /\ r = l
  \/ given = None /\ In "DQ" names /\ exists y, first_named "DQ" l y r /\ h = Some (h_hdr y) /\ d = h_data y.

(** ** Headers of a frame *)
Definition layer (i : nat) : string := ("LAYER_" ++ decimal i)%string.
(** The cards of layers 2 to n removed, one after the other *)
Inductive cut_layers : nat -> nat -> hdr -> hdr -> Prop :=
| cl_done : forall n h, cut_layers (S n) n h h
| cl_one : forall i n h h1 h2, i <= n -> del (layer i) h = Ok h1 -> cut_layers (S i) n h1 h2 -> cut_layers i n h h2.
Definition chosen_hdr (given found : option hdr) : hdr := match given, found with Some h, _ => h | None, Some h => h | None, None => blank end.
(** Layers are kept, or only the first one: the combined error *)
Definition kept (track : bool) (err : arr) (h : hdr) (err' : arr) (h' : hdr) : Prop :=
  (track = true \/ hd 0 (shp err) <= 1) /\ err' = err /\ h' = h
  \/ track = false /\ exists n t, shp err = n :: t /\ 2 <= n /\ shp err' = 1 :: t /\ vals err' = firstn (fold_right Nat.mul 1 t) (vals err) /\ cut_layers 2 n h h'.
Definition stamped (ext : hdr) : hdr := set_new "IS_BAD" (HB false) (set_new "CTI_CORR" (HB false) (set_new "DESMEAR" (HB false) ext)).
Definition assembled (track : bool) (pri ext : hdr) (data err dq : arr) (eh dh : hdr) (l : list hdu) (names : list string) (d f : string) (x : image) : Prop :=
  exists h', kept track err (set "EXTNAME" (HS "ERR") eh) (i_err x) h'
  /\ i_pri x = set "ORIGIN" (HS "DRP") pri /\ i_ext x = stamped ext /\ i_data x = data /\ i_errh x = set "TRK_ERRS" (HB track) h' /\ i_dq x = dq /\ i_dqh x = set "EXTNAME" (HS "DQ") dh
  /\ i_list x = l /\ i_names x = names /\ i_dir x = d /\ i_file x = f.

(** ** What a frame made by the pipeline satisfies *)
Record ready (track : bool) (x : image) : Prop := {
  rd_err : get "EXTNAME" (i_errh x) = Some (HS "ERR"); rd_dq : get "EXTNAME" (i_dqh x) = Some (HS "DQ");
  rd_trk : get "TRK_ERRS" (i_errh x) = Some (HB track); rd_one : track = false -> hd 0 (shp (i_err x)) <= 1;
  rd_ext : get "DESMEAR" (i_ext x) <> None /\ get "CTI_CORR" (i_ext x) <> None /\ get "IS_BAD" (i_ext x) <> None;
  rd_origin : get "ORIGIN" (i_pri x) = Some (HS "DRP"); rd_dim : List.length (shp (i_err x)) <> List.length (shp (i_data x)) }.
(** Everything but the place and the list of names *)
Definition same_content (x y : image) : Prop :=
  i_pri x = i_pri y /\ i_ext x = i_ext y /\ i_data x = i_data y /\ i_err x = i_err y /\ i_errh x = i_errh y /\ i_dq x = i_dq y /\ i_dqh x = i_dqh y /\ i_list x = i_list y.
End Spec.
