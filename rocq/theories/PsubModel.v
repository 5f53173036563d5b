(** A PSF subtraction as a whole: corgidrp/l3_to_l4.py do_psf_subtraction 402-643; detector.py nan_flags 573-594 and
    flag_nans 596-613 as used there; data.py split_dataset 200-246 with the card PSFREF.

    Unknown functions, that may raise: the cropping of a dataset [crop] (C34), pyklip with the dataset it is given and the file
    it leaves [klip] (its input is C54), the measurement of the throughput [thrupt] (C60) with the separations in the first row
    of its table, and the core throughput at separations [core].  Frames are images of two dimensions, their flags integers,
    their pixels real numbers or None (NaN).  Headers are lists of cards with texts or numbers; history, comments, parents,
    version and times are left out, as is the making of the output directory.  PSFREF is a number (NaN: None) or a text; with a
    text among them numpy makes texts of all.  Datasets are copied before they are changed (C06). *)
From Coq Require Import List Arith Bool Reals ZArith String.
From Verif Require Import Base DqModel CombineModel FlatModel PhotModel.
Import ListNotations.
Local Open Scope R_scope.

Record sframe : Type := mksframe { s_pri : cards; s_ext : cards; s_data : img; s_dq : nat -> nat -> Z; s_name : string }.
Inductive basis : Type := One (n : Z) | Many (l : list Z).
Record opts : Type := mkopts { p_ct : bool; p_refs : option (list sframe); p_mode : option string; p_basis : basis; p_crop : bool; p_kl : bool; p_core : bool }.

(** 475-486 *)
Definition number (x : R) (v : cval) : bool := match v with CNum (Some y) => if Req_EM_T y x then true else false | _ => false end.
Definition is_text (v : cval) : bool := match v with CText _ => true | CNum _ => false end.
Definition ref_card (f : sframe) : result cval := getkey (get "PSFREF" (s_pri f)).
Definition labelled_as (x : R) (f : sframe) : bool := match get "PSFREF" (s_pri f) with Some v => number x v | None => false end.
Definition choose (refs : option (list sframe)) (fs : list sframe) : result (list sframe * option (list sframe)) :=
  match refs with
  | Some r => Ok (fs, Some r)
  | None =>
    do vs <- mapR ref_card fs;
    if existsb is_text vs then Raise PyException else
    match filter (labelled_as 0) fs with
    | [] => Raise PyException
    | sci => Ok (sci, match filter (labelled_as 1) fs with [] => None | ref => Some ref end)
    end
  end.
(** 491-500 *)
Definition mode_of (mode : option string) (nsci : nat) (ref : option (list sframe)) : result string :=
  match mode with
  | None => Ok (match ref with Some _ => if Nat.eqb nsci 1 then "RDI"%string else "ADI+RDI"%string | None => "ADI"%string end)
  | Some m => if existsb (String.eqb m) ["RDI"; "ADI+RDI"; "ADI"]%string then Ok m else Raise AssertionError
  end.
(** 503-504 *)
Definition basis_of (b : basis) : list Z := match b with One n => [n] | Many l => l end.
(** 520-521 *)
Definition masked_frame (f : sframe) : sframe :=
  mksframe (s_pri f) (s_ext f) (mkimg (rows (s_data f)) (cols (s_data f)) (fun i j => if (1 <=? s_dq f i j)%Z then None else pix (s_data f) i j)) (s_dq f) (s_name f).
(** 545-549 *)
Definition skipped (k : string) : bool := existsb (String.eqb k) ["PSFCENTX"; "PSFCENTY"; "CREATOR"; "CTYPE3"]%string.
Definition add_cards (new : cards) (h : cards) : cards := fold_left (fun h c => if skipped (fst c) then h else put (fst c) (snd c) h) new h.

Section Psub.
  Variables K C : Type.
  Record out : Type := mkout { o_pri : cards; o_ext : cards; o_planes : list img; o_err : list img; o_dq : list (nat -> nat -> Z); o_name : string; o_kl : option K; o_ct : option C }.
  Variable crop : list sframe -> result (list sframe).
  Variable klip : string -> list Z -> list sframe -> option (list sframe) -> result (list img * cards).
  Variable thrupt : string -> list Z -> list sframe -> option (list sframe) -> out -> result K.
  Variable seps_of : K -> list R.
  Variable core : out -> list R -> result C.

  Definition crop_if (b : bool) (l : list sframe) : result (list sframe) := if b then crop l else Ok l.
  Definition crop_refs (b : bool) (r : option (list sframe)) : result (option (list sframe)) := match r with None => Ok None | Some l => do l' <- crop_if b l; Ok (Some l') end.
  (** 574-575: new flags and errors of a plane *)
  Definition flag_plane (f : img) (i j : nat) : Z := match pix f i j with None => 1%Z | Some _ => 0%Z end.
  Definition err_plane (f : img) : img := mkimg (rows f) (cols f) (fun i j => match pix f i j with None => None | Some _ => Some 0 end).
  Definition default_seps : list R := [5; 10; 15; 20; 25; 30; 35].
  (** 533-572 *)
  Definition new_out (mode : string) (sci : list sframe) (cube : list img) (h : cards) : result out :=
    match sci with
    | [] => Raise IndexError
    | f :: _ =>
      do x <- getkey (get "PSFCENTX" h);
      do y <- getkey (get "PSFCENTY" h);
      Ok (mkout (put "KLIP_ALG" (CText mode) (s_pri f)) (put "STARLOCY" y (put "STARLOCX" x (add_cards h (s_ext f)))) cube (map err_plane cube) (map flag_plane cube) (s_name (last sci f)) None None)
    end.
  Definition do_psf_subtraction (o : opts) (fs : list sframe) : result out :=
    if (p_kl o || p_core o) && negb (p_ct o) then Raise AssertionError else
    do sr <- choose (p_refs o) fs;
    if Nat.eqb (List.length (fst sr)) 0 then Raise AssertionError else
    do mode <- mode_of (p_mode o) (List.length (fst sr)) (snd sr);
    let nb := basis_of (p_basis o) in
    do sci <- crop_if (p_crop o) (fst sr);
    do ref <- crop_refs (p_crop o) (snd sr);
    let sm := map masked_frame sci in
    let rm := option_map (map masked_frame) ref in
    do kr <- klip mode nb sm rm;
    do d <- new_out mode sci (fst kr) (snd kr);
    do d <- (if p_kl o then do k <- thrupt mode nb sm rm d; Ok (mkout (o_pri d) (o_ext d) (o_planes d) (o_err d) (o_dq d) (o_name d) (Some k) None) else Ok d);
    if p_core o then
      do c <- core d (match o_kl d with Some k => seps_of k | None => default_seps end);
      Ok (mkout (o_pri d) (o_ext d) (o_planes d) (o_err d) (o_dq d) (o_name d) (o_kl d) (Some c))
    else Ok d.
End Psub.
