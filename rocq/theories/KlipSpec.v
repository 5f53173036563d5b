(** Specification of the input of the PSF subtraction. *)
From Coq Require Import List Arith Bool QArith ZArith String Reals DecimalString Qreals Sorted.
From Verif Require Import Base LevelModel KlipModel.
Import ListNotations.
Local Open Scope Q_scope.
Local Open Scope string_scope.

Section Spec.
Variable img : Type.
Variable align : img -> Q * Q -> Q * Q -> img.
Variable wcs : Type.
Notation frame := (frame img wcs).
Definition images (a : arr img) : list img := match a with D2 _ _ i => [i] | D3 _ _ l => l | Dother _ => [] end.
Definition has_shape (a : arr img) (h w : nat) : Prop := match a with D2 _ s _ => s = (h, w) | D3 _ s _ => s = (h, w) | Dother _ => False end.
(** One of the integrations of a frame: the frame, its number from 1, its image. *)
Definition integrations (l : list frame) : list (frame * nat * img) :=
  flat_map (fun f => map (fun p => (f, fst p, snd p)) (combine (seq 1 (List.length (images (f_data _ _ f)))) (images (f_data _ _ f)))) l.
Definition frame_at (q : frame * nat * img) : frame := fst (fst q).
Definition name_of (q : frame * nat * img) : string := basename (f_name _ _ (frame_at q)) ++ "_INT" ++ NilEmpty.string_of_uint (Nat.to_uint (snd (fst q))).

(** ** Science frames *)
Definition tel_ok (f : frame) : Prop := forall t, f_tel _ _ f = Some t -> t = "ROMAN".
Definition ins_ok (f : frame) : Prop := f_ins _ _ f = Some "CGI".
Definition dims_ok (f : frame) : Prop := exists h w, has_shape (f_data _ _ f) h w.
Definition located (f : frame) : Prop := f_scale _ _ f <> None /\ f_x _ _ f <> None /\ f_y _ _ f <> None.
Definition good (f : frame) : Prop := tel_ok f /\ ins_ok f /\ f_cfam _ _ f = Some "1F" /\ dims_ok f /\ located f /\ f_roll _ _ f <> None.
(** What a frame that is not good raises: the first of the checks that fails. *)
Inductive frame_fault (f : frame) : kexn -> Prop :=
| ff_tel : ~ tel_ok f -> frame_fault f UserWarning
| ff_noins : tel_ok f -> f_ins _ _ f = None -> frame_fault f KeyErr
| ff_ins s : tel_ok f -> f_ins _ _ f = Some s -> s <> "CGI" -> frame_fault f UserWarning
| ff_nocfam : tel_ok f -> ins_ok f -> f_cfam _ _ f = None -> frame_fault f KeyErr
| ff_dims : tel_ok f -> ins_ok f -> f_cfam _ _ f <> None -> ~ dims_ok f -> frame_fault f UserWarning
| ff_cards : tel_ok f -> ins_ok f -> f_cfam _ _ f <> None -> dims_ok f -> ~ (located f /\ f_roll _ _ f <> None) -> frame_fault f KeyErr
| ff_filter c : tel_ok f -> ins_ok f -> f_cfam _ _ f = Some c -> c <> "1F" -> dims_ok f -> located f -> f_roll _ _ f <> None -> frame_fault f UserWarning.
Definition one_shape (l : list frame) : Prop := exists h w, forall f, In f l -> has_shape (f_data _ _ f) h w.
Definition one_scale (l : list frame) : Prop := forall f g x y, In f l -> In g l -> f_scale _ _ f = Some x -> f_scale _ _ g = Some y -> val x == val y.
Definition readable (l : list frame) : Prop := l <> [] /\ Forall good l /\ one_shape l /\ one_scale l /\ integrations l <> [].
Inductive science_fault (l : list frame) : kexn -> Prop :=
| sf_none : l = [] -> science_fault l UserWarning
| sf_frame l1 f l2 e : l = (l1 ++ f :: l2)%list -> Forall good l1 -> frame_fault f e -> science_fault l e
| sf_shape : l <> [] -> Forall good l -> ~ one_shape l -> science_fault l UserWarning
| sf_scale : l <> [] -> Forall good l -> one_shape l -> ~ one_scale l -> science_fault l UserWarning
| sf_empty : l <> [] -> Forall good l -> one_shape l -> one_scale l -> integrations l = [] -> science_fault l ValueErr.

(** The centre of an array; the recorded one is truncated to integers if the star locations of all the frames are
    integers, and each frame has an image. *)
Definition centre_of (h w : nat) : Q * Q := ((inject_Z (Z.of_nat w) - 1) / 2, (inject_Z (Z.of_nat h) - 1) / 2).
Definition integer_star (f : frame) : Prop := images (f_data _ _ f) <> [] /\ (exists z, f_x _ _ f = Some (NInt z)) /\ exists z, f_y _ _ f = Some (NInt z).
Definition centre_stored (l : list frame) (h w : nat) (c : Q * Q) : Prop :=
  (Forall integer_star l -> fst c == inject_Z ((Z.of_nat w - 1) ÷ 2) /\ snd c == inject_Z ((Z.of_nat h - 1) ÷ 2))
  /\ (~ Forall integer_star l -> c = centre_of h w).
(** The image moved from the star to the centre. *)
Definition moved (c : Q * Q) (q : frame * nat * img) (im : img) : Prop :=
  exists x y, f_x _ _ (frame_at q) = Some x /\ f_y _ _ (frame_at q) = Some y /\ im = align (snd q) c (val x, val y).
Notation "'each' R l m" := (Forall2 R (integrations l) m) (at level 10, R at level 9, l at level 9, m at level 9).
Record describes (l : list frame) (p : product img wcs) : Prop := mkdescribes {
  ds_images : exists h w, (forall f, In f l -> has_shape (f_data _ _ f) h w) /\ each (moved (centre_of h w)) l (o_input _ _ p)
     /\ each (fun _ c => centre_stored l h w c) l (o_centers _ _ p) /\ o_owa _ _ p == (inject_Z (Z.of_nat h) + inject_Z (Z.of_nat w)) / 2;
  ds_names : each (fun q s => s = name_of q) l (o_names _ _ p);
  ds_nums : o_nums _ _ p = seq 0 (List.length (integrations l));
  ds_pas : each (fun q r => f_roll _ _ (frame_at q) = Some r) l (o_pas _ _ p);
  ds_wvs : each (fun _ w => w = 575 # 1000000000) l (o_wvs _ _ p);
  ds_wcs : each (fun q w => w = f_wcs _ _ (frame_at q)) l (o_wcs _ _ p);
  (** in pixels: 1/6.5 of the wavelength in arcsec, over the pixel scale *)
  ds_iwa : forall f s, In f l -> f_scale _ _ f = Some s -> (o_iwa _ _ p = Q2R (575 # 1000000000) / (13 / 2) * (180 / PI) * 3600 / (Q2R (val s) * 1000))%R }.

(** ** Reference frames: only the shape and the cards of the location are asked for *)
Definition ref_good (f : frame) : Prop := dims_ok f /\ located f.
Inductive ref_fault (f : frame) : kexn -> Prop :=
| rf_dims : ~ dims_ok f -> ref_fault f UserWarning
| rf_cards : dims_ok f -> ~ located f -> ref_fault f KeyErr.
Record library_of (l r : list frame) (p : product img wcs) (b : library img) : Prop := mklibof {
  lb_parts : exists h w d c n, (forall f, In f (l ++ r) -> has_shape (f_data _ _ f) h w)
    /\ b_data _ b = (d ++ o_input _ _ p)%list /\ each (moved (centre_of h w)) r d
    /\ b_centers _ b = (c ++ o_centers _ _ p)%list /\ each (fun _ c => centre_stored r h w c) r c
    /\ b_names _ b = (n ++ o_names _ _ p)%list /\ each (fun q s => s = name_of q) r n
    /\ b_center _ b = centre_of h w }.
Inductive refs_fault (l r : list frame) : kexn -> Prop :=
| rs_frame l1 f l2 e : r = (l1 ++ f :: l2)%list -> Forall ref_good l1 -> ref_fault f e -> refs_fault l r e
| rs_shape : Forall ref_good r -> ~ one_shape (l ++ r) -> refs_fault l r ValueErr.
End Spec.
(** The distinct names in ascending order. *)
Definition ascending (l : list string) : Prop := StronglySorted (fun a b => String.leb a b = true /\ a <> b) l.
(** The frames that have an image. *)
Definition filled {img wcs} (l : list (frame img wcs)) : list (frame img wcs) := filter (fun f => match images _ (f_data _ _ f) with [] => false | _ => true end) l.
(** Reference frames alike but for what is not looked at: telescope, instrument, filter, roll, coordinates on the sky,
    and the value of the pixel scale. *)
Definition ref_alike {img wcs} (f g : frame img wcs) : Prop :=
  f_data _ _ f = f_data _ _ g /\ (f_scale _ _ f = None <-> f_scale _ _ g = None) /\ f_x _ _ f = f_x _ _ g /\ f_y _ _ f = f_y _ _ g /\ f_name _ _ f = f_name _ _ g.
