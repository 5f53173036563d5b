(** C54: input of the PSF subtraction. *)
From Coq Require Import List QArith ZArith String.
From Verif Require Import LevelModel KlipModel KlipSpec KlipProofs KlipTopProofs KlipNameProofs.
Import ListNotations.
Local Open Scope string_scope.

Theorem C54_read : forall img align wcs (l : list (frame img wcs)) r p b, (forall x, r = Some x -> x <> []) -> readdata img align wcs l r = Got (p, b) ->
  readable _ _ l /\ describes _ align _ l p /\ match r, b with None, None => True | Some x, Some lib => Forall (ref_good _ _) x /\ one_shape _ _ (l ++ x) /\ library_of _ align _ l x p lib | _, _ => False end.
Proof. intros img align wcs. exact (whole img wcs align). Qed.
Print Assumptions C54_read.
Theorem C54_refused : forall img align wcs (l : list (frame img wcs)) r e, (forall x, r = Some x -> x <> []) -> (readdata img align wcs l r = Fails e <->
  science_fault _ _ l e \/ readable _ _ l /\ exists x, r = Some x /\ refs_fault _ _ l x e).
Proof. intros img align wcs. exact (whole_fails img wcs align). Qed.
Print Assumptions C54_refused.
Theorem C54_accepted : forall img align wcs (l : list (frame img wcs)), readable _ _ l -> exists p, readdata img align wcs l None = Got (p, None).
Proof. exact accepted. Qed.
Print Assumptions C54_accepted.
Theorem C54_accepted_refs : forall img align wcs (l r : list (frame img wcs)), readable _ _ l -> r <> [] -> Forall (ref_good _ _) r -> one_shape _ _ (l ++ r) ->
  exists p b, readdata img align wcs l (Some r) = Got (p, Some b).
Proof. exact accepted_refs. Qed.
Print Assumptions C54_accepted_refs.
Theorem C54_library_unique : forall img align wcs (l r : list (frame img wcs)) p b b', l <> [] -> library_of _ align _ l r p b -> library_of _ align _ l r p b' ->
  b_data _ b = b_data _ b' /\ b_names _ b = b_names _ b' /\ b_center _ b = b_center _ b'.
Proof. intros img align wcs l r p b b' N H K. exact (library_one img align wcs l r p b b' H K N). Qed.
Print Assumptions C54_library_unique.
Theorem C54_names_distinct : forall img align wcs (l : list (frame img wcs)) p, readdata img align wcs l None = Got (p, None) ->
  (NoDup (o_names _ _ p) <-> NoDup (map (fun f => basename (f_name _ _ f)) (filled l))).
Proof. exact names_of_product. Qed.
Print Assumptions C54_names_distinct.
(** Nothing but the shape and the location is asked of references. *)
Theorem C54_references_unchecked : forall img align wcs (l r s : list (frame img wcs)), Forall2 ref_alike r s -> readdata img align wcs l (Some r) = readdata img align wcs l (Some s).
Proof. intros img align wcs. exact (refs_unchecked img wcs align). Qed.
Print Assumptions C54_references_unchecked.
(** The centre recorded need not be that to which the images were moved. *)
Theorem C54_centre_refuted : exists p c, readdata nat (fun i _ _ => i) unit demo_ints None = Got (p, None) /\ In c (o_centers _ _ p) /\ ~ (fst c == fst (centre_of 4 6))%Q.
Proof. exact truncated. Qed.
Print Assumptions C54_centre_refuted.
Theorem C54_file_cards : forall names u, ascending u -> (forall s, In s u <-> In s names) ->
  fst (file_cards names) = List.length u /\ forall i v, In (i, v) (snd (file_cards names)) <-> (Z.of_nat i < 1000)%Z /\ exists s, nth_error u i = Some s /\ v = s ++ ".fits".
Proof. exact file_cards_iff. Qed.
Print Assumptions C54_file_cards.
Theorem C54_file_cards_used : forall names, exists u, ascending u /\ forall s, In s u <-> In s names.
Proof. exact some_cards. Qed.
Print Assumptions C54_file_cards_used.
Example C54_used : readable _ _ demo /\ readable _ _ demo_ints
  /\ (let r := [demo_frame false "c/z.fits" (NInt 3) (NInt 3)] in Forall (ref_good _ _) r /\ one_shape _ _ (demo ++ r))
  /\ map (name_of _ _) (integrations _ _ demo) = ["x.fits_INT1"; "x.fits_INT2"; "y.fits_INT1"].
Proof. exact (conj demo_readable (conj ints_readable (conj demo_ref eq_refl))). Qed.
