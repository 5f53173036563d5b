(** What a PSF subtraction does. *)
From Coq Require Import List Arith Bool Reals ZArith String.
From Verif Require Import Base CombineModel ComboSpec FlatModel FlatSpec CtModel CtSpec PhotModel PhotSpec PsubModel.
Import ListNotations.
Local Open Scope R_scope.

(** ** Science and reference frames *)
Definition psfref (f : sframe) (v : cval) : Prop := card (s_pri f) "PSFREF" v.
Definition labelled (x : R) (f : sframe) : Prop := psfref f (CNum (Some x)).
Definition all_numbers (fs : list sframe) : Prop := Forall (fun f => exists v, psfref f (CNum v)) fs.
Definition some_or_none {A} (l : list A) (o : option (list A)) : Prop := (l = [] /\ o = None) \/ (l <> [] /\ o = Some l).
Definition chosen (refs : option (list sframe)) (fs sci : list sframe) (ref : option (list sframe)) : Prop :=
  (exists r, refs = Some r /\ sci = fs /\ ref = Some r) \/
  (refs = None /\ all_numbers fs /\ sieve (labelled 0) fs sci /\ sci <> [] /\ exists rs, sieve (labelled 1) fs rs /\ some_or_none rs ref).
Definition choice_refused (refs : option (list sframe)) (fs : list sframe) (e : exn) : Prop :=
  refs = None /\
  (((exists f, In f fs /\ forall v, ~ psfref f v) /\ e = KeyError) \/
   ((forall f, In f fs -> exists v, psfref f v) /\ ((exists f t, In f fs /\ psfref f (CText t)) \/ forall f, In f fs -> ~ labelled 0 f) /\ e = PyException)).
Definition a_mode (m : string) : Prop := (m = "RDI" \/ m = "ADI+RDI" \/ m = "ADI")%string.
Definition moded (mode : option string) (sci : list sframe) (ref : option (list sframe)) (m : string) : Prop :=
  (mode = Some m /\ a_mode m) \/
  (mode = None /\ ((ref = None /\ m = "ADI"%string) \/ (ref <> None /\ ((exists f, sci = [f]) /\ m = "RDI"%string \/ (forall f, sci <> [f]) /\ m = "ADI+RDI"%string)))).
Definition modes_kept (b : basis) (l : list Z) : Prop := match b with One n => l = [n] | Many m => l = m end.
(** ** The frames given to pyklip *)
Definition hides (f g : sframe) : Prop :=
  s_pri g = s_pri f /\ s_ext g = s_ext f /\ s_dq g = s_dq f /\ s_name g = s_name f /\ rows (s_data g) = rows (s_data f) /\ cols (s_data g) = cols (s_data f) /\
  forall i j, ((0 < s_dq f i j)%Z -> pix (s_data g) i j = None) /\ ((s_dq f i j <= 0)%Z -> pix (s_data g) i j = pix (s_data f) i j).
Definition hidden (l m : list sframe) : Prop := Forall2 hides l m.
Definition maybe {A B} (P : A -> B -> Prop) (a : option A) (b : option B) : Prop := match a, b with Some x, Some y => P x y | None, None => True | _, _ => False end.
Definition cropped (crop : list sframe -> result (list sframe)) (b : bool) (l m : list sframe) : Prop := (b = true /\ crop l = Ok m) \/ (b = false /\ m = l).
(** ** The product *)
Definition dropped (k : string) : Prop := In k ["PSFCENTX"; "PSFCENTY"; "CREATOR"; "CTYPE3"]%string.
(** The last card of a name that pyklip wrote *)
Definition written (h : cards) (k : string) (v : cval) : Prop := ~ dropped k /\ card (rev h) k v.
Definition made {K C} (mode : string) (sci : list sframe) (cube : list img) (h : cards) (d : out K C) : Prop :=
  exists f g pre post x y, sci = f :: post /\ sci = pre ++ [g] /\ card h "PSFCENTX" x /\ card h "PSFCENTY" y /\
    (forall k v, card (o_pri _ _ d) k v <-> (k = "KLIP_ALG"%string /\ v = CText mode) \/ (k <> "KLIP_ALG"%string /\ card (s_pri f) k v)) /\
    (forall k v, card (o_ext _ _ d) k v <-> (k = "STARLOCX"%string /\ v = x) \/ (k = "STARLOCY"%string /\ v = y) \/
       (k <> "STARLOCX"%string /\ k <> "STARLOCY"%string /\ (written h k v \/ ((forall w, ~ written h k w) /\ card (s_ext f) k v)))) /\
    o_planes _ _ d = cube /\ o_name _ _ d = s_name g /\
    Forall2 (fun p q => forall i j, (pix p i j = None -> q i j = 1%Z) /\ (pix p i j <> None -> q i j = 0%Z)) cube (o_dq _ _ d) /\
    Forall2 (fun p q => rows q = rows p /\ cols q = cols p /\ forall i j, (pix p i j = None -> pix q i j = None) /\ (pix p i j <> None -> pix q i j = Some 0)) cube (o_err _ _ d).
Definition same_pair (h : cards) : Prop := exists x y, card h "PSFCENTX" x /\ card h "PSFCENTY" y.
(** [d'] is [d] with these tables *)
Definition with_tables {K C} (k : option K) (c : option C) (d d' : out K C) : Prop :=
  o_pri _ _ d' = o_pri _ _ d /\ o_ext _ _ d' = o_ext _ _ d /\ o_planes _ _ d' = o_planes _ _ d /\ o_err _ _ d' = o_err _ _ d /\ o_dq _ _ d' = o_dq _ _ d /\ o_name _ _ d' = o_name _ _ d /\ o_kl _ _ d' = k /\ o_ct _ _ d' = c.
Definition same_cards (h h' : cards) : Prop := forall k v, card h' k v <-> card h k v.
Definition similar {K C} (d d' : out K C) : Prop :=
  same_cards (o_pri _ _ d) (o_pri _ _ d') /\ same_cards (o_ext _ _ d) (o_ext _ _ d') /\ o_planes _ _ d' = o_planes _ _ d /\ o_err _ _ d' = o_err _ _ d /\ o_dq _ _ d' = o_dq _ _ d /\ o_name _ _ d' = o_name _ _ d /\ o_kl _ _ d' = o_kl _ _ d /\ o_ct _ _ d' = o_ct _ _ d.
Definition reads_out {K C A} (f : out K C -> A) : Prop := forall d d', similar d d' -> f d' = f d.
Section Whole.
  Variables K C : Type.
  Variable crop : list sframe -> result (list sframe).
  Variable klip : string -> list Z -> list sframe -> option (list sframe) -> result (list img * cards).
  Variable thrupt : string -> list Z -> list sframe -> option (list sframe) -> out K C -> result K.
  Variable seps_of : K -> list R.
  Variable core : out K C -> list R -> result C.
  (** What pyklip is given *)
  Definition given (o : opts) (fs : list sframe) (mode : string) (nb : list Z) (sci sm : list sframe) (rm : option (list sframe)) : Prop :=
    (p_kl o = true \/ p_core o = true -> p_ct o = true) /\ exists s r r', chosen (p_refs o) fs s r /\ s <> [] /\ moded (p_mode o) s r mode /\ modes_kept (p_basis o) nb /\
      cropped crop (p_crop o) s sci /\ maybe (cropped crop (p_crop o)) r r' /\ hidden sci sm /\ maybe hidden r' rm.
  Definition not_given (o : opts) (fs : list sframe) (e : exn) : Prop :=
    ((p_kl o = true \/ p_core o = true) /\ p_ct o = false /\ e = AssertionError) \/
    ((p_kl o = true \/ p_core o = true -> p_ct o = true) /\
     (choice_refused (p_refs o) fs e \/
      exists s r, chosen (p_refs o) fs s r /\
        ((s = [] /\ e = AssertionError) \/
         (s <> [] /\ ((exists m, p_mode o = Some m /\ ~ a_mode m /\ e = AssertionError) \/
          (exists m, moded (p_mode o) s r m) /\ p_crop o = true /\ (crop s = Raise e \/ (exists s', crop s = Ok s') /\ exists l, r = Some l /\ crop l = Raise e)))))).
  Definition tables (o : opts) (mode : string) (nb : list Z) (sm : list sframe) (rm : option (list sframe)) (d d' : out K C) : Prop :=
    exists k c, ((p_kl o = true /\ exists t, thrupt mode nb sm rm d = Ok t /\ k = Some t) \/ (p_kl o = false /\ k = None)) /\
      ((p_core o = true /\ exists d1 s t, with_tables k None d d1 /\ match k with Some q => s = seps_of q | None => s = [5; 10; 15; 20; 25; 30; 35] end /\ core d1 s = Ok t /\ c = Some t) \/ (p_core o = false /\ c = None)) /\
      with_tables k c d d'.
  Definition subtracted (o : opts) (fs : list sframe) (d : out K C) : Prop :=
    exists mode nb sci sm rm cube h d0, given o fs mode nb sci sm rm /\ klip mode nb sm rm = Ok (cube, h) /\ made mode sci cube h d0 /\ o_kl _ _ d0 = None /\ o_ct _ _ d0 = None /\ tables o mode nb sm rm d0 d.
  Definition refused (o : opts) (fs : list sframe) (e : exn) : Prop :=
    not_given o fs e \/
    exists mode nb sci sm rm, given o fs mode nb sci sm rm /\
      (klip mode nb sm rm = Raise e \/
       exists cube h, klip mode nb sm rm = Ok (cube, h) /\
         ((sci = [] /\ e = IndexError) \/ (sci <> [] /\ ~ same_pair h /\ e = KeyError) \/
          exists d0, made mode sci cube h d0 /\ o_kl _ _ d0 = None /\ o_ct _ _ d0 = None /\
            ((p_kl o = true /\ thrupt mode nb sm rm d0 = Raise e) \/
             exists k d1 s, ((p_kl o = true /\ exists t, thrupt mode nb sm rm d0 = Ok t /\ k = Some t) \/ (p_kl o = false /\ k = None)) /\ with_tables k None d0 d1 /\
               match k with Some q => s = seps_of q | None => s = [5; 10; 15; 20; 25; 30; 35] end /\ p_core o = true /\ core d1 s = Raise e))).
End Whole.
(** ** Images that differ at flagged pixels only *)
Definition same_off (f g : sframe) : Prop :=
  s_pri g = s_pri f /\ s_ext g = s_ext f /\ s_dq g = s_dq f /\ s_name g = s_name f /\ rows (s_data g) = rows (s_data f) /\ cols (s_data g) = cols (s_data f) /\
  forall i j, (s_dq f i j <= 0)%Z -> pix (s_data g) i j = pix (s_data f) i j.
Definition blind_crop (crop : list sframe -> result (list sframe)) : Prop :=
  forall l m, Forall2 same_off l m -> match crop l, crop m with Ok a, Ok b => Forall2 same_off a b | Raise e, Raise e' => e' = e | _, _ => False end.
Definition sent (r : option (list sframe)) (o : opts) : opts := mkopts (p_ct o) r (p_mode o) (p_basis o) (p_crop o) (p_kl o) (p_core o).
(** Tables that depend on the header by its cards only *)
Definition steady {K C} (thrupt : string -> list Z -> list sframe -> option (list sframe) -> out K C -> result K) (core : out K C -> list R -> result C) : Prop :=
  (forall mode nb sm rm, reads_out (thrupt mode nb sm rm)) /\ forall s, reads_out (fun d => core d s).
(** ** A frame of one pixel, and a subtraction that counts the science frames *)
Definition dot (x flag : R) (name : string) : sframe := mksframe [("PSFREF"%string, CNum (Some x)); ("VISITID"%string, CText name)] [("ROLL"%string, CNum (Some 3))] (mkimg 1 1 (fun _ _ => Some 7)) (fun _ _ => if Req_EM_T flag 0 then 0%Z else 4%Z) name.
Definition counting : string -> list Z -> list sframe -> option (list sframe) -> result (list img * cards) :=
  fun _ _ sm _ => Ok ([mkimg 1 1 (fun _ _ => Some (INR (List.length sm)))], [("PSFCENTX"%string, CNum (Some 29)); ("PSFCENTY"%string, CNum (Some 30))]).
Definition plain (refs : option (list sframe)) (mode : option string) : opts := mkopts false refs mode (One 4) false false false.
Definition trial : opts -> list sframe -> result (out unit unit) := do_psf_subtraction unit unit (fun l => Ok l) counting (fun _ _ _ _ _ => Ok tt) (fun _ => []) (fun _ _ => Ok tt).
