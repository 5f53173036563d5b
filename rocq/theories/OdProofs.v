(** The optical density at a new place. *)
From Coq Require Import List Arith Bool Reals Lra Lia String.
From Verif Require Import Base DqModel CombineModel FlatModel CtModel CtSpec CtProofs CtLawProofs OdModel OdSpec.
Import ListNotations.
Local Open Scope R_scope.

Lemma card_iff : forall o x, zero_if_absent o x <-> x = card o.
Proof. intros [y|] x; unfold zero_if_absent, card; split; [intros [Q|(Q & _)]; congruence|intros ->; left; reflexivity|intros [Q|(_ & Q)]; [discriminate|assumption]|intros ->; right; auto]. Qed.
Lemma moved_iff : forall c w h v, moved c w h v <-> h = card (c_h c) - card (w_h w) /\ v = card (c_v c) - card (w_v w).
Proof.
  intros c w h v. unfold moved. split.
  - intros (ch & cv & wh & wv & A & B & C & D & -> & ->). apply card_iff in A. apply card_iff in B. apply card_iff in C. apply card_iff in D. subst. auto.
  - intros (-> & ->). exists (card (c_h c)), (card (c_v c)), (card (w_h w)), (card (w_v w)). rewrite !card_iff. auto 10.
Qed.
Lemma shifted_eq : forall a s, vadd a (Some s) = shifted a s.
Proof. intros [a|] s; reflexivity. Qed.
Lemma load_ok : forall hdus m, load_matrix hdus = Ok (Some m) <-> matrix_in hdus m.
Proof.
  intros hdus m. unfold load_matrix, matrix_in. split.
  - destruct hdus as [|[a|] [|d l]]; try discriminate; intros Q; injection Q as ->; eauto.
  - intros (rest & [->| ->]); reflexivity.
Qed.
Lemma times_ok : forall m h v r, times m h v = Ok r <-> (forall row, In row m -> List.length row = 2%nat) /\ r = map (fun row => nth 0 row 0 * h + nth 1 row 0 * v) m.
Proof.
  intros m h v. induction m as [|row m IH]; intros r; cbn [times].
  - split; [intros Q; injection Q as <-; split; [intros row []|reflexivity]|intros (_ & ->); reflexivity].
  - destruct row as [|a [|b [|x row]]]; try (split; [discriminate|intros (Q & _); discriminate (Q _ (or_introl eq_refl))]). destruct (times m h v) as [r'|e]; cbn [bind].
    + destruct (IH r') as (A & _). destruct (A eq_refl) as (L & E). split.
      * intros Q. injection Q as <-. split; [intros row [<-|I]; [reflexivity|auto]|]. cbn [map nth]. rewrite E. reflexivity.
      * intros (_ & ->). cbn [map nth]. rewrite E. reflexivity.
    + split; [discriminate|]. intros (L & _). destruct (IH (map (fun row => nth 0 row 0 * h + nth 1 row 0 * v) m)) as (_ & B). discriminate B. split; [intros row I; apply L; right; assumption|reflexivity].
Qed.
Lemma times_raise : forall m h v e, times m h v = Raise e <-> (exists row, In row m /\ List.length row <> 2%nat) /\ e = ValueError.
Proof.
  intros m h v. induction m as [|row m IH]; intros e; cbn [times].
  - split; [discriminate|intros ((row & [] & _) & _)].
  - destruct row as [|a [|b [|x row]]].
    + split; [intros Q; injection Q as <-; split; [eexists; split; [left; reflexivity|discriminate]|reflexivity]|intros (_ & ->); reflexivity].
    + split; [intros Q; injection Q as <-; split; [eexists; split; [left; reflexivity|discriminate]|reflexivity]|intros (_ & ->); reflexivity].
    + destruct (times m h v) as [r|e'] eqn:E; cbn [bind].
      * split; [discriminate|]. intros ((row & [<-|I] & N) & ->); [exfalso; apply N; reflexivity|]. assert (Z : @Ok (list R) r = Raise ValueError); [|discriminate Z]. apply IH. eauto.
      * split; [intros Q; injection Q as ->; destruct (proj1 (IH e) eq_refl) as ((row & I & N) & ->); split; [exists row; split; [right; assumption|assumption]|reflexivity]|]. intros ((row & [<-|I] & N) & ->); [exfalso; apply N; reflexivity|]. assert (Z : @Raise (list R) e' = Raise ValueError); [|congruence]. apply IH. eauto.
    + split; [intros Q; injection Q as <-; split; [eexists; split; [left; reflexivity|discriminate]|reflexivity]|intros (_ & ->); reflexivity].
Qed.
Lemma turns_times : forall m h v ex ey, (exists e, times m h v = Ok e /\ item e 0 = Ok ex /\ item e 1 = Ok ey) <-> exists a b c d, turns m a b c d /\ ex = a * h + b * v /\ ey = c * h + d * v.
Proof.
  intros m h v ex ey. split.
  - intros (e & T & E0 & E1). apply times_ok in T. destruct T as (L & ->). destruct m as [|r1 [|r2 rest]]; try discriminate. assert (L1 := L r1 (or_introl eq_refl)). assert (L2 := L r2 (or_intror (or_introl eq_refl))). destruct r1 as [|a [|b [|? ?]]]; try discriminate. destruct r2 as [|c [|d [|? ?]]]; try discriminate. unfold item in *. cbn in E0, E1. injection E0 as <-. injection E1 as <-. exists a, b, c, d. split; [exists rest; split; [reflexivity|intros r I; apply L; right; right; assumption]|auto].
  - intros (a & b & c & d & (rest & -> & L) & -> & ->). eexists. split; [apply times_ok; split; [intros row [<-|[<-|I]]; [reflexivity|reflexivity|auto]|reflexivity]|]. split; reflexivity.
Qed.
Lemma table_of : forall rows, (forall r, In r rows -> List.length r = 3%nat) -> table_is rows (points_of rows) (ods_of rows).
Proof.
  intros rows L. unfold table_is, points_of, ods_of. rewrite !map_length. split; [reflexivity|]. split; [reflexivity|]. intros k r N. assert (LR := L r (nth_error_In _ _ N)). destruct r as [|od [|x [|y [|? ?]]]]; try discriminate. exists od, x, y. split; [reflexivity|]. split; [exact (map_nth_error _ k rows N)|exact (map_nth_error _ k rows N)].
Qed.
Lemma table_unique : forall rows p o p' o', table_is rows p o -> table_is rows p' o' -> p = p' /\ o = o'.
Proof.
  assert (X : forall A (l l' : list A), (forall k, nth_error l k = nth_error l' k) -> l = l'). { intros A l. induction l as [|a l IH]; intros [|b l'] H; [reflexivity|discriminate (H 0%nat)|discriminate (H 0%nat)|]. assert (E := H 0%nat). injection E as ->. f_equal. apply IH. intros k. exact (H (S k)). }
  intros rows p o p' o' (L1 & L2 & H) (L1' & L2' & H'). split; apply X; intros k; (destruct (nth_error rows k) as [r|] eqn:N; [destruct (H k r N) as (od & x & y & R1 & P & O), (H' k r N) as (od' & x' & y' & R2 & P' & O'); rewrite R2 in R1; injection R1 as -> -> ->; congruence|apply nth_error_None in N; rewrite (proj2 (nth_error_None _ k)) by lia; symmetry; apply nth_error_None; lia]).
Qed.

(** A table is rows of three. *)
Theorem sweet_ok : forall rows h v w, make_sweet rows h v = Ok w <-> (forall r, In r rows -> List.length r = 3%nat) /\ w = mksweet rows h v.
Proof.
  intros rows h v w. unfold make_sweet. destruct (forallb _ rows) eqn:F.
  - rewrite forallb_forall in F. split; [intros Q; injection Q as <-; split; [intros r I; apply Nat.eqb_eq; auto|reflexivity]|intros (_ & ->); reflexivity].
  - split; [discriminate|]. intros (L & _). assert (Z : forallb (fun r => Nat.eqb (List.length r) 3) rows = true) by (apply forallb_forall; intros r I; apply Nat.eqb_eq; auto). congruence.
Qed.
Section Od.
  Variables linear nearest cubic : list (val * val) -> list val -> val -> val -> result val.
  Notation calc := (calculate_od linear nearest cubic).

  (** The density is interpolated at the star, shifted by the matrix applied to the way of the filter. *)
  Theorem od_ok : forall c hdus w od pts ods, (forall r, In r (w_rows w) -> List.length r = 3%nat) -> table_is (w_rows w) pts ods ->
    (calc (Some c) hdus w = Ok od <->
     exists x y h v m a b p q, position (c_data c) 5 x y /\ matrix_in hdus m /\ turns m a b p q /\ moved c w h v /\ linear pts ods (shifted x (a * h + b * v)) (shifted y (p * h + q * v)) = Ok od).
  Proof using.
    intros c hdus w od pts ods L T. destruct (table_unique _ _ _ _ _ T (table_of _ L)) as (-> & ->). unfold calculate_od, interpolate_od, griddata. cbn [String.eqb Ascii.eqb Bool.eqb]. split.
    - destruct (load_matrix hdus) as [[m|]|e] eqn:E; cbn [bind]; [| |discriminate]; (destruct (centroid_with_roi _ 5) as [(x & y)|e'] eqn:C; cbn [bind]; [|discriminate]); [|discriminate].
      destruct (times m _ _) as [e|] eqn:TM; cbn [bind]; [|discriminate]. destruct (item e 0) as [ex|] eqn:E0; cbn [bind]; [|discriminate]. destruct (item e 1) as [ey|] eqn:E1; cbn [bind]; [|discriminate]. intros Q. cbn [fst snd] in Q. rewrite !shifted_eq in Q.
      destruct (proj1 (turns_times m _ _ ex ey) (ex_intro _ e (conj TM (conj E0 E1)))) as (a & b & p & q & TT & EX & EY). rewrite EX, EY in Q. exists x, y, (card (c_h c) - card (w_h w)), (card (c_v c) - card (w_v w)), m, a, b, p, q. split; [apply position_iff; assumption|]. split; [apply load_ok; assumption|]. split; [assumption|]. split; [apply moved_iff; auto|assumption].
    - intros (x & y & h & v & m & a & b & p & q & P & M & TT & MV & Q). apply position_iff in P. apply load_ok in M. apply moved_iff in MV. destruct MV as (EH & EV). rewrite M. cbn [bind]. rewrite P. cbn [bind].
      destruct (proj2 (turns_times m h v (a * h + b * v) (p * h + q * v))) as (e & TM & E0 & E1); [exists a, b, p, q; auto|]. rewrite <- EH, <- EV, TM. cbn [bind]. rewrite E0. cbn [bind]. rewrite E1. cbn [bind fst snd]. rewrite !shifted_eq. assumption.
  Qed.
  (** Every refusal before the interpolation. *)
  Theorem od_refused : forall frame hdus w e, calc frame hdus w = Raise e <->
    (hdus = [] \/ hdus = [None]) /\ e = IndexError \/
    (exists m, load_matrix hdus = Ok m /\
      ((frame = None /\ e = UnboundLocalError) \/
       (exists c, frame = Some c /\
         (((forall p, inside_of (c_data c) p -> value_of (c_data c) p = None) /\ e = ValueError) \/
          (exists x y, position (c_data c) 5 x y /\
            ((m = None /\ e = ValueError) \/
             (exists m', m = Some m' /\
               (((exists row, In row m' /\ List.length row <> 2%nat) /\ e = ValueError) \/
                ((forall row, In row m' -> List.length row = 2%nat) /\ (List.length m' < 2)%nat /\ e = IndexError) \/
                (exists a b p q h v, turns m' a b p q /\ moved c w h v /\ interpolate_od linear nearest cubic (w_rows w) (shifted x (a * h + b * v)) (shifted y (p * h + q * v)) "linear" = Raise e))))))))).
  Proof using.
    intros frame hdus w e. unfold calculate_od. destruct (load_matrix hdus) as [m|e'] eqn:E; cbn [bind].
    2:{ assert (X : (hdus = [] \/ hdus = [None]) /\ e' = IndexError) by (destruct hdus as [|[?|] [|? ?]]; cbn in E; try discriminate; injection E as <-; auto). split; [intros Q; injection Q as <-; left; assumption|]. intros [(_ & ->)|(m & Q & _)]; [destruct X as (_ & ->); reflexivity|discriminate]. }
    assert (NX : ~ (hdus = [] \/ hdus = [None])) by (intros [->| ->]; discriminate).
    destruct frame as [c|].
    2:{ split; [intros Q; injection Q as <-; right; exists m; split; [reflexivity|left; auto]|]. intros [(Q & _)|(m' & _ & [(_ & ->)|(c & Q & _)])]; [contradiction|reflexivity|discriminate]. }
    assert (PF := fun e => centroid_fails (c_data c) 5 e). assert (PI := position_iff (c_data c) 5). destruct (centroid_with_roi (c_data c) 5) as [(x & y)|e'] eqn:C; cbn [bind].
    2:{ assert (X := proj1 (PF e') eq_refl). destruct X as (-> & X). split.
        - intros Q. injection Q as <-. right. exists m. split; [reflexivity|]. right. exists c. split; [reflexivity|]. left. auto.
        - intros [(Q & _)|(m' & _ & [(Q & _)|(c' & Q & [(_ & ->)|(x & y & P & _)])])]; [contradiction|discriminate|reflexivity|]. injection Q as <-. apply PI in P. discriminate. }
    assert (XY : forall x' y', position (c_data c) 5 x' y' -> x' = x /\ y' = y) by (intros x' y' P; apply PI in P; injection P as -> ->; auto).
    assert (NN : ~ (forall p, inside_of (c_data c) p -> value_of (c_data c) p = None)) by (intros Z; assert (Q : @Ok (val * val) (x, y) = Raise ValueError) by (apply PF; auto); discriminate Q).
    destruct m as [m|]; cbn [bind].
    2:{ split.
        - intros Q. injection Q as <-. right. exists None. split; [reflexivity|]. right. exists c. split; [reflexivity|]. right. exists x, y. split; [apply PI; reflexivity|left; auto].
        - intros [(Q & _)|(m' & LM & [(Q & _)|(c' & Q & [(Z & _)|(x' & y' & P & [(_ & ->)|(m2 & Q2 & _)])])])]; [contradiction|discriminate|injection Q as <-; contradiction|reflexivity|]. apply (f_equal (fun r => match r with Ok a => a | Raise _ => None end)) in LM. cbn in LM. congruence. }
    assert (TT := turns_times m (card (c_h c) - card (w_h w)) (card (c_v c) - card (w_v w))). assert (TR := times_raise m (card (c_h c) - card (w_h w)) (card (c_v c) - card (w_v w))). assert (TO := times_ok m (card (c_h c) - card (w_h w)) (card (c_v c) - card (w_v w))).
    assert (RED : forall R1 : result val, (R1 = Raise e <-> ((exists row, In row m /\ List.length row <> 2%nat) /\ e = ValueError) \/ ((forall row, In row m -> List.length row = 2%nat) /\ (List.length m < 2)%nat /\ e = IndexError) \/ (exists a b p q h v, turns m a b p q /\ moved c w h v /\ interpolate_od linear nearest cubic (w_rows w) (shifted x (a * h + b * v)) (shifted y (p * h + q * v)) "linear" = Raise e)) ->
      (R1 = Raise e <-> (hdus = [] \/ hdus = [None]) /\ e = IndexError \/ (exists m0, Ok (Some m) = Ok m0 /\ ((Some c = None /\ e = UnboundLocalError) \/ (exists c0, Some c = Some c0 /\ (((forall p, inside_of (c_data c0) p -> value_of (c_data c0) p = None) /\ e = ValueError) \/ (exists x y, position (c_data c0) 5 x y /\ ((m0 = None /\ e = ValueError) \/ (exists m', m0 = Some m' /\ (((exists row, In row m' /\ List.length row <> 2%nat) /\ e = ValueError) \/ ((forall row, In row m' -> List.length row = 2%nat) /\ (List.length m' < 2)%nat /\ e = IndexError) \/ (exists a b p q h v, turns m' a b p q /\ moved c0 w h v /\ interpolate_od linear nearest cubic (w_rows w) (shifted x (a * h + b * v)) (shifted y (p * h + q * v)) "linear" = Raise e)))))))))) ).
    { intros R1 H. rewrite H. split.
      - intros X. right. exists (Some m). split; [reflexivity|]. right. exists c. split; [reflexivity|]. right. exists x, y. split; [apply PI; reflexivity|]. right. exists m. auto.
      - intros [(Q & _)|(m' & LM & [(Q & _)|(c' & Q & [(Z & _)|(x' & y' & P & [(Q2 & _)|(m2 & Q2 & X)])])])]; [contradiction|discriminate|injection Q as <-; contradiction|subst m'; discriminate|]. injection Q as <-. subst m'. injection LM as <-. destruct (XY x' y' P) as (-> & ->). assumption. }
    apply RED. clear RED. destruct (times m _ _) as [l|e'] eqn:TM; cbn [bind].
    2:{ destruct (proj1 (TR e') eq_refl) as (X & ->). split; [intros Q; injection Q as <-; left; auto|]. intros [(_ & ->)|[(Z & _)|(a & b & p & q & h & v & T & MV & _)]]; [reflexivity| |]; exfalso.
        - destruct X as (row & I & N). auto.
        - destruct T as (rest & -> & LR). destruct X as (row & [<-|[<-|I]] & N); [apply N; reflexivity|apply N; reflexivity|auto]. }
    destruct (proj1 (TO l) eq_refl) as (LL & ->). destruct m as [|r1 [|r2 rest]].
    - unfold item. cbn [map nth_error bind]. split; [intros Q; injection Q as <-; right; left; split; [assumption|]; split; [cbn; lia|reflexivity]|]. intros [((row & [] & _) & _)|[(_ & _ & ->)|(a & b & p & q & h & v & (rest & Q & _) & _)]]; [reflexivity|discriminate].
    - unfold item. cbn [map nth_error bind]. split; [intros Q; injection Q as <-; right; left; split; [assumption|]; split; [cbn; lia|reflexivity]|]. intros [((row & I & N) & _)|[(_ & _ & ->)|(a & b & p & q & h & v & (rest & Q & _) & _)]]; [exfalso; auto|reflexivity|discriminate].
    - set (l := map _ _) in *. destruct (item l 0) as [ex|] eqn:E0; [|discriminate]. destruct (item l 1) as [ey|] eqn:E1; [|discriminate]. cbn [bind fst snd]. rewrite !shifted_eq. destruct (proj1 (TT ex ey) (ex_intro _ l (conj eq_refl (conj E0 E1)))) as (a & b & p & q & T & EX & EY). split.
      + intros Q. right. right. exists a, b, p, q, (card (c_h c) - card (w_h w)), (card (c_v c) - card (w_v w)). split; [assumption|]. split; [apply moved_iff; auto|]. rewrite <- EX, <- EY. assumption.
      + intros [((row & I & N) & _)|[(_ & Z & _)|(a' & b' & p' & q' & h & v & T' & MV & Q)]]; [exfalso; auto|cbn in Z; lia|]. apply moved_iff in MV. destruct MV as (-> & ->). destruct T as (t1 & T1 & _), T' as (t2 & T2 & _). rewrite T1 in T2. injection T2 as <- <- <- <- _. rewrite EX, EY. assumption.
  Qed.
  (** A filter that has not moved: the density at the star. *)
  Theorem od_still : forall c hdus w m a b p q x y pts ods, (forall r, In r (w_rows w) -> List.length r = 3%nat) -> table_is (w_rows w) pts ods -> matrix_in hdus m -> turns m a b p q -> c_h c = w_h w -> c_v c = w_v w -> position (c_data c) 5 (Some x) (Some y) ->
    calc (Some c) hdus w = linear pts ods (Some x) (Some y).
  Proof using.
    intros c hdus w m a b p q x y pts ods L T M TT H V P. assert (OK := fun od => od_ok c hdus w od pts ods L T). assert (MV : moved c w 0 0) by (apply moved_iff; rewrite H, V; split; ring).
    assert (SH : forall z u, shifted (Some z) (u * 0) = Some z) by (intros; cbn; f_equal; ring).
    destruct (table_unique _ _ _ _ _ T (table_of _ L)) as (-> & ->). unfold calculate_od. rewrite (proj2 (load_ok hdus m) M). cbn [bind]. rewrite (proj2 (position_iff _ _ _ _) P). cbn [bind]. destruct (proj2 (turns_times m (card (c_h c) - card (w_h w)) (card (c_v c) - card (w_v w)) _ _) (ex_intro _ a (ex_intro _ b (ex_intro _ p (ex_intro _ q (conj TT (conj eq_refl eq_refl))))))) as (e & -> & E0 & E1). cbn [bind]. rewrite E0. cbn [bind]. rewrite E1. cbn [bind fst snd].
    unfold interpolate_od, griddata. cbn [String.eqb Ascii.eqb Bool.eqb]. rewrite H, V. unfold vadd. f_equal; f_equal; ring.
  Qed.
  (** A filter whose densities move over the detector against the matrix: the density before the star. *)
  Theorem od_moves : forall c hdus w m a b p q h v x y D, (forall r, In r (w_rows w) -> List.length r = 3%nat) -> right_at linear (w_rows w) D -> matrix_in hdus m -> turns m a b p q -> moved c w h v -> position (c_data c) 5 (Some x) (Some y) ->
    calc (Some c) hdus w = Ok (Some (D (x + (a * h + b * v)) (y + (p * h + q * v)))).
  Proof using.
    intros c hdus w m a b p q h v x y D L RA M TT MV P. apply (od_ok c hdus w _ _ _ L (table_of _ L)). exists (Some x), (Some y), h, v, m, a, b, p, q. split; [assumption|]. split; [assumption|]. split; [assumption|]. split; [assumption|]. cbn [shifted]. apply RA. apply table_of. assumption.
  Qed.
  Theorem od_fails : forall frame hdus w pts ods e, (forall r, In r (w_rows w) -> List.length r = 3%nat) -> table_is (w_rows w) pts ods ->
    (calc frame hdus w = Raise e <->
    (hdus = [] \/ hdus = [None]) /\ e = IndexError \/
    (exists m, told hdus m /\
      ((frame = None /\ e = UnboundLocalError) \/
       (exists c, frame = Some c /\
         (((forall p, inside_of (c_data c) p -> value_of (c_data c) p = None) /\ e = ValueError) \/
          (exists x y, position (c_data c) 5 x y /\
            ((m = None /\ e = ValueError) \/
             (exists m', m = Some m' /\
               (((exists row, In row m' /\ List.length row <> 2%nat) /\ e = ValueError) \/
                ((forall row, In row m' -> List.length row = 2%nat) /\ (List.length m' < 2)%nat /\ e = IndexError) \/
                (exists a b p q h v, turns m' a b p q /\ moved c w h v /\ linear pts ods (shifted x (a * h + b * v)) (shifted y (p * h + q * v)) = Raise e)))))))))).
  Proof using.
    intros frame hdus w pts ods e L T. assert (TL : forall m, told hdus m <-> load_matrix hdus = Ok m).
    { intros m. unfold told. split.
      - intros [(k & M & ->)|((rest & ->) & ->)]; [apply load_ok; assumption|reflexivity].
      - intros Q. destruct m as [k|]; [left; exists k; split; [apply load_ok; assumption|reflexivity]|]. right. split; [|reflexivity]. destruct hdus as [|[?|] [|[?|] l]]; cbn in Q; try discriminate. eauto. }
    destruct (table_unique _ _ _ _ _ T (table_of _ L)) as (-> & ->).
    rewrite od_refused. setoid_rewrite TL. reflexivity.
  Qed.
  (** The density a table gives at a place, in each of the ways. *)
  Theorem interpolated_ok : forall rows x y name pts ods od, (forall r, In r rows -> List.length r = 3%nat) -> table_is rows pts ods ->
    (interpolate_od linear nearest cubic rows x y name = Ok od <-> exists f, named_method linear nearest cubic name f /\ f pts ods x y = Ok od).
  Proof using.
    intros rows x y name pts ods od L T. destruct (table_unique _ _ _ _ _ T (table_of _ L)) as (-> & ->). unfold interpolate_od, griddata, named_method.
    destruct (String.eqb_spec name "linear") as [->|N1]; [split; [intros Q; exists linear; auto|intros (f & [(_ & ->)|[(Q & _)|(Q & _)]] & F); [assumption|discriminate|discriminate]]|].
    destruct (String.eqb_spec name "nearest") as [->|N2]; [split; [intros Q; exists nearest; auto|intros (f & [(Q & _)|[(_ & ->)|(Q & _)]] & F); [discriminate|assumption|discriminate]]|].
    destruct (String.eqb_spec name "cubic") as [->|N3]; [split; [intros Q; exists cubic; auto|intros (f & [(Q & _)|[(Q & _)|(_ & ->)]] & F); [discriminate|discriminate|assumption]]|].
    split; [discriminate|intros (f & [(Q & _)|[(Q & _)|(Q & _)]] & _); contradiction].
  Qed.
  (** The table's own method interpolates linearly, whatever is asked for. *)
  Theorem own_linear : forall w x y name pts ods, (forall r, In r (w_rows w) -> List.length r = 3%nat) -> table_is (w_rows w) pts ods -> sweet_od linear w x y name = linear pts ods x y.
  Proof using. intros w x y name pts ods L T. destruct (table_unique _ _ _ _ _ T (table_of _ L)) as (-> & ->). reflexivity. Qed.
End Od.
Theorem own_nearest : exists (linear nearest cubic : list (val * val) -> list val -> val -> val -> result val) w x y,
  interpolate_od linear nearest cubic (w_rows w) x y "nearest" = Ok (Some 2) /\ sweet_od linear w x y "nearest" = Ok None.
Proof.
  exists (fun _ _ _ _ => Ok None), (fun _ ods _ _ => match ods with o :: _ => Ok o | [] => Raise ValueError end), (fun _ _ _ _ => Ok None), (mksweet [[Some 2; Some 0; Some 0]; [Some 3; Some 1; Some 0]; [Some 4; Some 0; Some 1]] None None), (Some (-1)), (Some (-1)). split; reflexivity.
Qed.
(** A star of one pixel, a filter that moved by one along h, and a table of a filter that is denser with x. *)
Definition lone : clean := mkclean (mkimg 1 1 (fun _ _ => Some 1)) (Some 1) (Some 0).
Definition ramp : sweet := mksweet [[Some (-2); Some (-2); Some (-1)]; [Some 2; Some 2; Some (-1)]; [Some 0; Some 0; Some 2]] (Some 0) None.
Definition unit_matrix : list (option (list (list R))) := [None; Some [[1; 0]; [0; 1]]].
Lemma ramp_rows : forall r, In r (w_rows ramp) -> List.length r = 3%nat.
Proof. intros r [<-|[<-|[<-|[]]]]; reflexivity. Qed.
Lemma lone_place : position (c_data lone) 5 (Some 0) (Some 0).
Proof.
  apply position_iff. unfold centroid_with_roi, brightest, spots, lone. cbn [rows cols c_data seq list_prod map app fold_left better at_ fst snd pix bind].
  unfold span. cbn [rows cols Nat.sub Nat.min Nat.add seq list_prod map app fst snd]. unfold vsum, at_, is_zero, vmul, vdiv, vadd. cbn [map fold_left fold_right pix fst snd INR vadd].
  repeat match goal with |- context [Req_EM_T ?a 0] => destruct (Req_EM_T a 0) as [Z|_]; [exfalso; lra|] end.
  repeat f_equal; lra.
Qed.
Lemma lone_moved : moved lone ramp 1 0.
Proof. exists 1, 0, 0, 0. unfold zero_if_absent. cbn. repeat split; auto; lra. Qed.
Lemma lone_turns : turns [[1; 0]; [0; 1]] 1 0 0 1.
Proof. exists []. split; [reflexivity|intros r []]. Qed.
Lemma lone_file : matrix_in unit_matrix [[1; 0]; [0; 1]].
Proof. exists []. right. reflexivity. Qed.
Lemma lone_od : forall linear nearest cubic, right_at linear (w_rows ramp) (fun x _ => x) -> calculate_od linear nearest cubic (Some lone) unit_matrix ramp = Ok (Some 1).
Proof.
  intros linear nearest cubic RA. rewrite (od_moves linear nearest cubic lone unit_matrix ramp _ _ _ _ _ 1 0 0 0 (fun x _ => x) ramp_rows RA lone_file lone_turns lone_moved lone_place). repeat f_equal. lra.
Qed.
Theorem carried : exists c hdus w m a b p q h v x y D, (exists linear, right_at linear (w_rows w) D) /\ matrix_in hdus m /\ turns m a b p q /\ moved c w h v /\ position (c_data c) 5 (Some x) (Some y) /\
  forall linear nearest cubic, right_at linear (w_rows w) D -> calculate_od linear nearest cubic (Some c) hdus w <> Ok (Some (D (x - (a * h + b * v)) (y - (p * h + q * v)))).
Proof.
  exists lone, unit_matrix, ramp, [[1; 0]; [0; 1]], 1, 0, 0, 1, 1, 0, 0, 0, (fun x _ => x). split; [exists (fun _ _ x _ => Ok x); intros x y pts ods _; reflexivity|]. split; [exact lone_file|]. split; [exact lone_turns|]. split; [exact lone_moved|]. split; [exact lone_place|].
  intros linear nearest cubic RA Q. rewrite (lone_od linear nearest cubic RA) in Q. injection Q as Q. lra.
Qed.
