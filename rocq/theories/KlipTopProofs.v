(** Proofs about the whole of the input of the PSF subtraction. *)
From Coq Require Import List Arith Bool QArith ZArith Lia Lqa String Ascii Reals DecimalString DecimalNat Qreals Sorted Permutation.
From Verif Require Import Base LevelModel KlipModel KlipSpec KlipProofs SplitProps.
Import ListNotations.
Local Open Scope Q_scope.
Local Open Scope string_scope.

Lemma uniq_in : forall l x, In x (uniq l) -> In x l.
Proof. induction l as [|a l IH]; intros x H; [exact H|]. cbn [uniq] in H. destruct (existsb (Qeq_bool a) (uniq l)); [right; exact (IH x H)|]. destruct H as [H|H]; [left; exact H|right; exact (IH x H)]. Qed.
Lemma in_uniq : forall l x, In x l -> exists y, In y (uniq l) /\ x == y.
Proof.
  induction l as [|a l IH]; intros x H; [destruct H|]. cbn [uniq]. destruct H as [->|H].
  - destruct (existsb (Qeq_bool x) (uniq l)) eqn:E; [apply existsb_exists in E; destruct E as (y & Y & E); exists y; split; [exact Y|apply Qeq_bool_eq; exact E]|exists x; split; [left; reflexivity|reflexivity]].
  - destruct (IH x H) as (y & Y & E). destruct (existsb (Qeq_bool a) (uniq l)); exists y; split; try exact E; [exact Y|right; exact Y].
Qed.
Lemma uniq_distinct : forall l x y t, uniq l = x :: y :: t -> ~ x == y.
Proof.
  induction l as [|a l IH]; intros x y t H; [discriminate H|]. cbn [uniq] in H. destruct (existsb (Qeq_bool a) (uniq l)) eqn:E; [exact (IH x y t H)|]. injection H as -> H. intros Q. assert (K : existsb (Qeq_bool x) (uniq l) = true) by (apply existsb_exists; exists y; split; [rewrite H; left; reflexivity|apply Qeq_eq_bool; exact Q]). congruence.
Qed.
Lemma uniq_one : forall l, l <> [] -> (forall x y, In x l -> In y l -> x == y) -> exists s, uniq l = [s] /\ In s l.
Proof.
  intros l N H. destruct (uniq l) as [|s t] eqn:E.
  - destruct l as [|a l]; [congruence|]. destruct (in_uniq (a :: l) a (or_introl eq_refl)) as (y & Y & _). rewrite E in Y. destruct Y.
  - destruct t as [|y t]; [exists s; split; [reflexivity|apply uniq_in; rewrite E; left; reflexivity]|]. exfalso. apply (uniq_distinct _ _ _ _ E). apply H; apply uniq_in; rewrite E; [left; reflexivity|right; left; reflexivity].
Qed.
Lemma uniq_one_inv : forall l s, uniq l = [s] -> In s l /\ forall x, In x l -> x == s.
Proof. intros l s H. split; [apply uniq_in; rewrite H; left; reflexivity|]. intros x X. destruct (in_uniq l x X) as (y & Y & E). rewrite H in Y. destruct Y as [<-|[]]. exact E. Qed.
Lemma qmin_in : forall l w, qmin l = Some w -> In w l.
Proof. induction l as [|a l IH]; intros w H; cbn [qmin] in H; [discriminate H|]. destruct (qmin l) as [m|]; [|injection H as ->; left; reflexivity]. injection H as <-. destruct (Qle_bool a m); [left; reflexivity|right; apply IH; reflexivity]. Qed.
Lemma qmin_none : forall l, qmin l = None <-> l = [].
Proof. intros [|a l]; cbn [qmin]; [split; reflexivity|]. destruct (qmin l); split; discriminate. Qed.
Lemma same_shape_iff : forall s t, same_shape s t = true <-> s = t.
Proof. intros (a, b) (c, d). unfold same_shape. cbn [fst snd]. rewrite andb_true_iff, !Nat.eqb_eq. split; [intros (-> & ->); reflexivity|intros H; injection H as -> ->; auto]. Qed.
Lemma f2_in_l : forall {A B} (R : A -> B -> Prop) l m, Forall2 R l m -> forall a, In a l -> exists b, In b m /\ R a b.
Proof. intros A B R l m H. induction H as [|x y l m K H IH]; intros a I; [destruct I|]. destruct I as [<-|I]; [exists y; split; [left; reflexivity|exact K]|]. destruct (IH a I) as (b & J & P). exists b. split; [right; exact J|exact P]. Qed.
Lemma f2_in_r : forall {A B} (R : A -> B -> Prop) l m, Forall2 R l m -> forall b, In b m -> exists a, In a l /\ R a b.
Proof. intros A B R l m H. induction H as [|x y l m K H IH]; intros b I; [destruct I|]. destruct I as [<-|I]; [exists x; split; [left; reflexivity|exact K]|]. destruct (IH b I) as (a & J & P). exists a. split; [right; exact J|exact P]. Qed.
Lemma f2_imp : forall {A B} (R S : A -> B -> Prop) l m, (forall a b, R a b -> S a b) -> Forall2 R l m -> Forall2 S l m.
Proof. intros A B R S l m H F. induction F; constructor; auto. Qed.
Lemma f2_len : forall {A B} (R : A -> B -> Prop) l m, Forall2 R l m -> List.length l = List.length m.
Proof. intros A B R l m F. induction F; cbn; congruence. Qed.
Lemma f2_const : forall {A B C} (R : A -> B -> Prop) (S : A -> C -> Prop) l m c, Forall2 R l m -> (forall a, S a c) -> Forall2 S l (map (fun _ => c) m).
Proof. intros A B C R S l m c F H. induction F; cbn [map]; constructor; auto. Qed.

Section Top.
Variable img : Type.
Variable align : img -> Q * Q -> Q * Q -> img.
Variable wcs : Type.
Notation frame := (frame img wcs).
Notation images := (images img).
Notation good := (good img wcs).
Notation integrations := (integrations img wcs).
Notation frame_at := (frame_at img wcs).
Notation name_of := (name_of img wcs).
Notation star_of := (star_of img wcs).
Definition carries (f : frame) (p : shape2 * list img) : Prop := has_shape _ (f_data _ _ f) (fst (fst p)) (snd (fst p)) /\ snd p = images (f_data _ _ f).
Lemma concat3_some : forall l d ims, Forall2 carries l d -> concat3 _ d = Some ims -> exists h w, (forall f, In f l -> has_shape _ (f_data _ _ f) h w) /\ ims = flat_map snd d /\ forall p, In p d -> fst p = (h, w).
Proof.
  intros l d ims F H. destruct d as [|((h, w), i) d]; [discriminate H|]. unfold concat3 in H. match type of H with (if ?b then _ else _) = _ => destruct b eqn:E; [|discriminate H] end. injection H as <-. rewrite forallb_forall in E.
  assert (K : forall p, In p (((h, w), i) :: d) -> fst p = (h, w)) by (intros p P; specialize (E p P); cbn beta in E; apply same_shape_iff in E; symmetry; exact E).
  exists h, w. split; [|split; [reflexivity|exact K]]. intros f I. destruct (f2_in_l _ _ _ F f I) as (p & P & (S & _)). pose proof (K p P) as KP. rewrite KP in S. exact S.
Qed.
Lemma concat3_total : forall l d, Forall2 carries l d -> l <> [] -> one_shape _ _ l -> exists ims, concat3 _ d = Some ims.
Proof.
  intros l d F N (h & w & S). destruct F as [|f p l d C F]; [congruence|]. destruct p as (s, i). assert (K : forall q, In q ((s, i) :: d) -> fst q = (h, w)).
  { intros q Q. destruct (f2_in_r _ _ _ (Forall2_cons _ _ C F) q Q) as (g & G & (SG & _)). destruct (shape_fun _ _ _ _ _ _ SG (S g G)) as (E1 & E2). destruct (fst q). cbn in *. congruence. }
  unfold concat3. assert (E : forallb (fun p => same_shape s (fst p)) ((s, i) :: d) = true). { apply forallb_forall. intros q Q. apply same_shape_iff. rewrite (K q Q). exact (K (s, i) (or_introl eq_refl)). } rewrite E. eexists. reflexivity.
Qed.
Lemma flat_images : forall l d, Forall2 carries l d -> Forall2 (fun q im => snd q = im) (integrations l) (flat_map snd d).
Proof.
  intros l d F. induction F as [|f p l d (_ & C) F IH]; [constructor|]. change (integrations (f :: l)) with (of_frame _ _ f ++ integrations l)%list. cbn [flat_map]. apply Forall2_app; [|exact IH]. rewrite C. unfold of_frame.
  generalize 1%nat as k. generalize (images (f_data _ _ f)) as m. induction m as [|i m IHm]; intros k; cbn [List.length seq combine map]; constructor; [reflexivity|apply IHm].
Qed.
Lemma recentered : forall new l ims cs, Forall2 (fun q im => snd q = im) (integrations l) ims -> Forall2 star_of (integrations l) cs -> Forall2 (moved _ align _ new) (integrations l) (recenter _ align new ims cs).
Proof.
  intros new l. unfold recenter. generalize (integrations l) as qs. intros qs ims cs F. revert cs. induction F as [|q im qs ims E F IH]; intros cs G; inversion G as [|? c ? cs' (S1 & S2) G']; subst; cbn [combine map]; constructor; [|exact (IH _ G')]. cbn [fst snd]. exists (fst c), (snd c). auto.
Qed.
Lemma ints_all : forall (l : list frame) c, Forall2 (frame_ints _ _) l c -> (forallb int_array c = true <-> Forall (integer_star _ _) l).
Proof.
  intros l c F. induction F as [|f x l c FI F IH]; [split; [constructor|reflexivity]|]. cbn [forallb]. rewrite andb_true_iff, IH. unfold frame_ints in FI. rewrite FI. split; [intros (A & B); constructor; assumption|intros H; inversion H; auto].
Qed.
Lemma stored_ok : forall (l : list frame) c h w, Forall2 (frame_ints _ _) l c -> centre_stored _ _ l h w (store (forallb int_array c) (middle (h, w))).
Proof.
  intros l c h w F. pose proof (ints_all l c F) as K. unfold centre_stored, store, middle, centre_of. cbn [fst snd]. destruct (forallb int_array c) eqn:E.
  - split; [|intros N; destruct N; apply K; reflexivity]. intros _. cbn [fst snd]. assert (T : forall z, trunc ((inject_Z z - 1) / 2) = ((z - 1) ÷ 2)%Z) by (intros z; unfold trunc; cbn; f_equal; lia). rewrite !T. split; reflexivity.
  - split; [intros N; apply K in N; discriminate N|reflexivity].
Qed.
Lemma last_shape : forall (d : list (shape2 * list img)) s i r h w, (forall p, In p d -> fst p = (h, w)) -> rev d = (s, i) :: r -> s = (h, w).
Proof. intros d s i r h w H E. apply (H (s, i)). apply in_rev. rewrite E. left. reflexivity. Qed.
Lemma f2_nil : forall {A B} (R : A -> B -> Prop) l, Forall2 R l [] <-> l = [].
Proof. intros A B R l. split; [intros H; inversion H; reflexivity|intros ->; constructor]. Qed.

Definition empty_acc : acc img wcs := mkacc _ _ [] [] [] [] [] [] [].
Lemma scales_one : forall (l : list frame) c, Forall2 (fun f s => exists x, f_scale _ _ f = Some x /\ s = val x * 1000) l c -> (one_scale _ _ l <-> forall x y, In x c -> In y c -> x == y).
Proof.
  intros l c F. split.
  - intros H x y X Y. destruct (f2_in_r _ _ _ F x X) as (f & If & u & U & ->). destruct (f2_in_r _ _ _ F y Y) as (g & Ig & v & V & ->). rewrite (H f g u v If Ig U V). reflexivity.
  - intros H f g x y If Ig X Y. destruct (f2_in_l _ _ _ F f If) as (s & S & u & U & ->). destruct (f2_in_l _ _ _ F g Ig) as (t & T & v & V & ->). assert (u = x) by congruence. assert (v = y) by congruence. subst u v. pose proof (H _ _ S T) as K. apply (Qmult_inj_r _ _ 1000); [discriminate|exact K].
Qed.
(** What the frames give, and what is then decided. *)
Lemma science_cases : forall (l : list frame), l <> [] -> Forall good l -> exists a, add_frames _ _ empty_acc l = Got a /\ adds _ _ l empty_acc a.
Proof. intros l N G. destruct (frames_total _ _ l empty_acc G) as (a & A). exists a. split; [exact A|]. exact (proj2 (frames_got _ _ l _ _ A)). Qed.
Lemma science_got : forall (l : list frame) p, read_science _ align _ l = Got p -> readable _ _ l /\ describes _ align _ l p.
Proof.
  intros l p H. unfold read_science in H. destruct l as [|f0 l0]; [discriminate H|]. remember (f0 :: l0) as l eqn:EL. assert (NL : l <> []) by (subst; discriminate). clear EL. apply rbind_got in H. destruct H as (a & A & H). destruct (frames_got _ _ l _ _ A) as (G & AD).
  destruct AD as [(d & E1 & F1) (c2 & E2 & F2 & V2 & I2) (c3 & E3 & F3) (c4 & E4 & F4) (c5 & E5 & F5) (c6 & E6 & F6) (c7 & E7 & F7)]. cbn [a_input a_centers a_names a_pas a_wvs a_wcs a_scale app] in *. rewrite E1, E2, E3, E4, E5, E6, E7 in H.
  destruct (concat3 _ d) as [ims|] eqn:C3; [|discriminate H]. destruct (concat3_some l d ims F1 C3) as (h & w & SH & -> & FS).
  destruct (uniq c7) as [|sc [|? ?]] eqn:U; try discriminate H. destruct (uniq_one_inv _ _ U) as (U1 & U2). destruct (qmin c5) as [wv|] eqn:QM; [|discriminate H]. destruct (rev d) as [|(s, i) r] eqn:RD; [discriminate H|]. pose proof (last_shape _ _ _ _ _ _ FS RD) as ->. assert (PE : p = _) by (injection H as H; symmetry; exact H). clear H.
  assert (NE : integrations l <> []). { intros K. rewrite K in F5. inversion F5 as [EA EB|]. rewrite <- EB in QM. cbn [qmin] in QM. discriminate QM. }
  assert (W : wv = 575 # 1000000000). { apply qmin_in in QM. destruct (f2_in_r _ _ _ F5 wv QM) as (q & _ & E). exact E. }
  split.
  - split; [exact NL|]. split; [exact G|]. split; [exists h, w; exact SH|]. split; [|exact NE]. apply (scales_one l c7 F7). intros x y X Y. rewrite (U2 x X), (U2 y Y). reflexivity.
  - subst p. constructor; cbn [o_input o_centers o_names o_nums o_pas o_wvs o_wcs o_iwa o_owa fst snd].
    + exists h, w. split; [exact SH|]. split; [apply recentered; [exact (flat_images l d F1)|exact F2]|]. split; [apply (f2_const star_of _ _ _ _ F2); intros q; apply stored_ok; exact I2|]. cbn. unfold Qeq. cbn. lia.
    + exact F3.
    + f_equal. symmetry. exact (f2_len _ _ _ F3).
    + exact F4.
    + exact F5.
    + exact F6.
    + intros f s I S. destruct (f2_in_l _ _ _ F7 f I) as (x & X & u & UU & ->). assert (u = s) by congruence. subst u. rewrite (Qeq_eqR _ _ (Qeq_sym _ _ (U2 _ X))), W, Q2R_mult. replace (Q2R 1000) with 1000%R by (unfold Q2R; cbn; field). unfold Rdiv. ring.
Qed.
Lemma science_total : forall (l : list frame), readable _ _ l -> exists p, read_science _ align _ l = Got p.
Proof.
  intros l (NL & G & SH & SC & NE). destruct (science_cases l NL G) as (a & A & AD). unfold read_science. destruct l as [|f0 l0]; [congruence|]. remember (f0 :: l0) as l eqn:EL. clear EL f0 l0. unfold empty_acc in A. rewrite A. cbn [rbind].
  destruct AD as [(d & E1 & F1) (c2 & E2 & F2 & V2 & I2) (c3 & E3 & F3) (c4 & E4 & F4) (c5 & E5 & F5) (c6 & E6 & F6) (c7 & E7 & F7)]. cbn [empty_acc a_input a_centers a_names a_pas a_wvs a_wcs a_scale app] in *. rewrite E1, E2, E3, E4, E5, E6, E7.
  destruct (concat3_total l d F1 NL SH) as (ims & ->). destruct (uniq_one c7) as (s & -> & _); [intros K; rewrite K in F7; inversion F7; congruence|exact (proj1 (scales_one l c7 F7) SC)|].
  destruct (qmin c5) as [w|] eqn:QM; [|apply qmin_none in QM; rewrite QM in F5; inversion F5; congruence]. destruct (rev d) as [|(sh, i) r] eqn:RD; [|eexists; reflexivity]. exfalso. apply NL. apply (f_equal (@rev _)) in RD. rewrite rev_involutive in RD. cbn in RD. rewrite RD in F1. inversion F1. reflexivity.
Qed.
Lemma science_fails : forall (l : list frame) e, read_science _ align _ l = Fails e <-> science_fault _ _ l e.
Proof.
  intros l e. split.
  - intros H. destruct l as [|f0 l0]; [injection H as <-; apply sf_none; reflexivity|]. remember (f0 :: l0) as l eqn:EL. assert (NL : l <> []) by (subst; discriminate).
    assert (H' : rbind (add_frames _ _ empty_acc l) (fun a => match concat3 _ (a_input _ _ a) with None => Fails UserWarning | Some ims => match uniq (a_scale _ _ a) with [_] => match qmin (a_wvs _ _ a) with None => Fails ValueErr | Some _ => match rev (a_input _ _ a) with [] => Fails ValueErr | _ => Got tt end end | _ => Fails UserWarning end end) = Fails e).
    { subst l. unfold read_science in H. cbv zeta in H. change (mkacc img wcs [] [] [] [] [] [] []) with empty_acc in H. destruct (add_frames _ _ empty_acc (f0 :: l0)) as [a|]; cbn [rbind] in *; [|congruence]. destruct (concat3 _ (a_input _ _ a)); [|congruence]. destruct (uniq (a_scale _ _ a)) as [|? [|? ?]]; try congruence. destruct (qmin (a_wvs _ _ a)); [|congruence]. destruct (rev (a_input _ _ a)) as [|(? & ?) ?]; [congruence|discriminate H]. }
    clear H EL f0 l0. apply rbind_fails in H'. destruct H' as [H|(a & A & H)].
    + apply frames_fails in H. destruct H as (l1 & f & l2 & E & GL & FF). exact (sf_frame _ _ l l1 f l2 e E GL FF).
    + destruct (frames_got _ _ l _ _ A) as (G & AD). destruct AD as [(d & E1 & F1) _ _ _ (c5 & E5 & F5) _ (c7 & E7 & F7)]. cbn [empty_acc a_input a_wvs a_scale app] in *. rewrite E1, E5, E7 in H.
      destruct (concat3 _ d) as [ims|] eqn:C3.
      2:{ injection H as <-. apply sf_shape; try assumption. intros S. destruct (concat3_total l d F1 NL S) as (ims & K). congruence. }
      destruct (concat3_some l d ims F1 C3) as (h & w & SH & _ & _). assert (OS : one_shape _ _ l) by (exists h, w; exact SH).
      assert (NS : forall u, uniq c7 = u -> (forall s, u <> [s]) -> ~ one_scale _ _ l). { intros u U NU OC. destruct (uniq_one c7) as (s & K & _); [intros K; rewrite K in F7; inversion F7; congruence|exact (proj1 (scales_one l c7 F7) OC)|]. apply (NU s). congruence. }
      destruct (uniq c7) as [|s [|? ?]] eqn:U.
      * injection H as <-. apply sf_scale; try assumption. apply (NS [] eq_refl). discriminate.
      * destruct (uniq_one_inv _ _ U) as (_ & U2). assert (OC : one_scale _ _ l) by (apply (scales_one l c7 F7); intros x y X Y; rewrite (U2 x X), (U2 y Y); reflexivity).
        destruct (qmin c5) as [w'|] eqn:QM; [|injection H as <-; apply sf_empty; try assumption; apply qmin_none in QM; rewrite QM in F5; inversion F5; reflexivity].
        destruct (rev d) as [|? ?] eqn:RD; [|discriminate H]. exfalso. apply NL. apply (f_equal (@rev _)) in RD. rewrite rev_involutive in RD. cbn in RD. rewrite RD in F1. inversion F1. reflexivity.
      * injection H as <-. apply sf_scale; try assumption. apply (NS _ eq_refl). discriminate.
  - intros H. destruct (read_science _ align _ l) as [p|e'] eqn:R.
    + exfalso. apply science_got in R. destruct R as ((NL & G & SH & SC & NE) & _). inversion H as [E|l1 f l2 e0 E GL FF|N K S|N K S T|N K S T E]; subst; try contradiction. apply (good_no_fault _ _ f e); [|exact FF]. rewrite Forall_forall in G. apply G. apply in_elt.
    + f_equal. destruct l as [|f0 l0]; [injection R as <-; inversion H as [E|l1 f l2 e0 E GL FF|N K S|N K S T|N K S T E]; try congruence; destruct l1; discriminate E|]. remember (f0 :: l0) as l eqn:EL. assert (NL : l <> []) by (subst; discriminate).
      inversion H as [E|l1 f l2 e0 E GL FF|N K S|N K S T|N K S T E]; subst e; [congruence| | | |].
      * assert (AF : add_frames _ _ empty_acc l = Fails e0) by (apply frames_fails; exists l1, f, l2; auto). unfold read_science in R. rewrite EL in R, AF. change (mkacc img wcs [] [] [] [] [] [] []) with empty_acc in R. rewrite AF in R. cbn [rbind] in R. congruence.
      * destruct (science_cases l N K) as (a & A & AD). unfold read_science in R. rewrite EL in R, A. change (mkacc img wcs [] [] [] [] [] [] []) with empty_acc in R. rewrite A in R. cbn [rbind] in R. rewrite <- EL in *. destruct AD as [(d & E1 & F1) _ _ _ _ _ _]. cbn [empty_acc a_input app] in E1. rewrite E1 in R. destruct (concat3 _ d) as [ims|] eqn:C3; [|congruence]. destruct (concat3_some l d ims F1 C3) as (h & w & SH & _). destruct S. exists h, w. exact SH.
      * destruct (science_cases l N K) as (a & A & AD). unfold read_science in R. rewrite EL in R, A. change (mkacc img wcs [] [] [] [] [] [] []) with empty_acc in R. rewrite A in R. cbn [rbind] in R. rewrite <- EL in *. destruct AD as [(d & E1 & F1) _ _ _ _ _ (c7 & E7 & F7)]. cbn [empty_acc a_input a_scale app] in *. rewrite E1, E7 in R. destruct (concat3_total l d F1 N S) as (ims & C3). rewrite C3 in R.
        destruct (uniq c7) as [|s [|? ?]] eqn:U; [congruence| |congruence]. destruct (uniq_one_inv _ _ U) as (_ & U2). destruct T. apply (scales_one l c7 F7); intros x y X Y; rewrite (U2 x X), (U2 y Y); reflexivity.
      * destruct (science_cases l N K) as (a & A & AD). unfold read_science in R. rewrite EL in R, A. change (mkacc img wcs [] [] [] [] [] [] []) with empty_acc in R. rewrite A in R. cbn [rbind] in R. rewrite <- EL in *. destruct AD as [(d & E1 & F1) _ _ _ (c5 & E5 & F5) _ (c7 & E7 & F7)]. cbn [empty_acc a_input a_wvs a_scale app] in *. rewrite E1, E5, E7 in R. destruct (concat3_total l d F1 N S) as (ims & C3). rewrite C3 in R.
        destruct (uniq_one c7) as (s & U & _); [intros Q; rewrite Q in F7; inversion F7; congruence|exact (proj1 (scales_one l c7 F7) T)|]. rewrite U in R. rewrite E in F5. inversion F5 as [EA EB|]. rewrite <- EB in R. cbn [qmin] in R. congruence.
Qed.

(** ** Reference frames *)
Notation rstate := (list (shape2 * list img) * list (list num) * list string)%type.
Record radds (l : list frame) (a a' : rstate) : Prop := mkradds {
  rd_input : exists d, fst (fst a') = (fst (fst a) ++ d)%list /\ Forall2 carries l d;
  rd_centers : exists c, snd (fst a') = (snd (fst a) ++ c)%list /\ Forall2 star_of (integrations l) (pairs (List.concat c)) /\ Forall2 (frame_ints _ _) l c;
  rd_names : exists c, snd a' = (snd a ++ c)%list /\ Forall2 (fun q s => s = name_of q) (integrations l) c }.
Lemma ref_got : forall a (f : frame) a', add_ref _ _ a f = Got a' <-> ref_good _ _ f /\ exists h w x y, has_shape _ (f_data _ _ f) h w /\ f_x _ _ f = Some x /\ f_y _ _ f = Some y
  /\ a' = (fst (fst a) ++ [((h, w), images (f_data _ _ f))], snd (fst a) ++ [times (List.length (images (f_data _ _ f))) [x; y]], snd a ++ map (int_name _ _ f) (seq 0 (List.length (images (f_data _ _ f)))))%list.
Proof.
  intros ((inp, cs), names) f a'. unfold add_ref, ref_good, dims_ok, located. cbn [fst snd]. split.
  - intros H. apply rbind_got in H. destruct H as (((h, w), l) & D & H). apply cube_iff in D. cbn [fst snd] in D. destruct D as (D1 & D2). apply rbind_got in H. destruct H as (sc & SC & H). apply key_got in SC. apply rbind_got in H. destruct H as (x & X & H). apply key_got in X. apply rbind_got in H. destruct H as (y & Y & H). apply key_got in Y. injection H as <-.
    split; [split; [exists h, w; exact D1|repeat split; congruence]|]. exists h, w, x, y. cbn [snd]. rewrite D2. auto.
  - intros ((_ & (SC & _)) & h & w & x & y & SH & X & Y & ->). rewrite (proj2 (cube_iff _ (f_data _ _ f) (h, w) _) (conj SH eq_refl)). cbn [rbind snd]. destruct (f_scale _ _ f); [|congruence]. rewrite X, Y. reflexivity.
Qed.
Lemma ref_fails : forall a (f : frame) e, add_ref _ _ a f = Fails e <-> ref_fault _ _ f e.
Proof.
  intros ((inp, cs), names) f e. unfold add_ref. destruct (dims_dec _ _ f) as [D|D].
  2:{ rewrite (cube_bad _ _ D). cbn [rbind]. split; [intros H; injection H as <-; apply rf_dims, D|intros H; inversion H; subst; [reflexivity|contradiction]]. }
  destruct (cube_ok _ _ D) as (h & w & -> & SH). cbn [rbind snd].
  assert (CARD : ~ located _ _ f -> (Fails KeyErr = @Fails rstate e <-> ref_fault _ _ f e)) by (intros N; split; [intros H; injection H as <-; apply rf_cards; assumption|intros H; inversion H; subst; [contradiction|reflexivity]]).
  unfold located in CARD. destruct (f_scale _ _ f) eqn:SC; cbn [key rbind]; [|apply CARD; tauto]. destruct (f_x _ _ f) eqn:X; cbn [key rbind]; [|apply CARD; tauto]. destruct (f_y _ _ f) eqn:Y; cbn [key rbind]; [|apply CARD; tauto].
  split; [discriminate|]. intros H; inversion H; subst; [contradiction|]. destruct H1. unfold located. rewrite SC, X, Y. repeat split; discriminate.
Qed.
Lemma ref_total : forall a (f : frame), ref_good _ _ f -> exists a', add_ref _ _ a f = Got a'.
Proof.
  intros a f G. pose proof G as ((h & w & D) & (S1 & S2 & S3)). destruct (f_x _ _ f) as [x|] eqn:E2; [|congruence]. destruct (f_y _ _ f) as [y|] eqn:E3; [|congruence]. eexists. apply ref_got. split; [exact G|]. exists h, w, x, y. repeat split; eassumption || reflexivity.
Qed.
Lemma refs_got : forall (l : list frame) a a', add_refs _ _ a l = Got a' -> Forall (ref_good _ _) l /\ radds l a a'.
Proof.
  induction l as [|f l IH]; intros a a' H; cbn [add_refs] in H.
  - injection H as <-. split; [constructor|]. constructor; exists []; rewrite app_nil_r; repeat split; constructor.
  - apply rbind_got in H. destruct H as (a1 & F & H). apply ref_got in F. destruct F as (G & h & w & x & y & SH & X & Y & ->). destruct (IH _ _ H) as (GL & [(d & E1 & F1) (c2 & E2 & F2 & I2) (c3 & E3 & F3)]). cbn [fst snd] in *. split; [constructor; assumption|]. constructor.
    + eexists. split; [rewrite E1, <- app_assoc; reflexivity|]. constructor; [split; [exact SH|reflexivity]|exact F1].
    + eexists. split; [rewrite E2, <- app_assoc; reflexivity|]. split; [|constructor; [exact (times_ints _ _ f x y X Y)|exact I2]]. cbn [app List.concat]. rewrite pairs_app by apply times_even. rewrite integrations_cons. apply Forall2_app; [|exact F2]. rewrite pairs_times, <- of_frame_len. apply f2_times. intros q Q. unfold KlipProofs.star_of. rewrite (of_frame_in _ _ f q Q). auto.
    + eexists. split; [rewrite E3, <- app_assoc; reflexivity|]. rewrite integrations_cons. apply Forall2_app; [apply f2_names|exact F3].
Qed.
Lemma refs_total : forall (l : list frame) a, Forall (ref_good _ _) l -> exists a', add_refs _ _ a l = Got a'.
Proof. induction l as [|f l IH]; intros a H; cbn [add_refs]; [exists a; reflexivity|]. inversion H as [|? ? G GL]; subst. destruct (ref_total a f G) as (a1 & ->). exact (IH a1 GL). Qed.
Lemma refs_fails : forall (l : list frame) a e, add_refs _ _ a l = Fails e <-> exists l1 f l2, l = (l1 ++ f :: l2)%list /\ Forall (ref_good _ _) l1 /\ ref_fault _ _ f e.
Proof.
  induction l as [|f l IH]; intros a e; cbn [add_refs].
  - split; [discriminate|intros ([|u v] & g & l2 & E & _); discriminate E].
  - rewrite rbind_fails. split.
    + intros [H|(a1 & F & H)]; [exists [], f, l; split; [reflexivity|split; [constructor|exact (proj1 (ref_fails a f e) H)]]|]. apply ref_got in F. destruct F as (G & _). apply IH in H. destruct H as (l1 & g & l2 & -> & GL & FF). exists (f :: l1), g, l2. split; [reflexivity|]. split; [constructor; assumption|exact FF].
    + intros (l1 & g & l2 & E & GL & FF). destruct l1 as [|f' l1]; cbn [app] in E; injection E as -> ->; [left; apply ref_fails; exact FF|]. inversion GL as [|? ? G GL']; subst. destruct (ref_total a f' G) as (a1 & F). right. exists a1. split; [exact F|]. apply IH. exists l1, g, l2. auto.
Qed.
Lemma shape_of_eq : forall (a : arr img) h w, has_shape _ a h w -> shape_of _ a = (h, w).
Proof. intros [s i|s l|] h w H; cbn in *; tauto || assumption. Qed.
(** The shape of the science frames. *)
Definition first_shape (l : list frame) : shape2 := match l with f :: _ => shape_of _ (f_data _ _ f) | [] => (0, 0)%nat end.
Lemma library_got : forall (l r : list frame) p b, l <> [] -> one_shape _ _ l -> read_refs _ align _ (first_shape l) p r = Got b -> Forall (ref_good _ _) r /\ one_shape _ _ (l ++ r) /\ library_of _ align _ l r p b.
Proof.
  intros l r p b NL (h & w & SH) H. unfold read_refs in H. apply rbind_got in H. destruct H as (((inp, cns), names) & A & H). destruct (refs_got _ _ _ A) as (G & [(d & E1 & F1) (c2 & E2 & F2 & I2) (c3 & E3 & F3)]). cbn [fst snd app] in *. subst inp cns names.
  destruct (concat3 _ d) as [ims|] eqn:C3; [|discriminate H]. destruct (concat3_some r d ims F1 C3) as (h' & w' & SR & -> & FS). destruct (rev d) as [|(s, i) t] eqn:RD; [discriminate H|]. pose proof (last_shape _ _ _ _ _ _ FS RD) as ->.
  destruct (same_shape (h', w') (first_shape l)) eqn:SS; [|discriminate H]. apply same_shape_iff in SS. assert (FL : first_shape l = (h, w)). { destruct l as [|f l]; [congruence|]. exact (shape_of_eq _ _ _ (SH f (or_introl eq_refl))). }
  assert (EQ : h' = h /\ w' = w) by (rewrite FL in SS; injection SS as -> ->; auto). destruct EQ as (-> & ->). injection H as <-. assert (ALL : forall f, In f (l ++ r) -> has_shape _ (f_data _ _ f) h w) by (intros f I; apply in_app_or in I; destruct I as [I|I]; [exact (SH f I)|exact (SR f I)]).
  split; [exact G|]. split; [exists h, w; exact ALL|]. constructor. cbn [b_data b_centers b_names b_center]. eexists h, w, _, _, _. split; [exact ALL|]. split; [reflexivity|]. split; [apply recentered; [exact (flat_images r d F1)|exact F2]|]. split; [reflexivity|]. split; [apply (f2_const star_of _ _ _ _ F2); intros q; apply stored_ok; exact I2|]. split; [reflexivity|]. split; [exact F3|reflexivity].
Qed.
Lemma library_total : forall (l r : list frame) p, l <> [] -> r <> [] -> Forall (ref_good _ _) r -> one_shape _ _ (l ++ r) -> exists b, read_refs _ align _ (first_shape l) p r = Got b.
Proof.
  intros l r p NL NR G (h & w & SH). destruct (refs_total r ([], [], []) G) as (((inp, cns), names) & A). destruct (refs_got _ _ _ A) as (_ & [(d & E1 & F1) _ _]). cbn [fst snd app] in *. subst inp. unfold read_refs. rewrite A. cbn [rbind].
  assert (SR : one_shape _ _ r) by (exists h, w; intros f I; apply SH, in_or_app; right; exact I). destruct (concat3_total r d F1 NR SR) as (ims & C3). rewrite C3. destruct (concat3_some r d ims F1 C3) as (h' & w' & SR' & _ & FS). destruct (rev d) as [|(s, i) t] eqn:RD.
  - exfalso. apply NR. apply (f_equal (@rev _)) in RD. rewrite rev_involutive in RD. cbn in RD. rewrite RD in F1. inversion F1. reflexivity.
  - pose proof (last_shape _ _ _ _ _ _ FS RD) as ->. destruct r as [|g r]; [congruence|]. assert (E : h' = h /\ w' = w) by (apply (shape_fun _ (f_data _ _ g)); [apply SR'; left; reflexivity|apply SH, in_or_app; right; left; reflexivity]). destruct E as (-> & ->).
    destruct l as [|f l]; [congruence|]. cbn [first_shape]. rewrite (shape_of_eq _ _ _ (SH f (or_introl eq_refl))). rewrite (proj2 (same_shape_iff (h, w) (h, w)) eq_refl). eexists. reflexivity.
Qed.
Lemma library_fails : forall (l r : list frame) p e, l <> [] -> r <> [] -> one_shape _ _ l -> (read_refs _ align _ (first_shape l) p r = Fails e <-> refs_fault _ _ l r e).
Proof.
  intros l r p e NL NR SL. split.
  - intros H. assert (H2 := H). unfold read_refs in H. apply rbind_fails in H. destruct H as [H|(((inp, cns), names) & A & H)].
    + apply refs_fails in H. destruct H as (l1 & f & l2 & E & GL & FF). exact (rs_frame _ _ l r l1 f l2 e E GL FF).
    + destruct (refs_got _ _ _ A) as (G & _). assert (e = ValueErr) by (destruct (concat3 _ inp); [|congruence]; destruct (rev inp) as [|(? & ?) ?]; [congruence|]; destruct (same_shape _ _); congruence). subst e. apply rs_shape; [exact G|]. intros S. destruct (library_total l r p NL NR G S) as (b & B). congruence.
  - intros H. destruct (read_refs _ align _ (first_shape l) p r) as [b|e'] eqn:R.
    + exfalso. destruct (library_got l r p b NL SL R) as (G & S & _). inversion H as [l1 f l2 e0 E GL FF|G' N]; subst; [|contradiction]. rewrite Forall_forall in G. assert (GF : ref_good _ _ f) by (apply G, in_elt). destruct (ref_total ([], [], []) f GF) as (a' & A'). apply (ref_fails ([], [], [])) in FF. congruence.
    + f_equal. inversion H as [l1 f l2 e0 E GL FF|G N]; subst e.
      * assert (AF : add_refs _ _ ([], [], []) r = Fails e0) by (apply refs_fails; exists l1, f, l2; auto). unfold read_refs in R. rewrite AF in R. cbn [rbind] in R. congruence.
      * destruct (refs_total r ([], [], []) G) as (((inp, cns), names) & A). unfold read_refs in R. rewrite A in R. cbn [rbind] in R. destruct (concat3 _ inp); [|congruence]. destruct (rev inp) as [|(? & ?) ?]; [congruence|]. destruct (same_shape _ _); congruence.
Qed.
Lemma library_one : forall (l r : list frame) p b b', library_of _ align _ l r p b -> library_of _ align _ l r p b' -> l <> [] -> b_data _ b = b_data _ b' /\ b_names _ b = b_names _ b' /\ b_center _ b = b_center _ b'.
Proof.
  intros l r p b b' [(h & w & d & c & n & S & D & MD & _ & _ & N & NN & K)] [(h' & w' & d' & c' & n' & S' & D' & MD' & _ & _ & N' & NN' & K')] NL.
  destruct l as [|f l]; [congruence|]. destruct (shape_fun _ (f_data _ _ f) h w h' w') as (E1 & E2); [apply S; left; reflexivity|apply S'; left; reflexivity|]. subst h' w'. split; [|split; [|congruence]].
  - rewrite D, D'. f_equal. clear -MD MD'. revert d' MD'. induction MD as [|q x qs d (u & v & U & V & ->) MD IH]; intros d' M; inversion M as [|? y ? d2 (u' & v' & U' & V' & ->) M']; subst; [reflexivity|]. f_equal; [congruence|exact (IH _ M')].
  - rewrite N, N'. f_equal. clear -NN NN'. revert n' NN'. induction NN as [|q x qs d E MD IH]; intros d' M; inversion M as [|? y ? d2 E' M']; subst; [reflexivity|]. f_equal. exact (IH _ M').
Qed.
(** ** The whole *)
Lemma readdata_got : forall (l : list frame) r p b, (forall x, r = Some x -> x <> []) -> (readdata _ align _ l r = Got (p, b) <->
  read_science _ align _ l = Got p /\ match r, b with None, None => True | Some x, Some lib => read_refs _ align _ (first_shape l) p x = Got lib | _, _ => False end).
Proof.
  intros l r p b NR. unfold readdata. rewrite rbind_got. split.
  - intros (p' & P & H). destruct r as [x|].
    + apply rbind_got in H. destruct H as (lib & L & H). injection H as <- <-. auto.
    + injection H as <- <-. auto.
  - intros (P & H). exists p. split; [exact P|]. destruct r as [x|], b as [lib|]; try tauto. apply rbind_got. exists lib. auto.
Qed.
End Top.
