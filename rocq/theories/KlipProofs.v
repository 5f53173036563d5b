(** Proofs about the input of the PSF subtraction. *)
From Coq Require Import List Arith Bool QArith ZArith Lia Lqa String Ascii Reals DecimalString DecimalNat Qreals Sorted Permutation.
From Verif Require Import Base LevelModel KlipModel KlipSpec.
Import ListNotations.
Local Open Scope Q_scope.
Local Open Scope string_scope.

Lemma rbind_got : forall {A B} (m : res A) (k : A -> res B) b, rbind m k = Got b <-> exists a, m = Got a /\ k a = Got b.
Proof. intros A B [a|e] k b; cbn [rbind]; split; [intros H; exists a; auto|intros (a' & E & H); injection E as ->; exact H|discriminate|intros (a' & E & _); discriminate E]. Qed.
Lemma rbind_fails : forall {A B} (m : res A) (k : A -> res B) e, rbind m k = Fails e <-> m = Fails e \/ exists a, m = Got a /\ k a = Fails e.
Proof. intros A B [a|e'] k e; cbn [rbind]; split; [intros H; right; exists a; auto|intros [E|(a' & E & H)]; [discriminate E|injection E as ->; exact H]|intros H; left; congruence|intros [E|(a' & E & _)]; [congruence|discriminate E]]. Qed.
Lemma key_got : forall {A} (o : option A) a, key o = Got a <-> o = Some a.
Proof. intros A [x|] a; cbn [key]; split; congruence. Qed.

Section Proofs.
Variable img : Type.
Variable wcs : Type.
Notation frame := (frame img wcs).
Notation images := (images img).
Notation good := (good img wcs).

(** ** One frame *)
Lemma cube_iff : forall (a : arr img) sh l, cube _ a = Got (sh, l) <-> has_shape _ a (fst sh) (snd sh) /\ images a = l.
Proof. intros [s i|s l'|] (h, w) l; cbn [cube has_shape KlipSpec.images fst snd]; (split; [intros H; try discriminate H; injection H as -> ->; auto|intros (A & B); try tauto; congruence]). Qed.
Lemma cube_ok : forall (a : arr img), (exists h w, has_shape _ a h w) -> exists h w, cube _ a = Got ((h, w), images a) /\ has_shape _ a h w.
Proof. intros a (h & w & H). exists h, w. split; [apply cube_iff; auto|exact H]. Qed.
Lemma cube_bad : forall (a : arr img), ~ (exists h w, has_shape _ a h w) -> cube _ a = Fails UserWarning.
Proof. intros [(h, w) i|(h, w) l|] N; cbn; [destruct N; exists h, w; reflexivity|destruct N; exists h, w; reflexivity|reflexivity]. Qed.
Lemma dims_dec : forall f : frame, {dims_ok _ _ f} + {~ dims_ok _ _ f}.
Proof. intros f. unfold dims_ok. destruct (f_data _ _ f) as [(h, w) i|(h, w) l|]; [left; exists h, w; reflexivity|left; exists h, w; reflexivity|right; intros (h & w & [])]. Qed.
Lemma shape_fun : forall (a : arr img) h w h' w', has_shape _ a h w -> has_shape _ a h' w' -> h = h' /\ w = w'.
Proof. intros [s i|s l|] h w h' w'; cbn; intros A B; try tauto; split; congruence. Qed.
Lemma wave_got : forall c w, wave c = Got w <-> c = "1F" /\ w = 575 # 1000000000.
Proof. intros c w. unfold wave. destruct (String.eqb_spec c "1F"); (split; [intros H; try discriminate H; split; congruence|intros H; destruct H; congruence]). Qed.
Definition add_good (a : acc img wcs) (f : frame) (sh : shape2) (sc x y roll : num) : acc img wcs :=
  let n := List.length (images (f_data _ _ f)) in
  mkacc _ _ (a_input _ _ a ++ [(sh, images (f_data _ _ f))]) (a_centers _ _ a ++ [times n [x; y]]) (a_names _ _ a ++ map (int_name _ _ f) (seq 0 n)) (a_pas _ _ a ++ times n [roll])
    (a_wvs _ _ a ++ times n [575 # 1000000000]) (a_wcs _ _ a ++ times n [f_wcs _ _ f]) (a_scale _ _ a ++ [val sc * 1000]).
Lemma tel_dec : forall f : frame, (tel_ok _ _ f /\ match f_tel _ _ f with Some t => if String.eqb t "ROMAN" then Got tt else Fails UserWarning | None => Got tt end = Got tt)
   \/ (~ tel_ok _ _ f /\ match f_tel _ _ f with Some t => if String.eqb t "ROMAN" then Got tt else Fails UserWarning | None => Got tt end = Fails UserWarning).
Proof.
  intros f. unfold tel_ok. destruct (f_tel _ _ f) as [t|]; [|left; split; [discriminate|reflexivity]]. destruct (String.eqb_spec t "ROMAN") as [->|N]; [left; split; [congruence|reflexivity]|right; split; [intros H; apply N, H; reflexivity|reflexivity]].
Qed.
Lemma ins_dec : forall s : string, (s = "CGI" /\ (if String.eqb s "CGI" then Got tt else Fails UserWarning) = Got tt) \/ (s <> "CGI" /\ (if String.eqb s "CGI" then Got tt else Fails UserWarning) = Fails UserWarning).
Proof. intros s. destruct (String.eqb_spec s "CGI"); [left|right]; auto. Qed.
Lemma frame_got : forall a (f : frame) a', add_frame _ _ a f = Got a' <-> good f /\ exists h w sc x y roll, has_shape _ (f_data _ _ f) h w /\ f_scale _ _ f = Some sc /\ f_x _ _ f = Some x /\ f_y _ _ f = Some y /\ f_roll _ _ f = Some roll /\ a' = add_good a f (h, w) sc x y roll.
Proof.
  intros a f a'. unfold add_frame, KlipSpec.good, ins_ok, dims_ok, located. split.
  - intros H. apply rbind_got in H. destruct H as (u & T & H). apply rbind_got in H. destruct H as (ins & I & H). apply key_got in I. apply rbind_got in H. destruct H as (u' & I2 & H). apply rbind_got in H. destruct H as (cf & C & H). apply key_got in C. apply rbind_got in H. destruct H as (d & D & H). apply rbind_got in H. destruct H as (sc & SC & H). apply key_got in SC.
    apply rbind_got in H. destruct H as (x & X & H). apply key_got in X. apply rbind_got in H. destruct H as (y & Y & H). apply key_got in Y. apply rbind_got in H. destruct H as (roll & RO & H). apply key_got in RO. apply rbind_got in H. destruct H as (w & W & H). apply wave_got in W. destruct W as (W1 & W2). subst cf w. injection H as <-.
    destruct d as ((h, w), l). apply cube_iff in D. cbn [fst snd] in D. destruct D as (D1 & D2). destruct (tel_dec f) as [(T1 & _)|(_ & T2)]; [|rewrite T2 in T; discriminate T]. destruct (ins_dec ins) as [(-> & _)|(_ & I3)]; [|rewrite I3 in I2; discriminate I2].
    split; [repeat split; try assumption; try congruence; exists h, w; exact D1|]. exists h, w, sc, x, y, roll. repeat split; try assumption. unfold add_good. rewrite D2. reflexivity.
  - intros ((T & I & C & _ & _ & _) & h & w & sc & x & y & roll & SH & SC & X & Y & RO & ->). destruct (tel_dec f) as [(_ & ->)|(NT & _)]; [|contradiction]. cbn [rbind]. rewrite I, C, SC, X, Y, RO. cbn [rbind key]. rewrite String.eqb_refl. cbn [rbind]. rewrite (proj2 (cube_iff (f_data _ _ f) (h, w) _) (conj SH eq_refl)). cbn [rbind fst snd]. unfold wave. rewrite String.eqb_refl. reflexivity.
Qed.
Lemma frame_fails : forall a (f : frame) e, add_frame _ _ a f = Fails e <-> frame_fault _ _ f e.
Proof.
  intros a f e. unfold add_frame. destruct (tel_dec f) as [(T & ->)|(NT & ->)]; cbn [rbind].
  2:{ split; [intros H; injection H as <-; apply ff_tel, NT|intros H; inversion H; subst; try contradiction; reflexivity]. }
  destruct (f_ins _ _ f) as [s|] eqn:I; cbn [key rbind].
  2:{ split; [intros H; injection H as <-; apply ff_noins; assumption|intros H; inversion H; subst; unfold ins_ok in *; try contradiction; try congruence; reflexivity]. }
  destruct (ins_dec s) as [(-> & ->)|(NS & ->)]; cbn [rbind].
  2:{ split; [intros H; injection H as <-; apply (ff_ins _ _ f s); assumption|intros H; inversion H; subst; unfold ins_ok in *; try contradiction; try congruence; reflexivity]. }
  assert (IO : ins_ok _ _ f) by exact I.
  destruct (f_cfam _ _ f) as [c|] eqn:C; cbn [key rbind].
  2:{ split; [intros H; injection H as <-; apply ff_nocfam; assumption|intros H; inversion H; subst; try contradiction; try congruence; reflexivity]. }
  destruct (dims_dec f) as [D|D].
  2:{ rewrite (cube_bad _ D). cbn [rbind]. split; [intros H; injection H as <-; apply ff_dims; try assumption; congruence|intros H; inversion H; subst; try contradiction; try congruence; reflexivity]. }
  destruct (cube_ok _ D) as (h & w & -> & SH). cbn [rbind fst snd].
  assert (CARD : ~ (located _ _ f /\ f_roll _ _ f <> None) -> (Fails KeyErr = @Fails (acc img wcs) e <-> frame_fault _ _ f e)).
  { intros N. split; [intros H; injection H as <-; apply ff_cards; try assumption; congruence|intros H; inversion H; subst; try contradiction; try congruence; try reflexivity; tauto]. }
  unfold located in CARD. destruct (f_scale _ _ f) as [sc|] eqn:SC; cbn [key rbind]; [|apply CARD; tauto]. destruct (f_x _ _ f) as [x|] eqn:X; cbn [key rbind]; [|apply CARD; tauto]. destruct (f_y _ _ f) as [y|] eqn:Y; cbn [key rbind]; [|apply CARD; tauto]. destruct (f_roll _ _ f) as [roll|] eqn:RO; cbn [key rbind]; [|apply CARD; tauto].
  assert (LO : located _ _ f) by (unfold located; rewrite SC, X, Y; repeat split; discriminate). assert (RN : f_roll _ _ f <> None) by (rewrite RO; discriminate).
  unfold wave. destruct (String.eqb_spec c "1F") as [->|NF]; cbn [rbind].
  - split; [discriminate|]. intros H; inversion H; subst; unfold ins_ok in *; try contradiction; try congruence; tauto.
  - split; [intros H; injection H as <-; apply (ff_filter _ _ f c); assumption|intros H; inversion H; subst; unfold ins_ok in *; try contradiction; try congruence; try reflexivity; tauto].
Qed.

(** ** All the frames *)
Notation integrations := (integrations img wcs).
Notation frame_at := (frame_at img wcs).
Notation name_of := (name_of img wcs).
Definition of_frame (f : frame) : list (frame * nat * img) := map (fun p => (f, fst p, snd p)) (combine (seq 1 (List.length (images (f_data _ _ f)))) (images (f_data _ _ f))).
Lemma of_frame_len : forall f, List.length (of_frame f) = List.length (images (f_data _ _ f)).
Proof. intros f. unfold of_frame. rewrite map_length, combine_length, seq_length. lia. Qed.
Lemma of_frame_in : forall f q, In q (of_frame f) -> frame_at q = f.
Proof. intros f q H. unfold of_frame in H. apply in_map_iff in H. destruct H as (p & <- & _). reflexivity. Qed.
Lemma f2_times : forall {A B} (R : A -> B -> Prop) (l : list A) b, (forall a, In a l -> R a b) -> Forall2 R l (times (List.length l) [b]).
Proof. intros A B R l b. induction l as [|a l IH]; intros H; cbn [List.length times app]; constructor; [apply H; left; reflexivity|apply IH; intros x X; apply H; right; exact X]. Qed.
Lemma f2_names : forall f, Forall2 (fun q s => s = name_of q) (of_frame f) (map (int_name _ _ f) (seq 0 (List.length (images (f_data _ _ f))))).
Proof.
  intros f. unfold of_frame. generalize (images (f_data _ _ f)) as l. intros l. rewrite <- seq_shift. generalize 0%nat as k. induction l as [|i l IH]; intros k; cbn [List.length seq map combine]; [constructor|]. constructor; [|apply IH].
  unfold KlipSpec.name_of, int_name, KlipSpec.frame_at. cbn [fst snd]. rewrite Nat.add_1_r. reflexivity.
Qed.
Lemma pairs_app : forall {A} (l m : list A), Nat.even (List.length l) = true -> pairs (l ++ m) = (pairs l ++ pairs m)%list.
Proof.
  intros A l m. remember (List.length l) as n eqn:E. revert l E. induction n as [n IH] using (well_founded_induction lt_wf). intros l E H. destruct l as [|x [|y t]]; [reflexivity|cbn in E; subst n; discriminate H|]. cbn [app pairs]. f_equal. apply (IH (List.length t)); [cbn in E; lia|reflexivity|]. cbn [List.length] in E. rewrite E in H. exact H.
Qed.
Lemma times_even : forall {A} (x y : A) n, Nat.even (List.length (times n [x; y])) = true.
Proof. intros A x y. induction n as [|n IH]; [reflexivity|]. cbn [times app List.length Nat.even]. exact IH. Qed.
Lemma pairs_times : forall {A} (x y : A) n, pairs (times n [x; y]) = times n [(x, y)].
Proof. intros A x y. induction n as [|n IH]; [reflexivity|]. cbn [times app pairs]. f_equal. exact IH. Qed.
Definition star_of (q : frame * nat * img) (c : num * num) : Prop := f_x _ _ (frame_at q) = Some (fst c) /\ f_y _ _ (frame_at q) = Some (snd c).
Definition even_all (cs : list (list num)) : Prop := forall l, In l cs -> Nat.even (List.length l) = true.
Definition frame_ints (f : frame) (l : list num) : Prop := int_array l = true <-> integer_star _ _ f.
Record adds (l : list frame) (a a' : acc img wcs) : Prop := mkadds {
  ad_input : exists d, a_input _ _ a' = (a_input _ _ a ++ d)%list /\ Forall2 (fun f p => has_shape _ (f_data _ _ f) (fst (fst p)) (snd (fst p)) /\ snd p = images (f_data _ _ f)) l d;
  ad_centers : exists c, a_centers _ _ a' = (a_centers _ _ a ++ c)%list /\ Forall2 star_of (integrations l) (pairs (List.concat c)) /\ even_all c /\ Forall2 frame_ints l c;
  ad_names : exists c, a_names _ _ a' = (a_names _ _ a ++ c)%list /\ Forall2 (fun q s => s = name_of q) (integrations l) c;
  ad_pas : exists c, a_pas _ _ a' = (a_pas _ _ a ++ c)%list /\ Forall2 (fun q r => f_roll _ _ (frame_at q) = Some r) (integrations l) c;
  ad_wvs : exists c, a_wvs _ _ a' = (a_wvs _ _ a ++ c)%list /\ Forall2 (fun _ w => w = 575 # 1000000000) (integrations l) c;
  ad_wcs : exists c, a_wcs _ _ a' = (a_wcs _ _ a ++ c)%list /\ Forall2 (fun q w => w = f_wcs _ _ (frame_at q)) (integrations l) c;
  ad_scale : exists c, a_scale _ _ a' = (a_scale _ _ a ++ c)%list /\ Forall2 (fun f s => exists x, f_scale _ _ f = Some x /\ s = val x * 1000) l c }.
Lemma times_ints : forall (f : frame) x y, f_x _ _ f = Some x -> f_y _ _ f = Some y -> frame_ints f (times (List.length (images (f_data _ _ f))) [x; y]).
Proof.
  intros f x y X Y. unfold frame_ints, integer_star. rewrite X, Y. destruct (images (f_data _ _ f)) as [|i l].
  - cbn. split; [discriminate|intros (H & _); congruence].
  - cbn [List.length times app int_array forallb]. transitivity (is_int x = true /\ is_int y = true).
    + split; [intros H; apply andb_true_iff in H; destruct H as (H1 & H); apply andb_true_iff in H; tauto|]. intros (H1 & H2). rewrite H1, H2. cbn [andb]. generalize (List.length l) as n. induction n as [|n IH]; [reflexivity|]. cbn [times app forallb]. rewrite H1, H2. exact IH.
    + split; [intros (A & B); split; [discriminate|]; destruct x, y; try discriminate; split; eexists; reflexivity|]. intros (_ & (z & A) & (z' & B)). injection A as ->. injection B as ->. auto.
Qed.
Lemma integrations_cons : forall f l, integrations (f :: l) = (of_frame f ++ integrations l)%list.
Proof. reflexivity. Qed.
Lemma concat_even : forall c : list (list num), even_all c -> Nat.even (List.length (List.concat c)) = true.
Proof. induction c as [|x c IH]; intros H; [reflexivity|]. cbn [List.concat]. rewrite app_length, Nat.even_add, (H x (or_introl eq_refl)), IH; [reflexivity|]. intros l L. apply H. right. exact L. Qed.
Lemma adds_cons : forall a f l a1 a' , (exists h w sc x y roll, has_shape _ (f_data _ _ f) h w /\ f_scale _ _ f = Some sc /\ f_x _ _ f = Some x /\ f_y _ _ f = Some y /\ f_roll _ _ f = Some roll /\ a1 = add_good a f (h, w) sc x y roll) ->
  adds l a1 a' -> adds (f :: l) a a'.
Proof.
  intros a f l a1 a' (h & w & sc & x & y & roll & SH & SC & X & Y & RO & ->) A. destruct A as [(d & E1 & F1) (c2 & E2 & F2 & V2 & I2) (c3 & E3 & F3) (c4 & E4 & F4) (c5 & E5 & F5) (c6 & E6 & F6) (c7 & E7 & F7)]. unfold add_good in *. cbn [a_input a_centers a_names a_pas a_wvs a_wcs a_scale] in *.
  assert (TM : forall {B} (R : frame * nat * img -> B -> Prop) b, (forall q, In q (of_frame f) -> R q b) -> Forall2 R (of_frame f) (times (List.length (images (f_data _ _ f))) [b])) by (intros B R b H; rewrite <- of_frame_len; apply f2_times; exact H).
  constructor.
  - eexists. split; [rewrite E1, <- app_assoc; reflexivity|]. constructor; [split; [exact SH|reflexivity]|exact F1].
  - eexists. split; [rewrite E2, <- app_assoc; reflexivity|]. split; [|split].
    + cbn [app List.concat]. rewrite pairs_app by apply times_even. rewrite integrations_cons. apply Forall2_app; [|exact F2]. rewrite pairs_times. apply TM. intros q Q. unfold star_of. rewrite (of_frame_in f q Q). auto.
    + intros m [<-|M]; [apply times_even|exact (V2 m M)].
    + constructor; [exact (times_ints f x y X Y)|exact I2].
  - eexists. split; [rewrite E3, <- app_assoc; reflexivity|]. rewrite integrations_cons. apply Forall2_app; [apply f2_names|exact F3].
  - eexists. split; [rewrite E4, <- app_assoc; reflexivity|]. rewrite integrations_cons. apply Forall2_app; [|exact F4]. apply TM. intros q Q. rewrite (of_frame_in f q Q). exact RO.
  - eexists. split; [rewrite E5, <- app_assoc; reflexivity|]. rewrite integrations_cons. apply Forall2_app; [|exact F5]. apply TM. intros q Q. reflexivity.
  - eexists. split; [rewrite E6, <- app_assoc; reflexivity|]. rewrite integrations_cons. apply Forall2_app; [|exact F6]. apply TM. intros q Q. rewrite (of_frame_in f q Q). reflexivity.
  - eexists. split; [rewrite E7, <- app_assoc; reflexivity|]. constructor; [exists sc; auto|exact F7].
Qed.
Lemma frames_got : forall (l : list frame) a a', add_frames _ _ a l = Got a' -> Forall good l /\ adds l a a'.
Proof.
  induction l as [|f l IH]; intros a a' H; cbn [add_frames] in H.
  - injection H as <-. split; [constructor|]. constructor; exists []; rewrite ?app_nil_r; repeat split; try constructor. intros ? [].
  - apply rbind_got in H. destruct H as (a1 & F & H). apply frame_got in F. destruct F as (G & F). destruct (IH a1 a' H) as (GL & AD). split; [constructor; assumption|]. exact (adds_cons a f l a1 a' F AD).
Qed.
Lemma good_adds : forall a (f : frame), good f -> exists a', add_frame _ _ a f = Got a'.
Proof.
  intros a f G. pose proof G as (T & I & C & (h & w & D) & (S1 & S2 & S3) & RO). destruct (f_scale _ _ f) as [sc|] eqn:E1; [|congruence]. destruct (f_x _ _ f) as [x|] eqn:E2; [|congruence]. destruct (f_y _ _ f) as [y|] eqn:E3; [|congruence]. destruct (f_roll _ _ f) as [r|] eqn:E4; [|congruence].
  eexists. apply frame_got. split; [exact G|]. exists h, w, sc, x, y, r. repeat split; eassumption || reflexivity.
Qed.
Lemma frames_total : forall (l : list frame) a, Forall good l -> exists a', add_frames _ _ a l = Got a'.
Proof. induction l as [|f l IH]; intros a H; cbn [add_frames]; [exists a; reflexivity|]. inversion H as [|? ? G GL]; subst. destruct (good_adds a f G) as (a1 & ->). exact (IH a1 GL). Qed.
Lemma frames_fails : forall (l : list frame) a e, add_frames _ _ a l = Fails e <-> exists l1 f l2, l = (l1 ++ f :: l2)%list /\ Forall good l1 /\ frame_fault _ _ f e.
Proof.
  induction l as [|f l IH]; intros a e; cbn [add_frames].
  - split; [discriminate|intros ([|u v] & g & l2 & E & _); discriminate E].
  - rewrite rbind_fails. split.
    + intros [H|(a1 & F & H)]; [exists [], f, l; split; [reflexivity|split; [constructor|exact (proj1 (frame_fails a f e) H)]]|]. apply frame_got in F. destruct F as (G & _). apply IH in H. destruct H as (l1 & g & l2 & -> & GL & FF). exists (f :: l1), g, l2. split; [reflexivity|]. split; [constructor; assumption|exact FF].
    + intros (l1 & g & l2 & E & GL & FF). destruct l1 as [|f' l1]; cbn [app] in E; injection E as -> ->; [left; apply frame_fails; exact FF|]. inversion GL as [|? ? G GL']; subst. destruct (good_adds a f' G) as (a1 & F). right. exists a1. split; [exact F|]. apply IH. exists l1, g, l2. auto.
Qed.
Lemma good_no_fault : forall (f : frame) e, good f -> ~ frame_fault _ _ f e.
Proof. intros f e G F. destruct (good_adds (mkacc _ _ [] [] [] [] [] [] []) f G) as (a' & A). apply (frame_fails (mkacc _ _ [] [] [] [] [] [] [])) in F. congruence. Qed.
End Proofs.
