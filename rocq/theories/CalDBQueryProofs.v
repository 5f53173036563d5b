From Coq Require Import List ZArith QArith Qabs Bool Lia String Ascii.
From Verif Require Import Base BaseProofs CalDBModel CalDBSpec CalDBProofs.
Import ListNotations.
Local Open Scope string_scope.
Local Open Scope list_scope.

Lemma filter_split {A} (f : A -> bool) : forall d i r,
  nth_error (filter f d) i = Some r ->
  exists b a, d = b ++ r :: a /\ f r = true /\ List.length (filter f b) = i.
Proof.
  induction d as [|x d IH]; cbn; intros i r H; [destruct i; discriminate|].
  destruct (f x) eqn:E.
  - destruct i as [|i]; cbn in H.
    + injection H as ->. exists [], d. auto.
    + destruct (IH i r H) as (b & a & -> & Hr & <-). exists (x :: b), a. cbn. rewrite E. auto.
  - destruct (IH i r H) as (b & a & -> & Hr & <-). exists (x :: b), a. cbn. rewrite E. auto.
Qed.

Definition eligible_b (frame : option entry) (c : cls) (r : row) : bool :=
  match labels c with
  | None => false
  | Some lab =>
    String.eqb (r_type r) lab &&
    match frame with
    | None => true
    | Some f => if String.eqb lab "Dark"
                then match e_exptime f with Some ex => Qeq_bool (r_exptime r) ex | None => true end
                else true
    end
  end.

Lemma label_dark c : labels c = Some "Dark" <-> c = Dark.
Proof. destruct c; cbn; split; congruence. Qed.

Lemma eligible_b_ok frame c r : eligible_b frame c r = true <-> Eligible frame c r.
Proof.
  unfold eligible_b, Eligible. destruct (labels c) as [lab|] eqn:EL.
  2:{ split; [discriminate|intros [H _]; discriminate]. }
  rewrite andb_true_iff, String.eqb_eq. split.
  - intros [-> H2]. split; [reflexivity|]. intros -> f ex -> Hex. cbn in EL. injection EL as <-.
    cbn in H2. rewrite Hex in H2. apply Qeq_bool_iff. exact H2.
  - intros [H1 H2]. injection H1 as ->. split; [reflexivity|].
    destruct frame as [f|]; [|reflexivity].
    destruct (String.eqb_spec (r_type r) "Dark") as [E|N]; [|reflexivity].
    destruct (e_exptime f) as [ex|] eqn:Eex; [|reflexivity].
    apply Qeq_bool_iff. eapply H2; [|reflexivity|exact Eex].
    apply label_dark. congruence.
Qed.

Definition key (frame : option entry) (r : row) : Q :=
  match frame with
  | None => r_created r
  | Some f => match e_sctsrt f with Some t => Qabs (r_mjd r - t) | None => 0 end
  end.

Lemma readable_row f : ReadableFrame f <->
  exists fr, row_of_entry false f = Ok fr
        /\ e_sctsrt f = Some (r_mjd fr) /\ e_exptime f = Some (r_exptime fr).
Proof.
  unfold row_of_entry, ReadableFrame. destruct f as [p c st ex nf ct ve ob ha sh om eg xc];
    cbn [e_path e_class e_sctsrt e_exptime e_drpnfile e_drpctime e_drpversn e_obsnum e_hash e_shape e_opmode e_emgain e_excamt].
  cbn [bind]. split.
  - intros (H1 & H2 & H3 & H4 & H5 & H6 & H7).
    destruct st as [st|]; [|congruence]. destruct ex as [ex|]; [|congruence].
    destruct ob as [ob|]; [|congruence]. destruct om as [om|]; [|congruence].
    destruct eg as [eg|]; [|congruence]. destruct xc as [xc|]; [|congruence].
    cbn [getkey bind]. unfold shape_last.
    assert (exists n1 l, rev sh = n1 :: l) as (n1 & l & EQ).
    { destruct (rev sh) eqn:E; [|eauto]. apply (f_equal (@rev Z)) in E.
      rewrite rev_involutive in E. cbn in E. congruence. }
    rewrite EQ. cbn [nth_error bind].
    assert (List.length sh = S (List.length l)) as EL by (rewrite <- rev_length, EQ; reflexivity).
    destruct (Nat.ltb (List.length sh) 2) eqn:EB; cbn [bind].
    + eexists. split; [reflexivity|]. cbn. auto.
    + destruct l as [|n2 l]; [apply Nat.ltb_ge in EB; cbn in EL; lia|]. cbn [bind].
      eexists. split; [reflexivity|]. cbn. auto.
  - intros (fr & H & _). revert H.
    destruct st as [st|]; cbn [getkey bind]; [|discriminate].
    destruct ex as [ex|]; cbn [getkey bind]; [|discriminate].
    destruct ob as [ob|]; cbn [getkey bind]; [|discriminate].
    destruct (shape_last sh 0) as [n1|] eqn:E1; cbn [bind]; [|discriminate].
    destruct (if Nat.ltb (List.length sh) 2 then Ok 0%Z else shape_last sh 1) as [n2|]; cbn [bind]; [|discriminate].
    destruct om as [om|]; cbn [getkey bind]; [|discriminate].
    destruct eg as [eg|]; cbn [getkey bind]; [|discriminate].
    destruct xc as [xc|]; cbn [getkey bind]; [|discriminate].
    intros _. repeat split; try congruence. intros ->. discriminate.
Qed.

Lemma filter_filter {A} (f g : A -> bool) l :
  filter f (filter g l) = filter (fun x => g x && f x) l.
Proof.
  induction l as [|x l IH]; [reflexivity|]. cbn. destruct (g x); cbn; [destruct (f x)|]; rewrite ?IH; reflexivity.
Qed.

Lemma get_calib_unfold frame c d lab :
  labels c = Some lab -> readable frame ->
  get_calib frame c d =
  let options := filter (eligible_b frame c) d in
  match frame with
  | None => pick (argmax (map (key frame) options)) options
  | Some _ => pick (argmin (map (key frame) options)) options
  end.
Proof.
  intros EL HR. unfold get_calib. rewrite EL. destruct frame as [f|]; cbn zeta.
  - destruct (proj1 (readable_row f) HR) as (fr & -> & Et & Ex). cbn [bind].
    assert (E : (if String.eqb lab "Dark"
       then filter (fun r : row => Qeq_bool (r_exptime r) (r_exptime fr))
              (filter (fun r : row => String.eqb (r_type r) lab) d)
       else filter (fun r : row => String.eqb (r_type r) lab) d)
       = filter (eligible_b (Some f) c) d).
    { unfold eligible_b. rewrite EL, Ex. destruct (String.eqb lab "Dark") eqn:ED.
      - rewrite filter_filter. reflexivity.
      - apply filter_ext. intro r. rewrite andb_true_r. reflexivity. }
    rewrite E. f_equal. f_equal. apply map_ext. intro r. cbn. rewrite Et. reflexivity.
  - assert (E : filter (fun r : row => String.eqb (r_type r) lab) d = filter (eligible_b None c) d).
    { unfold eligible_b. rewrite EL. apply filter_ext. intro r. rewrite andb_true_r. reflexivity. }
    rewrite E. reflexivity.
Qed.

Lemma nth_error_filter_in {A} (f : A -> bool) b r a :
  f r = true -> nth_error (filter f (b ++ r :: a)) (List.length (filter f b)) = Some r.
Proof.
  intro H. rewrite filter_app. cbn. rewrite H. rewrite nth_error_app2 by lia.
  rewrite Nat.sub_diag. reflexivity.
Qed.

Lemma get_calib_best_sound frame c d p :
  readable frame -> get_calib frame c d = Ok p -> exists r, Best frame c d r /\ r_path r = p.
Proof.
  intros HR H. destruct (labels c) as [lab|] eqn:EL; [|unfold get_calib in H; rewrite EL in H; discriminate].
  rewrite (get_calib_unfold frame c d lab EL HR) in H. cbn zeta in H.
  set (opts := filter (eligible_b frame c) d) in *.
  assert (forall r i, nth_error opts i = Some r ->
          (forall j x, nth_error opts j = Some x -> (j < i)%nat -> Better frame r x) ->
          (forall j x, nth_error opts j = Some x -> AsGood frame r x) ->
          Best frame c d r) as Mk.
  { intros r i Hi Hb Hg. unfold opts in *. destruct (filter_split _ _ _ _ Hi) as (b & a & -> & Hr & HL).
    exists b, a. split; [reflexivity|]. split; [apply eligible_b_ok; exact Hr|]. split.
    - intros r' Hin HE. apply eligible_b_ok in HE.
      assert (In r' (filter (eligible_b frame c) b)) as Hf by (apply filter_In; auto).
      apply In_nth_error in Hf. destruct Hf as [j Hj].
      assert (j < List.length (filter (eligible_b frame c) b))%nat by (apply nth_error_Some; congruence).
      apply (Hb j r'); [|lia]. rewrite filter_app. rewrite nth_error_app1 by assumption. exact Hj.
    - intros r' Hin HE. apply eligible_b_ok in HE.
      assert (In r' (filter (eligible_b frame c) (b ++ r :: a))) as Hf.
      { apply filter_In. split; [|exact HE]. apply in_app_iff. right. right. exact Hin. }
      apply In_nth_error in Hf. destruct Hf as [j Hj]. apply (Hg j r' Hj). }
  destruct frame as [f|].
  - destruct (argmin (map (key (Some f)) opts)) as [i|] eqn:EA; [|discriminate].
    cbn [pick] in H. destruct (nth_error opts i) as [r|] eqn:ER; [|discriminate]. injection H as <-.
    exists r. split; [|reflexivity].
    apply argmin_spec in EA. destruct EA as (b & Hb & H1 & H2).
    rewrite nth_error_map, ER in Hb. cbn in Hb. injection Hb as <-.
    apply (Mk r i ER).
    + intros j x Hj Hlt t Ht. specialize (H1 j (key (Some f) x)).
      rewrite nth_error_map, Hj in H1. specialize (H1 eq_refl Hlt). cbn in H1. rewrite Ht in H1. exact H1.
    + intros j x Hj t Ht. specialize (H2 j (key (Some f) x)).
      rewrite nth_error_map, Hj in H2. specialize (H2 eq_refl). cbn in H2. rewrite Ht in H2. exact H2.
  - destruct (argmax (map (key None) opts)) as [i|] eqn:EA; [|discriminate].
    cbn [pick] in H. destruct (nth_error opts i) as [r|] eqn:ER; [|discriminate]. injection H as <-.
    exists r. split; [|reflexivity].
    apply argmax_spec in EA. destruct EA as (b & Hb & H1 & H2).
    rewrite nth_error_map, ER in Hb. cbn in Hb. injection Hb as <-.
    apply (Mk r i ER).
    + intros j x Hj Hlt. specialize (H1 j (key None x)).
      rewrite nth_error_map, Hj in H1. exact (H1 eq_refl Hlt).
    + intros j x Hj. specialize (H2 j (key None x)).
      rewrite nth_error_map, Hj in H2. exact (H2 eq_refl).
Qed.

Lemma get_calib_total frame c d :
  readable frame ->
  (exists p, get_calib frame c d = Ok p) \/
  (get_calib frame c d = Raise ValueError /\ forall r, In r d -> ~ Eligible frame c r).
Proof.
  intro HR. destruct (labels c) as [lab|] eqn:EL.
  2:{ right. unfold get_calib. rewrite EL. split; [reflexivity|]. intros r _ [H _]. congruence. }
  rewrite (get_calib_unfold frame c d lab EL HR). cbn zeta.
  destruct (filter (eligible_b frame c) d) as [|r0 opts] eqn:EO.
  - right. split; [destruct frame; reflexivity|]. intros r Hin HE. apply eligible_b_ok in HE.
    assert (In r []) as [] by (rewrite <- EO; apply filter_In; auto).
  - left. destruct frame as [f|].
    + destruct (argmin (map (key (Some f)) (r0 :: opts))) as [i|] eqn:EA;
        [|apply argmin_none in EA; discriminate].
      pose proof (argmin_spec _ _ EA) as (b & Hb & _). rewrite nth_error_map in Hb.
      unfold pick. destruct (nth_error (r0 :: opts) i); [eauto|discriminate].
    + destruct (argmax (map (key None) (r0 :: opts))) as [i|] eqn:EA;
        [|apply argmax_none in EA; discriminate].
      pose proof (argmax_spec _ _ EA) as (b & Hb & _). rewrite nth_error_map in Hb.
      unfold pick. destruct (nth_error (r0 :: opts) i); [eauto|discriminate].
Qed.

Lemma best_unique frame c d r1 r2 :
  readable frame -> Best frame c d r1 -> Best frame c d r2 -> r1 = r2.
Proof.
  intros HR (b1 & a1 & E1 & El1 & B1 & G1) (b2 & a2 & E2 & El2 & B2 & G2).
  assert (Contra : forall x y, Better frame x y -> AsGood frame y x -> False).
  { intros x y. destruct frame as [f|]; cbn.
    - destruct HR as (HR & _). destruct (e_sctsrt f) as [t|]; [|congruence].
      intros H1 H2. specialize (H1 t eq_refl). specialize (H2 t eq_refl).
      apply (Qlt_not_le _ _ H1 H2).
    - intros H1 H2. apply (Qlt_not_le _ _ H1 H2). }
  rewrite E1 in E2. clear E1 d.
  revert b2 E2 B2. induction b1 as [|x b1 IH]; intros b2 E2 B2.
  - destruct b2 as [|y b2]; cbn in E2; injection E2 as ? E2.
    + assumption.
    + exfalso. subst y. apply (Contra r2 r1).
      * apply B2; [left; reflexivity|exact El1].
      * apply G1; [|exact El2]. rewrite E2. apply in_app_iff. right. left. reflexivity.
  - destruct b2 as [|y b2]; cbn in E2; injection E2 as ? E2.
    + exfalso. subst x. apply (Contra r1 r2).
      * apply B1; [left; reflexivity|exact El2].
      * apply G2; [|exact El1]. rewrite <- E2. apply in_app_iff. right. left. reflexivity.
    + apply (IH (fun r' Hi => B1 r' (or_intror Hi)) b2 E2). intros r' Hi. apply B2. right. exact Hi.
Qed.

Lemma get_calib_best frame c d p :
  readable frame ->
  (get_calib frame c d = Ok p <-> exists r, Best frame c d r /\ r_path r = p).
Proof.
  intro HR. split; [apply get_calib_best_sound; exact HR|].
  intros (r & Hb & <-). destruct (get_calib_total frame c d HR) as [[q Hq]|[_ Hn]].
  - destruct (get_calib_best_sound frame c d q HR Hq) as (r' & Hb' & <-).
    rewrite Hq. rewrite (best_unique frame c d r r' HR Hb Hb'). reflexivity.
  - destruct Hb as (b & a & -> & He & _). exfalso. apply (Hn r); [|exact He].
    apply in_app_iff. right. left. reflexivity.
Qed.

Lemma get_calib_none frame c d :
  readable frame ->
  (get_calib frame c d = Raise ValueError <-> forall r, In r d -> ~ Eligible frame c r)
  /\ (forall x, get_calib frame c d = Raise x -> x = ValueError).
Proof.
  intro HR. destruct (get_calib_total frame c d HR) as [[q Hq]|[Hv Hn]].
  - split; [|intros x Hx; congruence]. split; [congruence|]. intro Hn.
    destruct (get_calib_best_sound frame c d q HR Hq) as (r & (b & a & -> & He & _) & _).
    exfalso. apply (Hn r); [|exact He]. apply in_app_iff. right. left. reflexivity.
  - split; [tauto|intros x Hx; congruence].
Qed.

Lemma get_calib_unreadable f c d :
  ~ ReadableFrame f -> exists x, get_calib (Some f) c d = Raise x.
Proof.
  intro H. unfold get_calib. destruct (labels c); [|eauto].
  destruct (row_of_entry false f) as [fr|x] eqn:E; cbn [bind]; [|eauto].
  exfalso. apply H. apply readable_row. exists fr. split; [exact E|].
  revert E. unfold row_of_entry. cbn [bind].
  destruct (e_sctsrt f); cbn [getkey bind]; [|discriminate].
  destruct (e_exptime f); cbn [getkey bind]; [|discriminate].
  destruct (e_obsnum f); cbn [getkey bind]; [|discriminate].
  destruct (shape_last (e_shape f) 0); cbn [bind]; [|discriminate].
  destruct (if Nat.ltb (List.length (e_shape f)) 2 then Ok 0%Z else shape_last (e_shape f) 1); cbn [bind]; [|discriminate].
  destruct (e_opmode f); cbn [getkey bind]; [|discriminate].
  destruct (e_emgain f); cbn [getkey bind]; [|discriminate].
  destruct (e_excamt f); cbn [getkey bind]; [|discriminate].
  intro K. injection K as <-. cbn. auto.
Qed.
