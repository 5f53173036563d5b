From Coq Require Import List Arith Bool Lia String.
From Verif Require Import Base DatasetModel DatasetSpec DatasetProofs DatasetCopyProofs DatasetErrProofs DatasetSliceProofs SplitModel SplitProofs AliasModel AliasSpec AliasProofs.
Import ListNotations.
Local Open Scope string_scope.

Section P.
Variable V : Type.
Variable quad mul : V -> V -> V.
Variable leb : string -> string -> bool.
Variable track : bool.
Variable stamps : list (string * string).
Notation heap := (heap V).
Notation buf := (buf V). Notation nbuf := (nbuf V).
Notation hdr := (hdr V). Notation nhdr := (nhdr V).
Notation img := (img V). Notation nimg := (nimg V).
Notation Inv := (Inv V). Notation Ext := (Ext V). Notation out := (out V).

Definition Res (T : hfield -> nat -> Prop) (h0 : heap) (L : field -> Prop) (o : out) : Prop :=
  Ext T h0 (fst o) /\ forall d', snd o = Ok d' -> Inv T h0 L (fst o) d'.

Lemma inv_ext T h0 L h d : Inv T h0 L h d -> Ext T h0 h.
Proof. intros (E & _). exact E. Qed.
Lemma res_ok T h0 L h d : Inv T h0 L h d -> Res T h0 L (h, Ok d).
Proof. intro Q. split; [exact (inv_ext _ _ _ _ _ Q)|]. intros d' E. injection E as <-. exact Q. Qed.
Lemma res_raise T h0 L h e : Ext T h0 h -> Res T h0 L (h, Raise e).
Proof. intro Q. split; [exact Q|]. intros d' E. discriminate. Qed.
Lemma res_weak T h0 (L L' : field -> Prop) o : (forall f, L' f -> L f) -> Res T h0 L o -> Res T h0 L' o.
Proof. intros W [A B]. split; [exact A|]. intros d' E. eapply inv_weak; [exact W|apply B; exact E]. Qed.
Lemma res_given {A} T h0 L h (r : result A) k : Ext T h0 h -> (forall a, r = Ok a -> Res T h0 L (k a)) -> Res T h0 L (given V h r k).
Proof. intros E K. unfold given. destruct r as [a|e]; [apply K; reflexivity|apply res_raise; exact E]. Qed.
Lemma res_andthen T h0 L L' (o : out) k : Res T h0 L o -> (forall h d, Inv T h0 L h d -> Res T h0 L' (k h d)) -> Res T h0 L' (andthen V o k).
Proof.
  intros [A B] K. destruct o as [h [d|e]]; cbn [andthen fst snd] in *; [|apply res_raise; exact A]. apply K. apply B. reflexivity.
Qed.
Lemma res_after T h0 L L' d r k : (forall h' x, r = (h', x) -> Inv T h0 L h' d) -> (forall h', Inv T h0 L h' d -> Res T h0 L' (k h')) -> Res T h0 L' (after V r k).
Proof.
  intros A K. destruct r as [h' x]. specialize (A h' x eq_refl). unfold after. destruct x as [e|]; [apply res_raise; exact (inv_ext _ _ _ _ _ A)|]. apply K. exact A.
Qed.
Lemma res_copied deep h d k L' : Sound V h d ->
  (forall h' d', Inv (Tof V deep h d) h (fun _ => True) h' d' -> List.length (ds_frames d') = List.length (ds_frames d) -> Res (Tof V deep h d) h L' (k h' d')) ->
  Res (Tof V deep h d) h L' (andthen V (copied V stamps deep h d) k).
Proof.
  intros S K. unfold copied. destruct (ds_copy V deep stamps h d) as [[h' d']|e] eqn:E; cbn [andthen]; [|apply res_raise, ext_refl].
  apply K; [apply (copied_inv V stamps deep h d); assumption|].
  unfold ds_copy in E. destruct (copy_frames V deep stamps h (ds_frames d)) as [h1 fs] eqn:C.
  pose proof (new_dataset_inv V h1 fs h' d' E) as (_ & bd & be & bq & _ & _ & _ & Ed & _). rewrite Ed. cbn.
  destruct S as ((S1 & _) & _ & _ & _ & S6). destruct deep.
  - destruct (copy_frames_deep V stamps (ds_frames d) h h1 fs S1 (fun k Hk f => S6 k f Hk) C) as (_ & -> & _). apply seq_length.
  - destruct (copy_frames_shallow V stamps (ds_frames d) h h1 fs (fun k Hk => proj1 (S1 k Hk)) C) as (-> & _). apply seq_length.
Qed.
Lemma res_updated T h0 L h d hist nd ne nq en :
  (forall e, ne = Some e -> (nbuf h0 <= e < nbuf h)%nat /\ e <> ds_data d /\ e <> ds_dq d) -> Inv T h0 L h d -> Res T h0 (errgiven ne L) (updated V h d hist nd ne nq en).
Proof.
  intros He Q. unfold updated, done. destruct (update_step V h d hist nd ne nq en) as [[h' d'] x] eqn:E.
  destruct (inv_update V T h0 L h d hist nd ne nq en h' d' x He E Q) as (Q1 & Q2 & _).
  destruct x as [e|]; [apply res_raise; exact (inv_ext _ _ _ _ _ Q1)|apply res_ok; apply Q2; reflexivity].
Qed.
Lemma res_update0 T h0 L h d hist nd nq en : Inv T h0 L h d -> Res T h0 L (updated V h d hist nd None nq en).
Proof. intro Q. apply (res_updated T h0 L h d hist nd None nq en); [discriminate|exact Q]. Qed.
Lemma res_add_error T h0 L tr name h d a : Inv T h0 L h d -> Res T h0 L (done V (ds_add_error V quad tr name h d a)).
Proof.
  intro Q. unfold done, ds_add_error. destruct (err_method V _ h d a) as [[h' d'] x] eqn:E.
  destruct (fun HS => inv_err_method V T h0 L _ h d a h' d' x HS E Q) as (Q1 & Q2 & _).
  - intros h1 k e h2 y Hk E1 Q1. eapply inv_img_add; [exact Hk|exact E1|exact Q1].
  - destruct x as [e|]; [apply res_raise; exact (inv_ext _ _ _ _ _ Q1)|apply res_ok; apply Q2; reflexivity].
Qed.
Lemma res_rescale T h0 L name h d a : Inv T h0 L h d -> Res T h0 L (done V (ds_rescale V mul name h d a)).
Proof.
  intro Q. unfold done, ds_rescale. destruct (err_method V _ h d a) as [[h' d'] x] eqn:E.
  destruct (fun HS => inv_err_method V T h0 L _ h d a h' d' x HS E Q) as (Q1 & Q2 & _).
  - intros h1 k e h2 y Hk E1 Q1. eapply inv_img_rescale; [exact Hk|exact E1|exact Q1].
  - destruct x as [e|]; [apply res_raise; exact (inv_ext _ _ _ _ _ Q1)|apply res_ok; apply Q2; reflexivity].
Qed.
Lemma res_stacked T h0 L h d hist nd en bs : List.length bs = List.length (ds_frames d) -> Inv T h0 (noerr L) h d ->
  Res T h0 L (let '(h1, e) := alloc_buf V h bs in updated V h1 d hist nd (Some e) None en).
Proof.
  intros Hl Q. cbn [alloc_buf]. eapply res_weak; [|apply (res_updated T h0 (noerr L) (fst (alloc_buf V h bs)) d hist nd (Some (nbuf h)) None en)].
  - intros g G. cbn. destruct g; [left; split; [exact G|discriminate]|right; reflexivity|left; split; [exact G|discriminate]].
  - intros e E. injection E as <-. pose proof (inv_cubes_lt V T h0 _ h d FData Q) as C1. pose proof (inv_cubes_lt V T h0 _ h d FDq Q) as C2. cbn [cube] in C1, C2.
    pose proof Q as ((EB & _) & _). cbn. lia.
  - apply inv_alloc. exact Q.
Qed.

Notation top := (fun _ : field => True).

Lemma res_cards T h0 L L' h d css k : Inv T h0 L h d -> (forall h', Inv T h0 L h' d -> Res T h0 L' (k h')) -> Res T h0 L' (after V (cards V h (ds_frames d) css) k).
Proof. intros Q K. eapply res_after; [|exact K]. intros h' x E. eapply inv_cards; [|exact E|exact Q]. auto. Qed.
Lemma res_filled T h0 L L' f new h d k : Inv T h0 L h d -> (forall h', Inv T h0 L h' d -> Res T h0 L' (k h')) -> Res T h0 L' (after V (filled V f new h d) k).
Proof. intros Q K. eapply res_after; [|exact K]. intros h' x E. eapply inv_filled; [exact E|exact Q]. Qed.
Lemma res_each T h0 L L' body h d k : (forall h i k h' x, In k (ds_frames d) -> body h i k = (h', x) -> Inv T h0 L h d -> Inv T h0 L h' d) ->
  Inv T h0 L h d -> (forall h', Inv T h0 L h' d -> Res T h0 L' (k h')) -> Res T h0 L' (after V (each V body h 0 (ds_frames d)) k).
Proof. intros B Q K. eapply res_after; [|exact K]. intros h' x E. eapply inv_each; [exact B| |exact E|exact Q]. auto. Qed.
Ltac ext := first [eapply inv_ext; eassumption|apply ext_refl].

Lemma given2_put T h0 L h d (r : result (block V)) v h' x : (nbuf h0 <= fst v)%nat -> given2 V h r (put V h v) = (h', x) -> Inv T h0 L h d -> Inv T h0 L h' d.
Proof. intros Hv H Q. unfold given2 in H. destruct r as [b|]; [|injection H as <- _; exact Q]. eapply inv_put; eassumption. Qed.

(** ** New cubes *)
Lemma inv_replaced T h0 h d bd be bq : List.length bd = List.length (ds_frames d) -> List.length be = List.length (ds_frames d) -> List.length bq = List.length (ds_frames d) ->
  Inv T h0 top h d -> Inv T h0 top (fst (replaced V h d bd be bq)) (snd (replaced V h d bd be bq)).
Proof.
  intros C1 C2 C3 Q. pose proof Q as ((EB & _) & _ & (_ & S3 & _) & _).
  pose proof (inv_alloc V T h0 _ _ _ bq (inv_alloc V T h0 _ _ _ be (inv_alloc V T h0 _ h d bd Q))) as Q1.
  unfold replaced. cbn [alloc_buf fst snd].
  set (h3 := fst (alloc_buf V (fst (alloc_buf V (fst (alloc_buf V h bd)) be)) bq)) in Q1. set (ks := ds_frames d) in *.
  set (h6 := repoint V _ FDq _ 0 ks). change h6 with (repoint V (repoint V (repoint V h3 FData (nbuf h) 0 ks) FErr (S (nbuf h)) 0 ks) FDq (S (S (nbuf h))) 0 ks). clear h6.
  set (d2 := mkds _ _ _ _). change d2 with (mkds ks (nbuf h) (S (nbuf h)) (S (S (nbuf h)))). clear d2.
  assert (B3 : buf h3 = upd (upd (upd (buf h) (nbuf h) bd) (S (nbuf h)) be) (S (S (nbuf h))) bq) by reflexivity.
  assert (N3 : nbuf h3 = S (S (S (nbuf h)))) by reflexivity.
  assert (X1 : List.length (buf h3 (nbuf h)) = List.length ks) by (rewrite B3, !upd_other, upd_same by lia; exact C1).
  assert (X2 : List.length (buf h3 (S (nbuf h))) = List.length ks) by (rewrite B3, upd_other, upd_same by lia; exact C2).
  assert (X3 : List.length (buf h3 (S (S (nbuf h)))) = List.length ks) by (rewrite B3, upd_same; exact C3).
  assert (Hs : forall k, In k ks -> In k (ds_frames d)) by auto.
  assert (R1 : (nbuf h0 <= nbuf h < nbuf h3)%nat) by (rewrite N3; lia).
  assert (L1 : (0 + List.length ks <= List.length (buf h3 (nbuf h)))%nat) by lia.
  pose proof (inv_repoint V T h0 FData (nbuf h) ks _ h3 d 0 Hs R1 L1 Q1) as Q2.
  set (h4 := repoint V h3 FData _ 0 ks) in *. destruct (repoint_frame V ks h3 FData (nbuf h) 0) as (RB & RN & _). fold h4 in RB, RN.
  assert (R2 : (nbuf h0 <= S (nbuf h) < nbuf h4)%nat) by (rewrite RN, N3; lia).
  assert (L2 : (0 + List.length ks <= List.length (buf h4 (S (nbuf h))))%nat) by (rewrite RB; lia).
  pose proof (inv_repoint V T h0 FErr (S (nbuf h)) ks _ h4 d 0 Hs R2 L2 Q2) as Q3.
  set (h5 := repoint V h4 FErr _ 0 ks) in *. destruct (repoint_frame V ks h4 FErr (S (nbuf h)) 0) as (RB' & RN' & _ & _ & _ & _ & _ & RV'). fold h5 in RB', RN', RV'.
  assert (R3 : (nbuf h0 <= S (S (nbuf h)) < nbuf h5)%nat) by (rewrite RN', RN, N3; lia).
  assert (L3 : (0 + List.length ks <= List.length (buf h5 (S (S (nbuf h)))))%nat) by (rewrite RB', RB; lia).
  pose proof (inv_repoint V T h0 FDq (S (S (nbuf h))) ks _ h5 d 0 Hs R3 L3 Q3) as Q4.
  set (h6 := repoint V h5 FDq _ 0 ks) in *. destruct (repoint_frame V ks h5 FDq (S (S (nbuf h))) 0) as (RB2 & RN2 & _ & _ & _ & _ & _ & RV2). fold h6 in RB2, RN2, RV2.
  destruct Q4 as (E4 & (O1 & O2 & O3 & O4) & ((W1 & W2) & W3 & W4 & W5 & W6) & _).
  assert (NB : nbuf h6 = S (S (S (nbuf h)))) by congruence. assert (BB : buf h6 = buf h3) by congruence.
  assert (VW : forall i k f, nth_error ks i = Some k -> im_view f (img h6 k) = (cube f (mkds ks (nbuf h) (S (nbuf h)) (S (S (nbuf h)))), i)).
  { intros i k f Hi. destruct f; cbn [cube ds_data ds_err ds_dq].
    - rewrite RV2, RV' by discriminate. unfold h4. rewrite (repoint_nth V ks h3 FData _ 0 S3 i k Hi). reflexivity.
    - rewrite RV2 by discriminate. unfold h5. rewrite (repoint_nth V ks h4 FErr _ 0 S3 i k Hi). reflexivity.
    - unfold h6. rewrite (repoint_nth V ks h5 FDq _ 0 S3 i k Hi). reflexivity. }
  split; [exact E4|]. split; [|split].
  - split; [exact O1|]. split; [intros []; cbn; lia|]. split; [exact O3|exact O4].
  - split; [split; [exact W1|intros []; cbn; lia]|]. split; [exact W3|]. split; [intros [] []; cbn; intro; reflexivity || lia|].
    split; [intros []; cbn [cube ds_data ds_err ds_dq ds_frames]; rewrite BB; assumption|exact W6].
  - intros i k f Hi _. apply VW. exact Hi.
Qed.

Lemma all_cut_length cut : forall n i cs, all_cut V cut i n = Ok cs -> List.length cs = n.
Proof.
  induction n as [|n IH]; intros i cs H; cbn [all_cut] in H; [injection H as <-; reflexivity|].
  destruct (cut i) as [c|]; cbn [bind] in H; [|discriminate]. destruct (all_cut V cut (S i) n) as [t|] eqn:E; cbn [bind] in H; [|discriminate].
  injection H as <-. cbn. f_equal. eapply IH. exact E.
Qed.

Lemma goods_ge : forall bad i j, In j (goods i bad) -> (i <= j)%nat.
Proof. induction bad as [|b t IH]; intros i j H; cbn [goods] in H; [contradiction|]. destruct b; [|destruct H as [->|H]; [lia|]]; specialize (IH _ _ H); lia. Qed.
Lemma goods_nodup : forall bad i, NoDup (goods i bad).
Proof. induction bad as [|b t IH]; intro i; cbn [goods]; [constructor|]. destruct b; [apply IH|]. constructor; [|apply IH]. intro H. apply goods_ge in H. lia. Qed.

Notation call := (call V quad mul leb track stamps).
Definition linkset (s : step V) : field -> Prop := if detaches V s then fun _ => False else fun _ => True.

Lemma call_res s h d : Sound V h d -> splits_input V s = false -> Res (Tof V (negb (shares_headers V s)) h d) h (linkset s) (call s h d).
Proof.
  intros HS HP. destruct s; try discriminate; cbn [shares_headers negb call linkset detaches AliasModel.call]; unfold linkset; cbn [detaches].
  - (* prescan *) unfold prescan_biassub. apply res_given; [ext|]. intros cs Ecs. apply all_cut_length in Ecs. cbv zeta.
    destruct (homogeneous V _ && homogeneous V _ && homogeneous V _); [|apply res_raise; ext].
    apply res_copied; [exact HS|]. intros h1 d1 Q1 F1.
    pose proof (inv_replaced (Tof V false h d) h h1 d1 (map (fun c => fst (fst (fst c))) cs) (map (fun c => snd (fst (fst c))) cs) (map (fun c => snd (fst c)) cs)) as Q2.
    rewrite !map_length in Q2. specialize (Q2 ltac:(lia) ltac:(lia) ltac:(lia) Q1).
    destruct (replaced V h1 d1 _ _ _) as [h2 d2]. cbn [fst snd] in Q2.
    eapply res_cards; [exact Q2|]. intros h3 Q3. eapply res_andthen; [apply res_add_error; exact Q3|]. intros h4 d4 Q4. apply res_update0. exact Q4.
  - (* cosmic rays *) unfold detect_cosmic_rays. apply res_copied; [exact HS|]. intros h1 d1 Q1 _. apply res_given; [ext|]. intros css _.
    eapply res_cards; [exact Q1|]. intros h2 Q2. apply res_given; [ext|]. intros q _. apply res_update0. exact Q2.
  - (* nonlinearity *) unfold correct_nonlinearity. apply res_copied; [exact HS|]. intros h1 d1 Q1 _. destruct (ds_frames d1) as [|k0 t] eqn:EF; [apply res_raise; ext|]. rewrite <- EF.
    destruct (hget "EMGAIN_C" _); [|apply res_raise; ext].
    eapply res_each; [|exact Q1|].
    + intros h2 i k h3 x Hk E Q2. destruct (given2 V h2 (flag h2 d1 i) (put V h2 (im_dq (img h2 k)))) as [h4 x4] eqn:E4.
      assert (Q4 : Inv (Tof V true h d) h top h4 d1) by (eapply given2_put; [|exact E4|exact Q2]; apply (inv_new_view V _ _ _ h2 d1 FDq k Hk Q2)).
      unfold seq2 in E. destruct x4; [injection E as <- _; exact Q4|]. eapply given2_put; [|exact E|exact Q4]. apply (inv_new_cube V _ _ _ h4 d1 FData Q4).
    + intros h2 Q2. destruct hist as [m|]; [apply res_update0; exact Q2|apply res_ok; exact Q2].
  - (* levels *) unfold update_to. apply res_given; [ext|]. intros u _. apply res_copied; [exact HS|]. intros h1 d1 Q1 _.
    eapply res_cards; [exact Q1|]. intros h2 Q2. apply res_update0. exact Q2.
  - (* photon noise *) unfold add_photon_noise. apply res_copied; [exact HS|]. intros h1 d1 Q1 _. eapply res_each; [|apply inv_noerr; exact Q1|].
    + intros h2 i k h3 x Hk E Q2. unfold given2 in E. destruct (noise h2 d1 i) as [e|]; [|injection E as <- _; exact Q2]. eapply inv_img_add; eassumption.
    + intros h2 Q2. unfold stacked. apply res_given; [ext|]. intros bs Eb. eapply res_stacked; [|exact Q2].
      exact (proj1 (gather_ok V _ _ _ _ (collect_ok V _ _ _ _ Eb))).
  - (* flat *) unfold flat_division. apply res_copied; [exact HS|]. intros h1 d1 Q1 _. apply res_given; [ext|]. intros [[bd bq] inv] _.
    eapply res_andthen; [apply res_rescale; exact Q1|]. intros h2 d2 Q2. apply res_given; [ext|]. intros es _.
    eapply res_andthen; [apply res_add_error; exact Q2|]. intros h3 d3 Q3. apply res_update0. exact Q3.
  - (* frame selection *) unfold frame_select. apply res_copied; [exact HS|]. intros h1 d1 Q1 _. apply res_given; [ext|]. intros [css bad] _.
    eapply res_cards; [exact Q1|]. intros h2 Q2. destruct (goods 0 bad) as [|g t] eqn:EG; [apply res_raise; ext|]. rewrite <- EG. destruct discard; [|apply res_update0; exact Q2].
    destruct (getitem V h2 d1 (goods 0 bad)) as [[h3 d3]|e] eqn:E; [|apply res_raise; ext]. apply res_update0.
    exact (proj2 (inv_getitem V _ _ _ h2 d1 (goods 0 bad) h3 d3 (goods_nodup bad 0) E Q2)).
  - (* electrons *) unfold convert_to_electrons. apply res_copied; [exact HS|]. intros h1 d1 Q1 _. apply res_given; [ext|]. intros be _.
    eapply res_filled; [exact Q1|]. intros h2 Q2. cbn [alloc_buf].
    pose proof (inv_cubes_lt V _ _ _ h2 d1 FData Q2) as C1. pose proof (inv_cubes_lt V _ _ _ h2 d1 FDq Q2) as C2. cbn [cube] in C1, C2.
    eapply res_weak; [|apply res_updated].
    + intros f _. left. exact I.
    + intros e E. injection E as <-. pose proof Q2 as ((EB & _) & _). cbn. lia.
    + apply (inv_alloc V _ _ _ h2 d1 be Q2).
  - (* gain *) unfold em_gain_division. apply res_copied; [exact HS|]. intros h1 d1 Q1 _. eapply res_each; [|exact Q1|].
    + intros h2 i k h3 x Hk E Q2. destruct (given2 V h2 (data h2 d1 i) (put V h2 (ds_data d1, i))) as [h4 x4] eqn:E4.
      assert (Q4 : Inv (Tof V true h d) h top h4 d1) by (eapply given2_put; [|exact E4|exact Q2]; apply (inv_new_cube V _ _ _ h2 d1 FData Q2)).
      unfold seq2 in E. destruct x4; [injection E as <- _; exact Q4|]. eapply given2_put; [|exact E|exact Q4]. apply (inv_new_cube V _ _ _ h4 d1 FErr Q4).
    + intros h2 Q2. destruct (split_dataset V leb h2 d1 None _) as [[[h3 subs] keys]|e] eqn:E; [|apply res_raise; ext].
      pose proof (inv_split V leb _ _ _ _ _ _ _ _ _ _ E Q2) as Q3.
      eapply res_weak; [|apply res_updated; [|exact Q3]]; [intros f []|]. intros e Ee. injection Ee as <-.
      pose proof Q3 as (_ & (_ & N2 & _) & ((_ & S2) & _ & S4 & _) & _). split; [split; [apply (N2 FErr)|apply (S2 FErr)]|].
      split; intro X; [specialize (S4 FErr FData X)|specialize (S4 FErr FDq X)]; discriminate.
  - (* CTI *) unfold cti_correction. pose proof (res_copied true h d (fun h d => (h, Ok d)) top HS (fun h' d' Q _ => res_ok _ _ _ _ _ Q)) as R.
    unfold copied in *. destruct (ds_copy V true stamps h d) as [[h' d']|e]; exact R.
  - (* bad pixels *) unfold correct_bad_pixels. apply res_copied; [exact HS|]. intros h1 d1 Q1 _. apply res_given; [ext|]. intros q _.
    eapply res_filled; [exact Q1|]. intros h2 Q2. apply res_update0. exact Q2.
  - (* desmear *) unfold desmear. apply res_copied; [exact HS|]. intros h1 d1 Q1 _. eapply res_filled; [exact Q1|]. intros h2 Q2. apply res_update0. exact Q2.
  - (* WCS *) unfold create_wcs. apply res_copied; [exact HS|]. intros h1 d1 Q1 _. apply res_given; [ext|]. intros css _.
    eapply res_cards; [exact Q1|]. intros h2 Q2. apply res_update0. exact Q2.
  - (* exposure time *) unfold divide_by_exptime. apply res_copied; [exact HS|]. intros h1 d1 Q1 _.
    set (N := noerr (fun _ : field => False)).
    assert (QN : Inv (Tof V true h d) h N h1 d1) by (eapply inv_weak; [|exact Q1]; intros f _; exact I).
    eapply res_each; [|exact QN|].
    + intros h2 i k h3 x Hk E Q2. unfold given2 in E. destruct (data h2 d1 i) as [[b e]|]; [|injection E as <- _; exact Q2]. cbn [fst snd] in E. cbv zeta in E.
      assert (Q3 : Inv (Tof V true h d) h N (own_data V h2 k b) d1).
      { unfold own_data. cbn [alloc_buf]. eapply inv_weak; [|apply (inv_view V _ _ N (fst (alloc_buf V h2 [b])) d1 k FData (nbuf h2, 0) Hk)].
        - intros f [[] _].
        - cbn. pose proof Q2 as ((EB & _) & _). lia.
        - cbn. rewrite upd_same. discriminate.
        - apply inv_alloc. exact Q2. }
      destruct (img_rescale V mul _ (own_data V h2 k b) k e) as [h4 x4] eqn:E4.
      assert (Q4 : Inv (Tof V true h d) h N h4 d1) by (eapply inv_img_rescale; eassumption).
      unfold seq2 in E. destruct x4; injection E as <- _; [exact Q4|]. apply (inv_hdr V _ _ N h4 d1 k HExt); auto.
    + intros h2 Q2. apply res_given; [ext|]. intros bd _. unfold stacked. apply res_given; [ext|]. intros bs Eb.
      eapply res_stacked; [|exact Q2]. exact (proj1 (gather_ok V _ _ _ _ (collect_ok V _ _ _ _ Eb))).
Qed.

(** ** Any step *)
Definition Outcome (s : step V) (h : heap) (d : dataset) (h' : heap) (r : result dataset) : Prop :=
  exists h1, Kept V h h1 /\ (splits_input V s = false -> h1 = h) /\ Res (Tof V (negb (shares_headers V s)) h1 d) h1 (linkset s) (h', r).

Lemma call_outcome s h d h' r : Sound V h d -> call s h d = (h', r) -> Outcome s h d h' r.
Proof.
  intros HS H. destruct (splits_input V s) eqn:P.
  - destruct s; try discriminate. cbn [AliasModel.call] in H. unfold dark_subtraction in H.
    destruct (split_dataset V leb h d None _) as [[[h1 subs] keys]|e] eqn:E.
    + assert (K : Kept V h h1) by (eapply kept_split; [apply HS|exact E]).
      destruct (1 <? List.length keys)%nat.
      { exists h1. split; [exact K|]. split; [cbn; discriminate|]. rewrite <- H. apply res_raise, ext_refl. }
      destruct (again V leb maps h1 d) as [h2|e] eqn:E2; cbn [given] in H.
      * assert (K2 : Kept V h1 h2).
        { unfold again in E2. destruct maps; [|injection E2 as <-; apply kept_refl].
          destruct (split_dataset V leb h1 d None _) as [[[h3 subs3] keys3]|e] eqn:E3; cbn [bind fst] in E2; [|discriminate]. injection E2 as <-.
          eapply kept_split; [apply HS|exact E3]. }
        exists h2. pose proof (kept_trans V h h1 h2 K K2) as K3. split; [exact K3|]. split; [cbn; discriminate|].
        pose proof (kept_sound V h h2 d K3 HS) as S1. rewrite <- H. cbn [shares_headers negb]. unfold linkset. cbn [detaches].
        apply res_copied; [exact S1|]. intros h3 d3 Q2 _. apply res_given; [ext|]. intros [[bd e] bq] _.
        eapply res_andthen; [apply res_add_error; exact Q2|]. intros h4 d4 Q3. apply res_update0. exact Q3.
      * exists h1. split; [exact K|]. split; [cbn; discriminate|]. rewrite <- H. apply res_raise, ext_refl.
    + injection H as <- <-. exists h. split; [apply kept_refl|]. split; [cbn; discriminate|]. apply res_raise, ext_refl.
  - exists h. split; [apply kept_refl|]. split; [reflexivity|]. rewrite <- H. apply call_res; assumption.
Qed.

Lemma same_pixels_trans h1 h2 h3 o : SamePixels V h1 o h2 -> SamePixels V h2 o h3 -> SamePixels V h1 o h3.
Proof. intros A B f i l p. destruct (A f i l p), (B f i l p). split; congruence. Qed.

Lemma pixels_kept s h d o h' r : Sound V h d -> Sound V h o -> call s h d = (h', r) -> Sound V h' o /\ SamePixels V h o h'.
Proof.
  intros HS HO H. destruct (call_outcome s h d h' r HS H) as (h1 & K & _ & (E & _)). cbn [fst] in E.
  pose proof (kept_sound V h h1 o K HO) as S1. split; [eapply ext_sound; eassumption|].
  eapply same_pixels_trans; [eapply kept_pixels; eassumption|eapply ext_pixels; eassumption].
Qed.

Lemma headers_kept s h d o h' r role i : Sound V h d -> Sound V h o -> call s h d = (h', r) ->
  (shares_headers V s = true -> forall k, nth_error (ds_frames o) i = Some k -> ~ HeaderOf V h d (im_hdr role (img h k))) ->
  frame_header V h' o role i = frame_header V h o role i.
Proof.
  intros HS HO H N. destruct (call_outcome s h d h' r HS H) as (h1 & K & _ & (E & _)). cbn [fst] in E.
  unfold frame_header. destruct (nth_error (ds_frames o) i) as [k|] eqn:Ek; [|reflexivity]. f_equal.
  pose proof (kept_sound V h h1 o K HO) as ((S1 & _) & _). destruct (S1 k (nth_error_In _ _ Ek)) as (Q1 & _ & Q3).
  destruct K as (_ & _ & _ & _ & K5 & K6 & _). destruct E as (_ & _ & _ & _ & E5 & E6). rewrite (E6 k Q1).
  rewrite E5; [rewrite K6, K5; reflexivity|apply Q3| |].
  - intros (D & k' & Hk' & Ea). apply negb_false_iff in D. apply (N D k eq_refl). exists k'. rewrite !K6 in Ea. auto.
  - intros (D & k' & Hk' & Ea). apply negb_false_iff in D. apply (N D k eq_refl). exists k'. rewrite !K6 in Ea. auto.
Qed.

Lemma result_apart s h d o h' d' : Sound V h d -> Sound V h o -> call s h d = (h', Ok d') ->
  Sound V h' d' /\ PixelSeparate V h' d' o /\ (shares_headers V s = false -> Separate V h' d' o).
Proof.
  intros HS HO H. destruct (call_outcome s h d h' _ HS H) as (h1 & K & _ & (E & R)). cbn [fst snd] in E, R. specialize (R d' eq_refl).
  pose proof (kept_sound V h h1 o K HO) as ((S1 & S2) & _). destruct R as (_ & (N1 & N2 & N3 & N4) & SD & _). destruct E as (_ & _ & _ & _ & _ & E6).
  assert (P1 : forall k, In k (ds_frames d') -> ~ In k (ds_frames o)).
  { intros k Hk Ho. specialize (N1 k Hk). destruct (S1 k Ho) as (Q1 & _). lia. }
  assert (P2 : forall b, Reaches V h' d' b -> ~ Reaches V h' o b).
  { intros b Hd Ho. assert (A : (nbuf h1 <= b)%nat) by (destruct Hd as [(f & ->)|(k & f & Hk & ->)]; auto).
    assert (B : (b < nbuf h1)%nat) by (destruct Ho as [(f & ->)|(k & f & Hk & ->)]; [apply S2|]; destruct (S1 k Hk) as (Q1 & Q2 & _); rewrite E6 by exact Q1; apply Q2). lia. }
  split; [exact SD|]. split; [split; assumption|]. intro Sh. split; [exact P1|]. split; [exact P2|].
  intros k1 k2 f1 f2 H1 H2 X. destruct (S1 k2 H2) as (Q1 & _ & Q3). specialize (Q3 f2). rewrite (E6 k2 Q1) in X.
  destruct (N4 k1 f1 H1) as [Y|[Y _]]; [lia|]. rewrite Sh in Y. discriminate.
Qed.

Lemma result_linked s h d h' d' : Sound V h d -> detaches V s = false -> call s h d = (h', Ok d') -> Linked V h' d'.
Proof.
  intros HS D H. destruct (call_outcome s h d h' _ HS H) as (h1 & _ & _ & (_ & R)). cbn [fst snd] in R. specialize (R d' eq_refl).
  eapply inv_linked; [|exact R]. intro f. unfold linkset. rewrite D. exact I.
Qed.

Lemma others_linked s h d o h' r : Sound V h d -> Sound V h o -> splits_input V s = false -> Linked V h o -> call s h d = (h', r) -> Linked V h' o.
Proof.
  intros HS HO P K H. destruct (call_outcome s h d h' r HS H) as (h1 & _ & Eq & (E & _)). rewrite (Eq P) in E. eapply ext_linked; eassumption.
Qed.

(** ** Histories *)
Notation history := (history V quad mul leb track stamps).
Lemma history_kept : forall calls h pool h' pool', Forall (Sound V h) pool -> history h pool calls = (h', pool') ->
  exists more, pool' = (pool ++ more)%list /\ Forall (Sound V h') pool' /\ (forall o, In o pool -> SamePixels V h o h')
  /\ ((forall c, In c calls -> shares_headers V (fst c) = false) -> forall o role i, In o pool -> frame_header V h' o role i = frame_header V h o role i).
Proof.
  induction calls as [|[s i] t IH]; intros h pool h' pool' HP H; cbn [AliasModel.history] in H.
  - injection H as <- <-. exists []. rewrite app_nil_r. split; [reflexivity|]. split; [exact HP|]. split; [intros o _ f j l p; auto|auto].
  - destruct (nth_error pool i) as [d|] eqn:Ed.
    + pose proof (proj1 (Forall_forall _ _) HP) as HPF.
      assert (HS : Sound V h d) by (apply HPF; eapply nth_error_In; exact Ed).
      destruct (call s h d) as [h1 r] eqn:Ec.
      assert (K : forall o, In o pool -> Sound V h1 o /\ SamePixels V h o h1) by (intros o Ho; eapply pixels_kept; [exact HS|apply HPF; exact Ho|exact Ec]).
      assert (KH : shares_headers V s = false -> forall o role j, In o pool -> frame_header V h1 o role j = frame_header V h o role j).
      { intros Sh o role j Ho. eapply headers_kept; [exact HS|apply HPF; exact Ho|exact Ec|]. rewrite Sh. discriminate. }
      assert (W : exists add, history h1 (pool ++ add)%list t = (h', pool') /\ Forall (Sound V h1) (pool ++ add)).
      { destruct r as [d'|e].
        - exists [d']. split; [exact H|]. apply Forall_app. split; [apply Forall_forall; intros o Ho; apply K; exact Ho|]. constructor; [|constructor].
          exact (proj1 (result_apart s h d d h1 d' HS HS Ec)).
        - exists []. rewrite app_nil_r. split; [exact H|]. apply Forall_forall. intros o Ho. apply K. exact Ho. }
      destruct W as (add & H1 & HP1). destruct (IH h1 _ h' pool' HP1 H1) as (more & E1 & E2 & E3 & E4).
      exists (add ++ more)%list. split; [rewrite app_assoc; exact E1|]. split; [exact E2|]. split.
      * intros o Ho. eapply same_pixels_trans; [apply K; exact Ho|]. apply E3. apply in_or_app. left. exact Ho.
      * intros Sh o role j Ho. rewrite E4; [apply KH; [apply (Sh (s, i)); left; reflexivity|exact Ho]| |apply in_or_app; left; exact Ho]. intros c Hc. apply Sh. right. exact Hc.
    + destruct (IH h pool h' pool' HP H) as (more & E1 & E2 & E3 & E4). exists more. split; [exact E1|]. split; [exact E2|]. split; [exact E3|].
      intros Sh. apply E4. intros c Hc. apply Sh. right. exact Hc.
Qed.
End P.
