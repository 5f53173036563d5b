From Coq Require Import List Arith Bool Lia String.
From Verif Require Import Base DatasetModel DatasetSpec DatasetProofs DatasetCopyProofs DatasetErrProofs DatasetSliceProofs SplitModel SplitProofs AliasModel AliasSpec AliasProofs AliasMainProofs.
Import ListNotations.
Local Open Scope string_scope.

Section P.
Variable V : Type.
Variable quad mul : V -> V -> V.
Variable leb : string -> string -> bool.
Variable track : bool.
Variable stamps : list (string * string).
Notation heap := (heap V).
Notation buf := (buf V). Notation nbuf := (nbuf V).
Notation hdr := (hdr V). Notation nhdr := (nhdr V).
Notation img := (img V). Notation nimg := (nimg V).
Notation Inv := (Inv V). Notation Ext := (Ext V). Notation out := (out V).
Notation call := (call V quad mul leb track stamps).

Lemma update_shape h d hist bd e en h' d' : update_step V h d hist (Some bd) (Some e) None en = (h', d', None) ->
  d' = mkds (ds_frames d) (ds_data d) e (ds_dq d) /\ buf h' = upd (buf h) (ds_data d) bd /\ (forall k f, f <> FErr -> im_view f (img h' k) = im_view f (img h k)).
Proof.
  unfold update_step. destruct (same_shapes V bd (buf h (ds_data d))); [|discriminate]. cbv zeta.
  destruct (err_shapes V _ _); [|discriminate]. intro H. injection H as <- <-. cbn [ds_frames].
  set (h1 := set_buf V h (ds_data d) bd). destruct (repoint_frame V (ds_frames d) h1 FErr e 0) as (RB & _ & _ & _ & _ & _ & _ & RV).
  destruct (stamp_frame V (ds_frames d) (repoint V h1 FErr e 0 (ds_frames d)) hist en) as (SB & _ & _ & SI & _).
  split; [reflexivity|]. split; [rewrite SB, RB; reflexivity|]. intros k f Nf. rewrite SI. apply RV. exact Nf.
Qed.

Definition Agr (f : field) (h : heap) (d : dataset) : Prop := forall i k, nth_error (ds_frames d) i = Some k -> view_block V h (im_view f (img h k)) = nth_error (buf h (cube f d)) i.

Lemma agree_of T h0 L h d : Inv T h0 L h d -> (forall f, Agr f h d) -> Agree V h d.
Proof.
  intros (_ & _ & (_ & _ & _ & S5 & _) & _) A f i l p. unfold frame_pixel, cube_pixel. destruct (nth_error (ds_frames d) i) as [k|] eqn:E.
  - specialize (A f i k E). unfold view_block in A. rewrite A. reflexivity.
  - apply nth_error_None in E. rewrite <- (S5 f) in E. apply nth_error_None in E. rewrite E. reflexivity.
Qed.
Lemma agr_link T h0 (L : field -> Prop) h d f : Inv T h0 L h d -> L f -> Agr f h d.
Proof. intros (_ & _ & _ & D) Lf i k Hi. rewrite (D i k f Hi Lf). reflexivity. Qed.

(** A copy, a loop, and what was had of it *)
Lemma copied_ok deep h d k h' d' : Sound V h d -> andthen V (copied V stamps deep h d) k = (h', Ok d') ->
  exists h1 d1, Inv (Tof V deep h d) h (fun _ => True) h1 d1 /\ k h1 d1 = (h', Ok d').
Proof.
  intros S H. unfold copied in H. destruct (ds_copy V deep stamps h d) as [[h1 d1]|e] eqn:E; cbn [andthen] in H; [|discriminate].
  exists h1, d1. split; [apply (copied_inv V stamps deep h d); assumption|exact H].
Qed.
Lemma after_ok r k h' d' : after V r k = (h', Ok d') -> exists h1, r = (h1, None) /\ k h1 = (h', Ok d').
Proof. destruct r as [h1 [e|]]; cbn [after]; [discriminate|]. intro H. exists h1. auto. Qed.
Lemma given_ok {A} h (r : result A) k h' d' : given V h r k = (h', Ok d') -> exists a, r = Ok a /\ k a = (h', Ok d').
Proof. destruct r as [a|e]; cbn [given]; [|discriminate]. intro H. exists a. auto. Qed.
Lemma updated_ok h d hist nd ne nq en h' d' : updated V h d hist nd ne nq en = (h', Ok d') -> update_step V h d hist nd ne nq en = (h', d', None).
Proof. unfold updated, done. destruct (update_step V h d hist nd ne nq en) as [[h1 d1] [e|]]; [discriminate|]. intro H. injection H as <- <-. reflexivity. Qed.

(** ** The groups of a split hold every frame *)
Lemma groups_new b : forall gs h d h' ds, NoDup (ds_frames d) -> (forall g, In g gs -> NoDup g) -> (b <= nbuf h)%nat -> take_groups V h d gs = Ok (h', ds) ->
  forall k, (b <= fst (im_data (img h k)))%nat \/ (exists g i, In g gs /\ In i g /\ nth_error (ds_frames d) i = Some k) -> (b <= fst (im_data (img h' k)))%nat.
Proof.
  induction gs as [|g t IH]; intros h d h' ds HD HN Hb H k Hk; cbn [take_groups] in H.
  - injection H as <- _. destruct Hk as [Hk|(g & i & [] & _)]. exact Hk.
  - destruct (getitem V h d g) as [[h1 d1]|] eqn:E; cbn [bind fst snd] in H; [|discriminate].
    destruct (take_groups V h1 d t) as [[h2 ds2]|] eqn:E2; cbn [bind fst snd] in H; [|discriminate]. injection H as <- _.
    unfold getitem in E. destruct (pick_frames (ds_frames d) g) as [ks|] eqn:P; cbn [bind] in E; [|discriminate].
    assert (Nk : NoDup ks) by (eapply pick_frames_nodup; [apply HN; left; reflexivity|exact HD|exact P]).
    pose proof (new_dataset_inv V h ks h1 d1 E) as (_ & bd & be & bq & _ & _ & _ & Ed & _ & Hn & _ & _ & _ & Him & _ & Hv).
    assert (V1 : forall k', In k' ks -> (b <= fst (im_data (img h1 k')))%nat).
    { intros k' Hk'. apply In_nth_error in Hk'. destruct Hk' as [j Hj]. pose proof (Hv Nk j k' Hj FData) as X. cbn [im_view] in X. rewrite X, Ed. cbn. exact Hb. }
    apply (IH h1 d h2 ds2); [exact HD|intros g' Hg'; apply HN; right; exact Hg'|lia|exact E2|].
    destruct Hk as [Hk|(g' & i & [<-|Hg] & Hi & Hf)].
    + left. destruct (in_dec Nat.eq_dec k ks) as [Q|Q]; [apply V1; exact Q|]. rewrite (Him k Q). exact Hk.
    + left. apply V1. destruct (pick_frames_ok _ _ _ P) as [_ P2]. apply In_nth_error in Hi. destruct Hi as [j Hj]. destruct (P2 j i Hj) as (k1 & F1 & F2). apply (nth_error_In ks j). congruence.
    + right. exists g', i. auto.
Qed.

Lemma rows_length h p e : forall frames rows, rows_of V h p e frames = Ok rows -> List.length rows = List.length frames.
Proof.
  induction frames as [|k t IH]; intros rows H; cbn [rows_of] in H; [injection H as <-; reflexivity|].
  destruct (row_of V h p e k); cbn [bind] in H; [|discriminate]. destruct (rows_of V h p e t) as [rs|] eqn:E; cbn [bind] in H; [|discriminate].
  injection H as <-. cbn. f_equal. apply IH. reflexivity.
Qed.
Lemma keys_in rows x : In x rows -> In x (group_keys leb rows).
Proof.
  intro H. induction rows as [|r t IH]; [contradiction|]. change (group_keys leb (r :: t)) with (insert_key leb r (group_keys leb t)).
  assert (G : forall l, In r (insert_key leb r l) /\ (forall y, In y l -> In y (insert_key leb r l))).
  { induction l as [|k' l IHl]; cbn [insert_key]; [split; [left; reflexivity|intros y []]|]. destruct (keyeqb r k') eqn:E.
    - apply keyeqb_eq in E. subst k'. split; [left; reflexivity|auto].
    - destruct (lexleb leb r k'); [split; [left; reflexivity|intros y Hy; right; exact Hy]|]. destruct IHl as [I1 I2].
      split; [right; exact I1|]. intros y [<-|Hy]; [left; reflexivity|right; apply I2; exact Hy]. }
  destruct (G (group_keys leb t)) as [G1 G2]. destruct H as [<-|H]; [exact G1|apply G2, IH, H].
Qed.
Lemma split_covers h d ks h' subs keys : ks <> [] -> split_dataset V leb h d None (Some ks) = Ok (h', subs, keys) ->
  exists gs, (forall g, In g gs -> NoDup g) /\ take_groups V h d gs = Ok (h', subs) /\ (forall i k, nth_error (ds_frames d) i = Some k -> exists g, In g gs /\ In i g).
Proof.
  intros Nk H. unfold split_dataset in H. cbn [app] in H. destruct (rows_of V h [] ks (ds_frames d)) as [rows|] eqn:ER; cbn [bind] in H; [|discriminate].
  destruct ks as [|k0 kt]; [contradiction|]. destruct (take_groups V h d _) as [[h1 ds1]|] eqn:E; cbn [bind fst snd] in H; [|discriminate]. injection H as <- <- _.
  eexists. split; [|split; [exact E|]].
  - intros g Hg. apply in_map_iff in Hg. destruct Hg as (k & <- & _). apply sorted_lt_nodup, positions_sorted.
  - intros i k Hi. apply rows_length in ER. destruct (nth_error rows i) as [r|] eqn:Er.
    + exists (positions r 0 rows). split; [apply (in_map (fun k => positions k 0 rows)), keys_in; eapply nth_error_In; exact Er|].
      apply positions_in. split; [lia|]. rewrite Nat.sub_0_r. exact Er.
    + apply nth_error_None in Er. assert (i < List.length (ds_frames d))%nat by (apply nth_error_Some; congruence). lia.
Qed.

(** ** em_gain_division *)
Lemma gain_out data error hist h d h' d' : Sound V h d -> call (EmGain V data error hist) h d = (h', Ok d') -> (forall f, Agr f h' d') /\ Detached V h' d'.
Proof.
  intros HS H. pose proof (call_res V quad mul leb track stamps (EmGain V data error hist) h d HS eq_refl) as R. rewrite H in R. destruct R as [_ R]. cbn [fst snd] in R. specialize (R d' eq_refl).
  cbn [AliasModel.call] in H. unfold em_gain_division in H.
  destruct (copied_ok _ _ _ _ _ _ HS H) as (h1 & d1 & Q1 & H1). cbv beta in H1. destruct (after_ok _ _ _ _ H1) as (h2 & E2 & H2). cbv beta in H2.
  assert (Q2 : Inv (Tof V true h d) h (fun _ => True) h2 d1).
  { eapply inv_each; [| |exact E2|exact Q1]; [|auto]. intros h3 i k h4 x Hk E Q3. cbv beta in E.
    destruct (given2 V h3 (data h3 d1 i) (put V h3 (ds_data d1, i))) as [h5 x5] eqn:E5.
    assert (Q5 : Inv (Tof V true h d) h (fun _ => True) h5 d1) by (eapply given2_put; [|exact E5|exact Q3]; apply (inv_new_cube V _ _ _ h3 d1 FData Q3)).
    unfold seq2 in E. destruct x5; [injection E as <- _; exact Q5|]. eapply given2_put; [|exact E|exact Q5]. apply (inv_new_cube V _ _ _ h5 d1 FErr Q5). }
  destruct (split_dataset V leb h2 d1 None _) as [[[h3 subs] keys]|e] eqn:E3; [|discriminate].
  pose proof Q2 as (_ & _ & ((W1 & W2) & ND & S4 & S5 & S6) & D2).
  pose proof (kept_split V leb h2 d1 None _ h3 subs keys ND E3) as (K1 & _ & _ & K4 & _ & _ & K7).
  pose proof (inv_split V leb _ _ _ _ _ _ _ _ _ _ E3 Q2) as Q3.
  apply updated_ok in H2. 
  assert (HE : forall e, Some (ds_err d1) = Some e -> (nbuf h <= e < nbuf h3)%nat /\ e <> ds_data d1 /\ e <> ds_dq d1).
  { intros e Ee. injection Ee as <-. split; [split; [apply (inv_new_cube V _ _ _ h3 d1 FErr Q3)|apply (inv_cubes_lt V _ _ _ h3 d1 FErr Q3)]|].
    split; intro X; [specialize (S4 FErr FData X)|specialize (S4 FErr FDq X)]; discriminate. }
  destruct (inv_update V _ _ _ _ _ _ _ _ _ _ _ _ _ HE H2 Q3) as (_ & QU & _).
  destruct (update_shape _ _ _ _ _ _ _ _ H2) as (-> & BU & VU).
  assert (BS : forall b, buf h' b = buf h3 b) by (intro b; rewrite BU; unfold upd; destruct (Nat.eqb_spec b (ds_data d1)) as [->|]; reflexivity).
  specialize (QU eq_refl). cbn [errgiven] in QU.
  assert (AG : forall f, f <> FErr -> Agr f h' (mkds (ds_frames d1) (ds_data d1) (ds_err d1) (ds_dq d1))).
  { intros f Nf i k Hi. cbn [ds_frames] in Hi. rewrite (VU k f Nf). unfold view_block. rewrite BS.
    assert (C : cube f (mkds (ds_frames d1) (ds_data d1) (ds_err d1) (ds_dq d1)) = cube f d1) by (destruct f; reflexivity). rewrite C, BS.
    pose proof (nth_error_In _ _ Hi) as Hk. destruct (W1 k Hk) as (_ & A2 & _). destruct (K7 k f (A2 f) (S6 k f Hk)) as [_ X]. unfold view_block in X. rewrite X.
    rewrite (D2 i k f Hi I). cbn [fst snd]. rewrite K4 by apply W2. reflexivity. }
  split.
  - intro f. destruct f; [apply AG; discriminate| |apply AG; discriminate]. eapply agr_link; [exact QU|right; reflexivity].
  - intros k Hk. cbn [ds_frames ds_data] in *. pose proof (VU k FData ltac:(discriminate)) as X. cbn [im_view] in X. rewrite X.
    destruct (split_covers h2 d1 ["EMGAIN_C"] h3 subs keys ltac:(discriminate) E3) as (gs & G1 & G2 & G3).
    pose proof (In_nth_error _ _ Hk) as [i Hi]. destruct (G3 i k Hi) as (g & Gg & Gi).
    pose proof (groups_new (nbuf h2) gs h2 d1 h3 subs ND G1 (Nat.le_refl _) G2 k (or_intror (ex_intro _ g (ex_intro _ i (conj Gg (conj Gi Hi)))))) as Y.
    pose proof (W2 FData) as Z. cbn [cube] in Z. lia.
Qed.

(** ** divide_by_exptime *)
Definition time_body (data : heap -> dataset -> nat -> result (block V * layer V)) (d1 : dataset) : heap -> nat -> nat -> heap * option exn :=
  fun h i k => given2 V h (data h d1 i) (fun r => let h := own_data V h k (fst r) in
    seq2 V (img_rescale V mul "normalized by the exposure time" h k (snd r)) (fun h => (set_hdr V h (im_ext (img h k)) (hset "BUNIT" "photoelectrons/s" (hdr h (im_ext (img h k)))), None))).
Lemma time_views data d1 b : forall frames h i h', (b <= nbuf h)%nat -> each V (time_body data d1) h i frames = (h', None) ->
  forall k, (b <= fst (im_data (img h k)))%nat \/ In k frames -> (b <= fst (im_data (img h' k)))%nat.
Proof.
  induction frames as [|k0 t IH]; intros h i h' Hb H k Hk; cbn [each] in H.
  - injection H as <-. destruct Hk as [Hk|[]]. exact Hk.
  - destruct (time_body data d1 h i k0) as [h1 x1] eqn:E. unfold seq2 in H. destruct x1 as [x1|]; [discriminate|].
    unfold time_body, given2 in E. destruct (data h d1 i) as [[bl e]|]; [|discriminate]. cbn [fst snd] in E. cbv zeta in E.
    destruct (img_rescale V mul _ (own_data V h k0 bl) k0 e) as [h2 x2] eqn:E2. pose proof (img_rescale_step V mul _ _ _ _ _ _ [] E2) as (R1 & R2 & _).
    unfold seq2 in E. destruct x2; [discriminate|]. injection E as <-.
    assert (D2 : forall k', im_data (img h2 k') = im_data (img (own_data V h k0 bl) k')) by (intro k'; apply (R2 k' FData); discriminate).
    assert (OW : forall k', (b <= fst (im_data (img h k')))%nat \/ k' = k0 -> (b <= fst (im_data (img h2 k')))%nat).
    { intros k' Hk'. rewrite D2. unfold own_data. cbn. unfold upd at 1. destruct (Nat.eqb_spec k' k0) as [->|N]; [cbn; exact Hb|]. destruct Hk' as [Q|Q]; [exact Q|contradiction]. }
    refine (IH _ (S i) h' _ H k _).
    + cbn. unfold own_data in R1. cbn in R1. lia.
    + cbn. destruct Hk as [Hk|[<-|Hk]]; [left; apply OW; left; exact Hk|left; apply OW; right; reflexivity|right; exact Hk].
Qed.

Lemma time_out data hist h d h' d' : Sound V h d -> call (ExpTime V data hist) h d = (h', Ok d') -> (forall f, Agr f h' d') /\ Detached V h' d'.
Proof.
  intros HS H. cbn [AliasModel.call] in H. unfold divide_by_exptime in H.
  destruct (copied_ok _ _ _ _ _ _ HS H) as (h1 & d1 & Q1 & H1). cbv beta in H1. destruct (after_ok _ _ _ _ H1) as (h2 & E2 & H2). cbv beta in H2.
  set (N := noerr (fun f => f = FDq)).
  assert (QN : Inv (Tof V true h d) h N h1 d1) by (eapply inv_weak; [|exact Q1]; intros f _; exact I).
  assert (Q2 : Inv (Tof V true h d) h N h2 d1).
  { eapply inv_each; [| |exact E2|exact QN]; [|auto]. intros h3 i k h4 x Hk E Q3. cbv beta in E. unfold given2 in E. destruct (data h3 d1 i) as [[b e]|]; [|injection E as <- _; exact Q3]. cbn [fst snd] in E. cbv zeta in E.
    assert (Q4 : Inv (Tof V true h d) h N (own_data V h3 k b) d1).
    { unfold own_data. cbn [alloc_buf]. eapply inv_weak; [|apply (inv_view V _ _ N (fst (alloc_buf V h3 [b])) d1 k FData (nbuf h3, 0) Hk)].
      - intros f [-> Nf]. split; [split; [reflexivity|exact Nf]|discriminate].
      - cbn. pose proof Q3 as ((EB & _) & _). lia.
      - cbn. rewrite upd_same. discriminate.
      - apply inv_alloc. exact Q3. }
    destruct (img_rescale V mul _ (own_data V h3 k b) k e) as [h5 x5] eqn:E5.
    assert (Q5 : Inv (Tof V true h d) h N h5 d1) by (eapply inv_img_rescale; eassumption).
    unfold seq2 in E. destruct x5; injection E as <- _; [exact Q5|]. apply (inv_hdr V _ _ N h5 d1 k HExt); auto. }
  pose proof Q1 as (_ & _ & ((_ & W2) & _) & _).
  assert (DT : forall k, In k (ds_frames d1) -> fst (im_data (img h2 k)) <> ds_data d1).
  { intros k Hk. pose proof (time_views data d1 (nbuf h1) (ds_frames d1) h1 0 h2 (Nat.le_refl _) E2 k (or_intror Hk)) as Y. specialize (W2 FData). cbn [cube] in W2. lia. }
  destruct (given_ok _ _ _ _ _ H2) as (bd & Eb & H3). cbv beta in H3. unfold stacked in H3. destruct (given_ok _ _ _ _ _ H3) as (be & Ee & H4). cbn [alloc_buf] in H4.
  set (h3 := fst (alloc_buf V h2 be)). change (updated V h3 d1 hist (Some bd) (Some (nbuf h2)) None [] = (h', Ok d')) in H4.
  assert (Q3 : Inv (Tof V true h d) h N h3 d1) by (apply inv_alloc; exact Q2).
  apply updated_ok in H4.
  pose proof (inv_cubes_lt V _ _ _ h2 d1 FData Q2) as C1. pose proof (inv_cubes_lt V _ _ _ h2 d1 FDq Q2) as C2. cbn [cube] in C1, C2.
  destruct (inv_update V (Tof V true h d) h N h3 d1 hist (Some bd) (Some (nbuf h2)) None [] h' d' None) as (_ & QU & _); [|exact H4|exact Q3|].
  { intros e X. injection X as <-. pose proof Q2 as ((EB & _) & _). cbn. lia. }
  specialize (QU eq_refl). cbn [errgiven] in QU.
  destruct (update_shape _ _ _ _ _ _ _ _ H4) as (-> & BU & VU).
  pose proof Q2 as (_ & _ & ((A2 & _) & _) & _).
  split.
  - intros [].
    + intros i k Hi. cbn [ds_frames cube ds_data] in *. pose proof (nth_error_In _ _ Hi) as Hk. rewrite (VU k FData ltac:(discriminate)). cbn [im_view]. change (img h3 k) with (img h2 k).
      unfold view_block. rewrite BU, upd_same, upd_other by (apply DT; exact Hk).
      destruct (gather_ok V _ _ _ _ (collect_ok V _ _ _ _ Eb)) as [_ G]. destruct (G i k Hi) as (b & G1 & G2). rewrite G2. rewrite <- G1. unfold view_block. cbn [im_view].
      f_equal. unfold h3. cbn. rewrite upd_other; [reflexivity|]. destruct (A2 k Hk) as (_ & X & _). specialize (X FData). cbn [im_view] in X. lia.
    + eapply agr_link; [exact QU|right; reflexivity].
    + eapply agr_link; [exact QU|left; split; [reflexivity|discriminate]].
  - intros k Hk. cbn [ds_frames ds_data] in *. pose proof (VU k FData ltac:(discriminate)) as X. cbn [im_view] in X. rewrite X. apply DT. exact Hk.
Qed.

Lemma result_agrees s h d h' d' : Sound V h d -> call s h d = (h', Ok d') -> Agree V h' d'.
Proof.
  intros HS H. destruct (detaches V s) eqn:D.
  - destruct (call_outcome V quad mul leb track stamps s h d h' _ HS H) as (h1 & _ & _ & (_ & R)). cbn [fst snd] in R. specialize (R d' eq_refl).
    eapply agree_of; [exact R|]. destruct s; try discriminate; [eapply gain_out|eapply time_out]; eassumption.
  - intros f i l p. apply linked_pixels. eapply result_linked; eassumption.
Qed.
Lemma result_detached s h d h' d' : Sound V h d -> detaches V s = true -> call s h d = (h', Ok d') -> Detached V h' d'.
Proof. intros HS D H. destruct s; try discriminate; [eapply gain_out|eapply time_out]; eassumption. Qed.
End P.
