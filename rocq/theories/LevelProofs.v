From Coq Require Import List Arith Bool String Ascii Lia.
From Verif Require Import Base BaseProofs DatasetModel DatasetSpec DatasetProofs DatasetCopyProofs DatasetSliceProofs
  DatasetErrProofs DatasetQuadProofs LevelModel LevelSpec.
Import ListNotations.
Local Open Scope string_scope.
Local Open Scope list_scope.

(** ** File names *)

Lemma sapp_assoc a b c : append (append a b) c = append a (append b c).
Proof. induction a as [|x a IH]; cbn; [reflexivity|]. rewrite IH. reflexivity. Qed.

Lemma sapp_length a b : String.length (append a b) = String.length a + String.length b.
Proof. induction a as [|x a IH]; cbn; [reflexivity|]. rewrite IH. reflexivity. Qed.

Lemma sapp_inv_len : forall a a' b b', String.length a = String.length a' -> append a b = append a' b' -> a = a' /\ b = b'.
Proof.
  induction a as [|x a IH]; intros [|y a'] b b' L E; cbn in *; try discriminate; auto.
  injection E as -> E. destruct (IH a' b b' ltac:(lia) E) as [-> ->]. auto.
Qed.

Lemma strip_prefix_some : forall p s r, strip_prefix p s = Some r <-> s = append p r.
Proof.
  induction p as [|a p IH]; intros s r; cbn.
  - split; congruence.
  - destruct s as [|b s].
    + split; discriminate.
    + destruct (Ascii.eqb_spec a b) as [->|N].
      * rewrite IH. split; [intros ->; reflexivity|congruence].
      * split; [discriminate|]. intro E. injection E as E _. congruence.
Qed.

Lemma replace1_first old new : forall s a b, s = append a (append old b) ->
  (forall a' b', s = append a' (append old b') -> String.length a <= String.length a') ->
  replace1 old new s = append a (append new b).
Proof.
  induction s as [|c s IH]; intros a b E F.
  - destruct a as [|x a]; [|discriminate]. cbn in E. destruct old as [|x old]; [|discriminate]. cbn in E. subst b. reflexivity.
  - cbn [replace1]. destruct (strip_prefix old (String c s)) as [r|] eqn:Es.
    + apply strip_prefix_some in Es. specialize (F EmptyString r Es). destruct a; [|cbn in F; lia].
      cbn [append] in *. rewrite Es in E.
      destruct (sapp_inv_len old old r b eq_refl E) as [_ ->]. reflexivity.
    + destruct a as [|x a].
      * cbn [append] in E. apply strip_prefix_some in E. congruence.
      * cbn [append] in E |- *. injection E as -> E. f_equal. apply IH; [exact E|].
        intros a' b' E'. specialize (F (String x a') b'). cbn [append] in F. rewrite <- E' in F. specialize (F eq_refl). cbn in F. lia.
Qed.

Lemma replace1_none old new : forall s, (forall a b, s <> append a (append old b)) -> replace1 old new s = s.
Proof.
  induction s as [|c s IH]; intro H; cbn [replace1].
  - destruct (strip_prefix old EmptyString) as [r|] eqn:E; [|reflexivity].
    apply strip_prefix_some in E. exfalso. apply (H EmptyString r). exact E.
  - destruct (strip_prefix old (String c s)) as [r|] eqn:E.
    + apply strip_prefix_some in E. exfalso. apply (H EmptyString r). exact E.
    + f_equal. apply IH. intros a b E'. apply (H (String c a) b). cbn. congruence.
Qed.

(** Every string either lacks the tag or has a first occurrence. *)
Lemma first_occurrence old : forall s,
  (forall a b, s <> append a (append old b)) \/
  (exists a b, s = append a (append old b) /\ forall a' b', s = append a' (append old b') -> String.length a <= String.length a').
Proof.
  induction s as [|c s IH].
  - destruct (strip_prefix old EmptyString) as [r|] eqn:E.
    + right. exists EmptyString, r. apply strip_prefix_some in E. split; [exact E|]. intros. cbn. lia.
    + left. intros [|x a] b Q; [|discriminate]. cbn in Q. apply strip_prefix_some in Q. congruence.
  - destruct (strip_prefix old (String c s)) as [r|] eqn:E.
    + right. exists EmptyString, r. apply strip_prefix_some in E. split; [exact E|]. intros. cbn. lia.
    + destruct IH as [IH|(a & b & E1 & F)].
      * left. intros [|x a] b Q; cbn [append] in Q.
        -- apply strip_prefix_some in Q. congruence.
        -- injection Q as -> Q. apply (IH a b Q).
      * right. exists (String c a), b. split; [cbn; congruence|].
        intros [|x a'] b' Q; cbn [append] in Q.
        -- apply strip_prefix_some in Q. congruence.
        -- injection Q as -> Q. cbn. specialize (F a' b' Q). lia.
Qed.

(** *** Overlaps of tags *)

(** A tag [t'] that starts inside [a] and reaches beyond it into [new ++ b]
    can only end with the leading "_" of [new]. *)
Lemma tag_overlap a a' t t' b b' :
  In t tags -> In t' tags -> append a (append t b) = append a' (append t' b') ->
  String.length a' < String.length a -> String.length a' + String.length t' <= String.length a + 1.
Proof.
  intros Ht Ht' E Hl.
  assert (exists c, a = append a' c /\ append c (append t b) = append t' b') as (c & -> & E2).
  { clear Ht Ht'. revert a' E Hl. induction a as [|x a IH]; intros [|y a'] E Hl; cbn in *; try lia.
    - exists (String x a). auto.
    - injection E as -> E. destruct (IH a' E ltac:(lia)) as (c & -> & E2). exists c. auto. }
  rewrite sapp_length in *. clear E. cbn in Ht, Ht'.
  repeat (destruct Ht as [<-|Ht]; [|]); try contradiction;
  repeat (destruct Ht' as [<-|Ht']; [|]); try contradiction; cbn in *;
  repeat (destruct c as [|?c c]; cbn in *; try lia; try discriminate; injection E2 as ? E2; subst; try discriminate).
Qed.

(** If the first tag of a name is replaced by another tag, the new one is the
    first tag of the result. *)
Lemma replaced_first s a t b t2 : first_tag s a t b -> In t2 tags ->
  first_tag (append a (append t2 b)) a t2 b.
Proof.
  intros (-> & Ht & F) H2. split; [reflexivity|]. split; [exact H2|].
  intros a' t' b' Ht' E. destruct (le_lt_dec (String.length a) (String.length a')) as [|Hl]; [assumption|exfalso].
  pose proof (tag_overlap a a' t2 t' b b' H2 Ht' E Hl) as O.
  (* the occurrence of t' lies in a ++ "_", which is also the start of a ++ t ++ b *)
  assert (exists r, append a (append t b) = append a' (append t' r)) as [r Er].
  { assert (T : exists tl, t = String "_" tl).
    { cbn in Ht. repeat (destruct Ht as [<-|Ht]; [eexists; reflexivity|]). contradiction. }
    assert (T2 : exists tl, t2 = String "_" tl).
    { cbn in H2. repeat (destruct H2 as [<-|H2]; [eexists; reflexivity|]). contradiction. }
    destruct T as [tl ->], T2 as [tl2 ->].
    assert (G : forall p q x y, append p x = append q y -> String.length q <= String.length p -> exists r, p = append q r).
    { clear. induction p as [|c p IH]; intros [|c' q] x y E L; cbn in *.
      - exists EmptyString. reflexivity.
      - lia.
      - exists (String c p). reflexivity.
      - injection E as -> E. destruct (IH q x y E ltac:(lia)) as [r ->]. exists r. reflexivity. }
    destruct (G (append a "_") (append a' t') (append tl2 b) b') as [r Hr].
    { rewrite !sapp_assoc. exact E. }
    { rewrite !sapp_length. cbn. lia. }
    exists (append r (append tl b)).
    replace (append a (append (String "_" tl) b)) with (append (append a "_") (append tl b)) by (rewrite sapp_assoc; reflexivity).
    rewrite Hr. rewrite !sapp_assoc. reflexivity. }
  specialize (F a' t' r Ht' Er). lia.
Qed.

Lemma first_tag_unique s a t b a2 t2 b2 : first_tag s a t b -> first_tag s a2 t2 b2 -> a = a2 /\ t = t2 /\ b = b2.
Proof.
  intros (E & Ht & F) (E2 & Ht2 & F2).
  assert (L : String.length a = String.length a2).
  { pose proof (F a2 t2 b2 Ht2 E2). pose proof (F2 a t b Ht E). lia. }
  rewrite E in E2. destruct (sapp_inv_len a a2 _ _ L E2) as [-> E3]. split; [reflexivity|].
  clear - Ht Ht2 E3. cbn in Ht, Ht2.
  repeat (destruct Ht as [<-|Ht]; [|]); try contradiction;
  repeat (destruct Ht2 as [<-|Ht2]; [|]); try contradiction; cbn in E3;
    try discriminate; injection E3 as <-; auto.
Qed.

Lemma first_tag_replace s a t b new : first_tag s a t b -> replace1 t new s = append a (append new b).
Proof.
  intros (E & Ht & F). apply replace1_first; [exact E|]. intros a' b' E'. apply (F a' t b' Ht E').
Qed.

Lemma rename_injective t new s1 s2 a1 b1 a2 b2 : In new tags ->
  first_tag s1 a1 t b1 -> first_tag s2 a2 t b2 -> replace1 t new s1 = replace1 t new s2 -> s1 = s2.
Proof.
  intros Hn F1 F2 E. rewrite (first_tag_replace _ _ _ _ new F1), (first_tag_replace _ _ _ _ new F2) in E.
  pose proof (replaced_first _ _ _ _ new F1 Hn) as G1. pose proof (replaced_first _ _ _ _ new F2 Hn) as G2.
  rewrite E in G1. destruct (first_tag_unique _ _ _ _ _ _ _ G1 G2) as (-> & _ & ->).
  destruct F1 as [-> _], F2 as [-> _]. reflexivity.
Qed.

(** ** Levels *)
Lemma hget_set_keys_other key : forall en hd, (forall kv, In kv en -> fst kv <> key) -> hget key (set_keys en hd) = hget key hd.
Proof.
  induction en as [|[k v] en IH]; intros hd H; [reflexivity|].
  cbn [set_keys fold_left fst snd]. fold (set_keys en (hset k v hd)). rewrite IH by (intros kv Hk; apply H; right; exact Hk).
  apply hget_hset_other. apply (H (k, v)). left. reflexivity.
Qed.

Section P.
Variable V : Type.
Notation heap := (heap V).
Notation buf := (buf V). Notation nbuf := (nbuf V).
Notation hdr := (hdr V). Notation nhdr := (nhdr V).
Notation img := (img V). Notation nimg := (nimg V).

Lemma check_level_spec (h : heap) prev : forall frames,
  match check_level V h prev frames with
  | None => forall k, In k frames -> level_of V h k = Some prev
  | Some x => exists k, In k frames /\ level_of V h k <> Some prev /\
                (x = ValueError \/ (x = KeyError /\ level_of V h k = None))
  end.
Proof.
  induction frames as [|k t IH]; cbn [check_level]; [intros k []|].
  change (hget "DATALVL" (DatasetModel.hdr V h (im_ext (DatasetModel.img V h k)))) with (level_of V h k).
  destruct (level_of V h k) as [l|] eqn:E.
  - destruct (String.eqb_spec l prev) as [->|N].
    + destruct (check_level V h prev t) as [x|].
      * destruct IH as (k' & A & B). exists k'. split; [right; exact A|exact B].
      * intros k' [<-|Hk']; [exact E|apply IH; exact Hk'].
    + exists k. split; [left; reflexivity|]. split; [congruence|left; reflexivity].
  - exists k. split; [left; reflexivity|]. split; [congruence|right; auto].
Qed.

Lemma copy_frames_keys stamps key : (forall kv, In kv stamps -> fst kv <> key) ->
  forall frames (h : heap) h' fr, copy_frames V false stamps h frames = (h', fr) ->
  forall a, hget key (hdr h' a) = hget key (hdr h a).
Proof.
  intros HS. induction frames as [|k t IH]; intros h h' fr H a; cbn [copy_frames] in H.
  - injection H as <- <-. reflexivity.
  - destruct (img_copy V false stamps h k) as [h1 k1] eqn:E1.
    destruct (copy_frames V false stamps h1 t) as [h2 t2] eqn:E2. injection H as <- <-.
    rewrite (IH h1 h2 t2 E2 a). unfold img_copy in E1. cbn in E1. injection E1 as <- <-. cbn. unfold upd.
    destruct (Nat.eqb_spec a (im_ext (img h k))) as [->|]; [|reflexivity]. apply hget_set_keys_other. exact HS.
Qed.

(** A shallow copy of a sound dataset succeeds. *)
Lemma shallow_copy_total stamps (h : heap) d : Sound V h d -> exists h' d', ds_copy V false stamps h d = Ok (h', d').
Proof.
  intros (L & W & NE & U). unfold ds_copy.
  destruct (copy_frames V false stamps h (ds_frames d)) as [h1 fr] eqn:E.
  assert (Hk : forall k, In k (ds_frames d) -> (k < nimg h)%nat) by (intros k Hk; apply W; exact Hk).
  destruct (copy_frames_shallow V stamps (ds_frames d) h h1 fr Hk E) as (-> & B1 & NB1 & NH1 & NI1 & I1 & I2).
  assert (C : forall f, exists bs, collect V h1 f (seq (nimg h) (List.length (ds_frames d))) = Ok bs).
  { intro f. destruct (U f) as [sh Hs]. unfold collect.
    assert (Gs : forall fr, (forall k, In k fr -> exists b, view_block V h1 (im_view f (img h1 k)) = Some b /\ shape V b = sh) ->
      exists bs, gather V h1 f fr = Ok bs /\ forall b, In b bs -> shape V b = sh).
    { induction fr as [|k t IH]; intro Hf; cbn [gather].
      - exists []. split; [reflexivity|intros b []].
      - destruct (Hf k (or_introl eq_refl)) as (b & -> & Sb).
        destruct IH as (bs & -> & IB); [intros k' Hk'; apply Hf; right; exact Hk'|]. cbn [bind].
        exists (b :: bs). split; [reflexivity|]. intros b' [<-|Hb']; auto. }
    destruct (Gs (seq (nimg h) (List.length (ds_frames d)))) as (bs & -> & Sb).
    { intros k Hin. apply in_seq in Hin. destruct (nth_error (ds_frames d) (k - nimg h)) as [k0|] eqn:Ek.
      - pose proof (I2 _ _ Ek) as Q. replace (nimg h + (k - nimg h)) with k in Q by lia. rewrite Q.
        unfold view_block. rewrite B1. apply Hs. eapply nth_error_In. exact Ek.
      - apply nth_error_None in Ek. lia. }
    cbn [bind]. exists bs. assert (homogeneous V bs = true) as ->; [|reflexivity].
    destruct bs as [|b0 bs]; [reflexivity|]. cbn [homogeneous]. apply forallb_forall. intros b Hb. unfold list_nat_eqb.
    destruct (list_eq_dec Nat.eq_dec (shape V b) (shape V b0)) as [|N]; [reflexivity|]. exfalso. apply N.
    rewrite (Sb b), (Sb b0) by (cbn; auto). reflexivity. }
  unfold new_dataset. destruct (ds_frames d) as [|k0 fr0]; [congruence|]. cbn [List.length seq] in *.
  destruct (C FData) as [x1 ->], (C FErr) as [x2 ->], (C FDq) as [x3 ->]. cbn [bind]. eexists. eexists. reflexivity.
Qed.

Lemma new_dataset_names (h : heap) frames h' d' : new_dataset V h frames = Ok (h', d') ->
  forall k, im_name (img h' k) = im_name (img h k).
Proof.
  assert (forall f b frs i0 (hh : heap) kk, im_name (img (repoint V hh f b i0 frs) kk) = im_name (img hh kk)) as RN.
  { intros f b. induction frs as [|k1 t1 IHr]; intros i0 hh kk; cbn [repoint]; [reflexivity|].
    rewrite IHr. cbn. unfold upd. destruct (Nat.eqb_spec kk k1) as [->|]; [destruct f; reflexivity|reflexivity]. }
  intros H k. unfold new_dataset in H. destruct frames as [|f0 fr']; [discriminate|].
  remember (f0 :: fr') as fr eqn:Efr.
  destruct (collect V h FData fr) as [c1|]; cbn [bind] in H; [|discriminate].
  destruct (collect V h FErr fr) as [c2|]; cbn [bind] in H; [|discriminate].
  destruct (collect V h FDq fr) as [c3|]; cbn [bind] in H; [|discriminate].
  unfold alloc_buf in H. cbv iota beta zeta in H. injection H as H _. rewrite <- H. rewrite !RN. reflexivity.
Qed.

(** What a shallow copy does, in full. *)
Lemma shallow_copy_full stamps (h : heap) d h' d' :
  Sound V h d -> ds_copy V false stamps h d = Ok (h', d') ->
  Sound V h' d' /\ Sound V h' d
  /\ ds_frames d' = seq (nimg h) (List.length (ds_frames d))
  /\ (forall f i l p, cube_pixel V h' d f i l p = cube_pixel V h d f i l p)
  /\ (forall f i l p, cube_pixel V h' d' f i l p = cube_pixel V h d f i l p)
  /\ (forall k, (k < nimg h)%nat -> img h' k = img h k)
  /\ (forall i k k', nth_error (ds_frames d) i = Some k -> nth_error (ds_frames d') i = Some k' ->
        im_name (img h' k') = im_name (img h k) /\ forall f, im_hdr f (img h' k') = im_hdr f (img h k))
  /\ (forall key, (forall kv, In kv stamps -> fst kv <> key) -> forall a, hget key (hdr h' a) = hget key (hdr h a)).
Proof.
  intros (L & W & NE & U) H. pose proof H as H0. unfold ds_copy in H.
  destruct (copy_frames V false stamps h (ds_frames d)) as [h1 fr] eqn:E.
  pose proof (copy_frames_keys stamps) as CK.
  assert (Hk : forall k, In k (ds_frames d) -> (k < nimg h)%nat) by (intros k Hk; apply W; exact Hk).
  destruct (copy_frames_shallow V stamps (ds_frames d) h h1 fr Hk E) as (Efr & B1 & NB1 & NH1 & NI1 & I1 & I2).
  destruct (shallow_copy_spec V stamps h d h' d' W L H0) as (L1 & L2 & PS & P1 & P2 & Len & Ids).
  assert (HN : NoDup fr) by (rewrite Efr; apply seq_NoDup).
  assert (AL : Allocated V h1 fr).
  { intros k Hin. rewrite Efr in Hin. apply in_seq in Hin. split; [lia|].
    destruct (nth_error (ds_frames d) (k - nimg h)) as [k0|] eqn:Ek.
    - pose proof (I2 _ _ Ek) as Q. replace (nimg h + (k - nimg h)) with k in Q by lia. rewrite Q.
      destruct W as [W _]. destruct (W k0 ltac:(eapply nth_error_In; exact Ek)) as (_ & W2 & W3).
      split; intro f; [specialize (W2 f)|specialize (W3 f)]; lia.
    - apply nth_error_None in Ek. lia. }
  pose proof (new_dataset_wf V h1 fr h' d' AL HN H) as W'.
  pose proof (new_dataset_contents V h1 fr h' d' H) as Cont.
  apply new_dataset_inv in H.
  destruct H as (NEf & bd & be & bq & G1 & G2 & G3 & Ed & Hb & Hnb & Hh & Hnh & Hni & Him & Hids & Hv).
  assert (Fd : ds_frames d' = fr) by (rewrite Ed; reflexivity).
  assert (Old : forall k, (k < nimg h)%nat -> img h' k = img h k).
  { intros k Hk'. rewrite Him; [apply I1; exact Hk'|]. rewrite Efr, in_seq. lia. }
  assert (BO : forall b, (b < nbuf h)%nat -> buf h' b = buf h b).
  { intros b Hbb. rewrite Hb, !upd_other by lia. rewrite B1. reflexivity. }
  assert (Nm : forall i k, nth_error (ds_frames d) i = Some k -> nth_error fr i = Some (nimg h + i)%nat).
  { intros i k Ek. rewrite Efr. assert (i < List.length (ds_frames d))%nat as Hlt by (apply nth_error_Some; congruence).
    erewrite nth_error_nth' with (d := 0); [rewrite seq_nth by exact Hlt; reflexivity|rewrite seq_length; exact Hlt]. }
  split; [|split; [|split; [|split; [|split; [|split; [|split]]]]]].
  - split; [exact L2|]. split; [exact W'|]. split; [congruence|].
    intro f. destruct (U f) as [sh Hs]. exists sh. intros k Hin. apply In_nth_error in Hin. destruct Hin as [i Hi].
    destruct L2 as (_ & _ & _ & _ & Lv). rewrite (Lv i k Hi f). unfold view_block. cbn [fst snd].
    rewrite Fd in Hi. rewrite (Cont f i k Hi).
    destruct (nth_error (ds_frames d) i) as [k0|] eqn:Ek.
    + pose proof (Nm i k0 Ek) as Q. rewrite Hi in Q. injection Q as ->. rewrite (I2 i k0 Ek).
      unfold view_block. rewrite B1. apply Hs. eapply nth_error_In. exact Ek.
    + apply nth_error_None in Ek. assert (i < List.length fr)%nat by (apply nth_error_Some; congruence). rewrite Efr, seq_length in *. lia.
  - split; [exact L1|]. split; [|split; [exact NE|]].
    + destruct W as [W W2]. split.
      * intros k Hin. destruct (W k Hin) as (A1 & A2 & A3). rewrite (Old k A1). split; [lia|].
        split; intro f; [specialize (A2 f)|specialize (A3 f)]; lia.
      * intro f. specialize (W2 f). lia.
    + intro f. destruct (U f) as [sh Hs]. exists sh. intros k Hin. rewrite (Old k (Hk k Hin)).
      unfold view_block. rewrite BO; [apply Hs; exact Hin|]. destruct W as [W _]. apply W. exact Hin.
  - rewrite Fd. exact Efr.
  - exact P1.
  - exact P2.
  - exact Old.
  - intros i k k' Hi Hi'. rewrite Fd in Hi'. rewrite (Nm i k Hi) in Hi'. injection Hi' as <-.
    split; [|intro f; rewrite Hids; rewrite (I2 i k Hi); reflexivity].
    assert (QQ : new_dataset V h1 fr = Ok (h', d')) by (unfold ds_copy in H0; rewrite E in H0; exact H0).
    rewrite (new_dataset_names h1 fr h' d' QQ). rewrite (I2 i k Hi). reflexivity.
  - intros key Hkey a. rewrite Hh. apply (CK key Hkey _ _ _ _ E).
Qed.

(** The update loop. *)
Lemma level_loop_spec u : u_fail u = None -> forall frames (h : heap) h' x, NoDup frames ->
  level_loop V h u frames = (h', x) ->
  x = None
  /\ buf h' = buf h /\ nbuf h' = nbuf h /\ nhdr h' = nhdr h /\ nimg h' = nimg h
  /\ (forall k f, im_view f (img h' k) = im_view f (img h k))
  /\ (forall k f, im_hdr f (img h' k) = im_hdr f (img h k))
  /\ (forall k, im_name (img h' k) = if in_dec Nat.eq_dec k frames
                 then replace1 (u_old_tag u) (u_new_tag u) (im_name (img h k)) else im_name (img h k))
  /\ (forall key, key <> "DATALVL" -> (forall kv, In kv (u_cards u) -> fst kv <> key) ->
        forall a, hget key (hdr h' a) = hget key (hdr h a))
  /\ ((forall kv, In kv (u_cards u) -> fst kv <> "DATALVL") ->
      (forall a, (exists k, In k frames /\ a = im_ext (img h k)) -> hget "DATALVL" (hdr h' a) = Some (u_new u))
      /\ (forall a, (forall k, In k frames -> a <> im_ext (img h k)) -> hdr h' a = hdr h a)).
Proof.
  intro NF. induction frames as [|k t IH]; intros h h' x N H; cbn [level_loop] in H.
  - injection H as <- <-. repeat split; auto. intros a (k & [] & _).
  - rewrite NF in H. inversion N as [|k0 t0 Hk Nt]; subst k0 t0. cbv zeta in H.
    set (h1 := set_img V _ k _) in H.
    destruct (IH h1 h' x Nt H) as (A0 & A1 & A2 & A3 & A4 & A5 & A6 & A7 & A8 & A9).
    assert (V1 : forall k' f, im_view f (img h1 k') = im_view f (img h k')).
    { intros k' f. unfold h1. cbn. unfold upd. destruct (Nat.eqb_spec k' k) as [->|]; [destruct f; reflexivity|reflexivity]. }
    assert (H1 : forall k' f, im_hdr f (img h1 k') = im_hdr f (img h k')).
    { intros k' f. unfold h1. cbn. unfold upd. destruct (Nat.eqb_spec k' k) as [->|]; [destruct f; reflexivity|reflexivity]. }
    split; [exact A0|]. split; [exact A1|]. split; [exact A2|]. split; [exact A3|]. split; [exact A4|].
    split; [intros; rewrite A5; apply V1|]. split; [intros; rewrite A6; apply H1|]. split; [|split].
    + intro k'. rewrite A7. unfold h1 at 1 2. cbn [DatasetModel.img set_img set_hdr]. unfold upd.
      destruct (Nat.eqb_spec k' k) as [->|Nk].
      * destruct (in_dec Nat.eq_dec k t); [contradiction|]. destruct (in_dec Nat.eq_dec k (k :: t)) as [|Q]; [reflexivity|].
        exfalso. apply Q. left. reflexivity.
      * destruct (in_dec Nat.eq_dec k' t) as [Hi|Hi]; destruct (in_dec Nat.eq_dec k' (k :: t)) as [Q|Q]; try reflexivity.
        -- exfalso. apply Q. right. exact Hi.
        -- exfalso. destruct Q as [Q|Q]; [congruence|contradiction].
    + intros key Nd Nc a. rewrite (A8 key Nd Nc a). unfold h1. cbn [DatasetModel.hdr set_img set_hdr]. unfold upd.
      destruct (Nat.eqb_spec a (im_ext (img h k))) as [->|]; [|reflexivity].
      apply hget_set_keys_other. intros kv [<-|Hkv]; [cbn [fst]; congruence|apply Nc; exact Hkv].
    + intro Nc. destruct (A9 Nc) as [B1 B2].
      assert (E1 : forall k', im_ext (img h1 k') = im_ext (img h k')) by (intro k'; apply (H1 k' HExt)).
      split.
      * intros a (k' & Hk' & ->).
        destruct (in_dec Nat.eq_dec (im_ext (img h k')) (map (fun j => im_ext (img h j)) t)) as [Hin|Hout].
        -- apply in_map_iff in Hin. destruct Hin as (j & Ej & Hj). apply B1. exists j. split; [exact Hj|]. rewrite E1. congruence.
        -- rewrite B2.
           2:{ intros j Hj Q. apply Hout. apply in_map_iff. exists j. rewrite E1 in Q. split; [congruence|exact Hj]. }
           destruct Hk' as [<-|Hk']; [|exfalso; apply Hout; apply in_map_iff; exists k'; auto].
           unfold h1. cbn [DatasetModel.hdr set_img set_hdr]. unfold upd. rewrite Nat.eqb_refl.
           change (set_keys (("DATALVL", u_new u) :: u_cards u) ?x) with (set_keys (u_cards u) (hset "DATALVL" (u_new u) x)). rewrite hget_set_keys_other by exact Nc.
           apply hget_hset_same. discriminate.
      * intros a Ha. rewrite B2.
        -- unfold h1. cbn. unfold upd. destruct (Nat.eqb_spec a (im_ext (img h k))) as [Q|]; [|reflexivity].
           exfalso. apply (Ha k (or_introl eq_refl) Q).
        -- intros j Hj. rewrite E1. apply Ha. right. exact Hj.
Qed.

Lemma stamp_keys hist key : key <> "HISTORY" -> forall frames (h : heap) a,
  hget key (hdr (stamp V h hist [] frames) a) = hget key (hdr h a).
Proof.
  intro N. induction frames as [|k t IH]; intros h a; cbn [stamp]; [reflexivity|].
  rewrite IH. cbn [DatasetModel.hdr set_hdr set_keys fold_left]. unfold upd.
  destruct (Nat.eqb_spec a (im_errh (img h k))) as [->|]; [destruct (Nat.eqb_spec (im_errh (img h k)) (im_ext (img h k))) as [->|]|destruct (Nat.eqb_spec a (im_ext (img h k))) as [->|]];
    try reflexivity; apply hget_hset_other; congruence.
Qed.

(** Soundness does not depend on headers or names. *)
Lemma sound_transport (h h' : heap) d :
  Sound V h d -> buf h' = buf h -> nbuf h' = nbuf h -> nhdr h' = nhdr h -> nimg h' = nimg h ->
  (forall k f, im_view f (img h' k) = im_view f (img h k)) ->
  (forall k f, im_hdr f (img h' k) = im_hdr f (img h k)) -> Sound V h' d.
Proof.
  intros ((L1 & L2 & L3 & L4 & L5) & (W1 & W2) & NE & U) E1 E2 E3 E4 E5 E6.
  split; [|split; [|split]].
  - split; [exact L1|]. split; [intro f; rewrite E1; apply L2|]. split; [intro f; rewrite E2; apply L3|]. split; [exact L4|].
    intros i k Hi f. rewrite E5. apply L5. exact Hi.
  - split; [|intro f; rewrite E2; apply W2]. intros k Hk. destruct (W1 k Hk) as (A & B & C). rewrite E4, E2, E3.
    split; [exact A|]. split; intro f; [rewrite E5|rewrite E6]; auto.
  - exact NE.
  - intro f. destruct (U f) as [sh Hs]. exists sh. intros k Hk. rewrite E5. unfold view_block. rewrite E1. apply Hs. exact Hk.
Qed.

(** Keywords a level update may write. *)
Definition touched (u : updater) : list string :=
  "DATALVL" :: "HISTORY" :: "DRPVERSN" :: "DRPCTIME" :: map fst (u_cards u).

Lemma update_level_spec version now (h : heap) d u :
  Sound V h d -> u_fail u = None -> (forall kv, In kv (u_cards u) -> fst kv <> "DATALVL") ->
  match update_level V version now h d u with
  | (h', Ok d') =>
      all_at V h d (u_prev u)
      /\ Sound V h' d' /\ Sound V h' d
      /\ all_at V h' d' (u_new u) /\ all_at V h' d (u_new u)
      /\ List.length (ds_frames d') = List.length (ds_frames d)
      /\ (forall f i l p, cube_pixel V h' d' f i l p = cube_pixel V h d f i l p)
      /\ (forall f i l p, cube_pixel V h' d f i l p = cube_pixel V h d f i l p)
      /\ (forall i k k', nth_error (ds_frames d) i = Some k -> nth_error (ds_frames d') i = Some k' ->
            im_name (img h' k') = replace1 (u_old_tag u) (u_new_tag u) (im_name (img h k))
            /\ im_name (img h' k) = im_name (img h k)
            /\ forall key f, ~ In key (touched u) ->
                 hget key (hdr h' (im_hdr f (img h' k'))) = hget key (hdr h (im_hdr f (img h k))))
      /\ (forall k, (k < nimg h)%nat -> (forall k0, In k0 (ds_frames d) -> im_ext (img h k) <> im_ext (img h k0)) ->
            level_of V h' k = level_of V h k)
  | (h', Raise x) =>
      h' = h /\ exists k, In k (ds_frames d) /\ level_of V h k <> Some (u_prev u)
        /\ (x = ValueError \/ (x = KeyError /\ level_of V h k = None))
  end.
Proof.
  intros S0 NF NC. unfold update_level. pose proof (check_level_spec h (u_prev u) (ds_frames d)) as CL.
  destruct (check_level V h (u_prev u) (ds_frames d)) as [x|]; [split; [reflexivity|exact CL]|].
  set (st := [("DRPVERSN", version); ("DRPCTIME", now)]).
  destruct (shallow_copy_total st h d S0) as (h1 & d1 & E). rewrite E.
  destruct (shallow_copy_full st h d h1 d1 S0 E) as (S1 & S2 & Fr & P1 & P2 & Old & Nm & Keys).
  destruct (level_loop V h1 u (ds_frames d1)) as [h2 x2] eqn:E2.
  assert (N1 : NoDup (ds_frames d1)) by (destruct S1 as ((N & _) & _); exact N).
  destruct (level_loop_spec u NF (ds_frames d1) h1 h2 x2 N1 E2) as (-> & A1 & A2 & A3 & A4 & A5 & A6 & A7 & A8 & A9).
  unfold update_step. cbv beta iota zeta.
  destruct (A9 NC) as [B1 B2]. clear A9.
  set (hist := append "Updated Data Level to " (u_new u)).
  destruct (stamp_frame V (ds_frames d1) h2 hist []) as (T1 & T2 & T3 & T4 & T5 & _).
  set (h3 := stamp V h2 hist [] (ds_frames d1)) in *.
  assert (TL : forall k, level_of V h3 k = level_of V h2 k).
  { intro k. unfold level_of. rewrite T4. apply stamp_keys. discriminate. }
  assert (Lk : forall k, (k < nimg h)%nat -> im_ext (img h3 k) = im_ext (img h k)).
  { intros k Hk. rewrite T4. rewrite (A6 k HExt : im_ext _ = im_ext _). rewrite (Old k Hk). reflexivity. }
  assert (Ext1 : forall i k k', nth_error (ds_frames d) i = Some k -> nth_error (ds_frames d1) i = Some k' -> im_ext (img h1 k') = im_ext (img h k)).
  { intros i k k' Hi Hi'. apply (proj2 (Nm i k k' Hi Hi') HExt). }
  assert (Len : List.length (ds_frames d1) = List.length (ds_frames d)) by (rewrite Fr, seq_length; reflexivity).
  assert (New1 : all_at V h3 d1 (u_new u)).
  { intros k Hk. rewrite TL. unfold level_of. apply B1. exists k. split; [exact Hk|]. apply (A6 k HExt). }
  assert (New0 : all_at V h3 d (u_new u)).
  { intros k Hk. rewrite TL. unfold level_of. apply B1. apply In_nth_error in Hk. destruct Hk as [i Hi].
    assert (i < List.length (ds_frames d1))%nat as Hlt by (rewrite Len; apply nth_error_Some; congruence).
    destruct (nth_error (ds_frames d1) i) as [k'|] eqn:Ek; [|apply nth_error_None in Ek; lia].
    exists k'. split; [eapply nth_error_In; exact Ek|]. rewrite (Ext1 i k k' Hi Ek).
    rewrite (A6 k HExt : im_ext _ = im_ext _). rewrite (Old k); [reflexivity|].
    destruct S0 as (_ & (W & _) & _). apply W. eapply nth_error_In. exact Hi. }
  split; [exact CL|]. split; [|split; [|split; [exact New1|split; [exact New0|split; [exact Len|split; [|split; [|split]]]]]]].
  - apply (sound_transport h1 h3 d1 S1); [congruence|congruence|congruence|congruence|intros k f; rewrite T4; apply A5|intros k f; rewrite T4; apply A6].
  - apply (sound_transport h1 h3 d S2); [congruence|congruence|congruence|congruence|intros k f; rewrite T4; apply A5|intros k f; rewrite T4; apply A6].
  - intros f i l p. rewrite <- P2. unfold cube_pixel. rewrite T1, A1. reflexivity.
  - intros f i l p. rewrite <- P1. unfold cube_pixel. rewrite T1, A1. reflexivity.
  - intros i k k' Hi Hi'. destruct (Nm i k k' Hi Hi') as [Q1 Q2].
    assert (Hkn : (k < nimg h)%nat) by (destruct S0 as (_ & (W & _) & _); apply W; eapply nth_error_In; exact Hi).
    split; [|split].
    + rewrite T4, A7. destruct (in_dec Nat.eq_dec k' (ds_frames d1)) as [|Q]; [rewrite Q1; reflexivity|].
      exfalso. apply Q. eapply nth_error_In. exact Hi'.
    + rewrite T4, A7. destruct (in_dec Nat.eq_dec k (ds_frames d1)) as [Q|].
      * rewrite Fr in Q. apply in_seq in Q. lia.
      * rewrite (Old k Hkn). reflexivity.
    + intros key f Hkey. unfold touched in Hkey. cbn [In] in Hkey. rewrite T4, A6, Q2.
      unfold h3. rewrite stamp_keys by (intro; subst; apply Hkey; auto).
      rewrite A8.
      * apply Keys. intros kv [<-|[<-|[]]]; cbn [fst]; intro; subst; apply Hkey; auto.
      * intro; subst; apply Hkey; auto.
      * intros kv Hkv Q. apply Hkey. right. right. right. right. apply in_map_iff. exists kv. auto.
  - intros k Hk Hne. rewrite TL. unfold level_of. rewrite (A6 k HExt : im_ext _ = im_ext _). rewrite (Old k Hk).
    rewrite B2.
    + apply Keys. intros kv [<-|[<-|[]]]; discriminate.
    + intros k' Hk'. apply In_nth_error in Hk'. destruct Hk' as [i Hi'].
      assert (i < List.length (ds_frames d))%nat as Hlt by (rewrite <- Len; apply nth_error_Some; congruence).
      destruct (nth_error (ds_frames d) i) as [k0|] eqn:Ek; [|apply nth_error_None in Ek; lia].
      rewrite (Ext1 i k0 k' Ek Hi'). apply Hne. eapply nth_error_In. exact Ek.
Qed.

(** ** Sequences of updates *)
Definition standard (u : updater) : Prop :=
  u = up_l2a \/ u = up_l2b \/ u = up_l3 \/ (exists ct fl, u = up_l4 ct (Some fl)) \/ u = up_tda.

Lemma standard_ok u : standard u -> u_fail u = None /\ (forall kv, In kv (u_cards u) -> fst kv <> "DATALVL")
  /\ exists i, nth_error levels i = Some (u_prev u) /\ nth_error levels (S i) = Some (u_new u).
Proof.
  intros [-> |[-> |[-> |[(ct & fl & ->)| ->]]]]; (split; [reflexivity|split]).
  - intros kv [].
  - exists 0. auto.
  - intros kv [].
  - exists 1. auto.
  - intros kv [].
  - exists 2. auto.
  - cbn. intros kv [<-|[<-|[]]]; discriminate.
  - exists 3. auto.
  - intros kv [].
  - exists 4. auto.
Qed.

Lemma levels_nodup : NoDup levels.
Proof. repeat constructor; cbn; intuition discriminate. Qed.
Lemma levels_inj i j l : nth_error levels i = Some l -> nth_error levels j = Some l -> i = j.
Proof. intros A B. apply (proj1 (NoDup_nth_error levels) levels_nodup); [apply nth_error_Some; congruence|congruence]. Qed.

Lemma level_run_chain version now : forall us (h : heap) d h' d' log i,
  Forall standard us -> Sound V h d ->
  level_run V version now h d us = (h', d', log) ->
  (exists l, nth_error levels i = Some l /\ all_at V h d l) ->
  Sound V h' d'
  /\ map (fun u => Some (u_prev u)) log = map (nth_error levels) (seq i (List.length log))
  /\ map (fun u => Some (u_new u)) log = map (nth_error levels) (seq (S i) (List.length log))
  /\ (exists l, nth_error levels (i + List.length log) = Some l /\ all_at V h' d' l)
  /\ List.length (ds_frames d') = List.length (ds_frames d)
  /\ (forall f j l p, cube_pixel V h' d' f j l p = cube_pixel V h d f j l p).
Proof.
  induction us as [|u t IH]; intros h d h' d' log i FS S0 H AT; cbn [level_run] in H.
  - injection H as <- <- <-. split; [exact S0|]. split; [reflexivity|]. split; [reflexivity|]. split; [rewrite Nat.add_0_r; exact AT|]. split; reflexivity.
  - inversion FS as [|u0 t0 Su St]; subst u0 t0. destruct (standard_ok u Su) as (NF & NC & j & J1 & J2).
    pose proof (update_level_spec version now h d u S0 NF NC) as US.
    destruct (update_level V version now h d u) as [h1 [d1|x]].
    + destruct (level_run V version now h1 d1 t) as [[h2 d2] lg] eqn:ER. injection H as <- <- <-.
      destruct US as (A1 & A2 & A3 & A4 & A5 & A6 & A7 & A8 & A9 & A10).
      destruct AT as (l & Hl & Al).
      assert (l = u_prev u).
      { destruct S0 as (_ & _ & NE & _). destruct (ds_frames d) as [|k0 fr] eqn:Ef; [congruence|].
        assert (In k0 (ds_frames d)) as Hin by (rewrite Ef; left; reflexivity).
        specialize (A1 k0 Hin). specialize (Al k0 Hin). congruence. }
      subst l. assert (i = j) by (eapply levels_inj; eassumption). subst j.
      destruct (IH h1 d1 h2 d2 lg (S i) St A2 ER) as (B1 & B2 & B2' & B3 & B4 & B5).
      { exists (u_new u). auto. }
      cbn [List.length]. replace (i + S (List.length lg)) with (S i + List.length lg) by lia.
      split; [exact B1|]. split; [cbn [map seq]; rewrite B2; rewrite Hl; reflexivity|].
      split; [change (seq (S i) (S (List.length lg))) with (S i :: seq (S (S i)) (List.length lg)); cbn [map]; rewrite B2'; rewrite J2; reflexivity|].
      split; [exact B3|]. split; [congruence|]. intros f j l p. rewrite B5. apply A7.
    + destruct US as (-> & _). apply (IH h d h' d' log i St S0 H AT).
Qed.

(** Frames at different (or unknown, or missing) levels: no update ever succeeds. *)
Lemma level_run_mixed version now : forall us (h : heap) d,
  Forall standard us -> Sound V h d ->
  (forall l, In l levels -> ~ all_at V h d l) ->
  level_run V version now h d us = (h, d, []).
Proof.
  induction us as [|u t IH]; intros h d FS S0 MX; cbn [level_run]; [reflexivity|].
  inversion FS as [|u0 t0 Su St]; subst u0 t0. destruct (standard_ok u Su) as (NF & NC & j & J1 & J2).
  pose proof (update_level_spec version now h d u S0 NF NC) as US.
  destruct (update_level V version now h d u) as [h1 [d1|x]].
  - destruct US as (A1 & _). exfalso. apply (MX (u_prev u)); [eapply nth_error_In; exact J1|exact A1].
  - destruct US as (-> & _). apply IH; assumption.
Qed.

(** The input dataset is itself moved to the new level, so the same call on it
    fails the second time. *)
Lemma update_twice version now (h : heap) d u h' d' :
  Sound V h d -> standard u -> update_level V version now h d u = (h', Ok d') ->
  update_level V version now h' d u = (h', Raise ValueError).
Proof.
  intros S0 Su H. destruct (standard_ok u Su) as (NF & NC & j & J1 & J2).
  pose proof (update_level_spec version now h d u S0 NF NC) as US. rewrite H in US.
  destruct US as (A1 & A2 & A3 & A4 & A5 & _).
  assert (NEQ : u_new u <> u_prev u) by (intro Q; rewrite Q in J2; assert (j = S j) by (eapply levels_inj; eassumption); lia).
  unfold update_level. destruct A3 as (_ & _ & NE & _). destruct (ds_frames d) as [|k0 fr] eqn:Ef; [congruence|].
  cbn [check_level]. assert (In k0 (ds_frames d)) as Hin by (rewrite Ef; left; reflexivity).
  specialize (A5 k0 Hin). unfold level_of in A5. rewrite A5.
  destruct (String.eqb_spec (u_new u) (u_prev u)); [congruence|reflexivity].
Qed.
End P.

(** update_to_l4 without a flux calibration. *)
Lemma l4_no_flux V version now (h : heap V) d ct k0 fr :
  Sound V h d -> ds_frames d = k0 :: fr -> all_at V h d "L3" ->
  exists h', update_level V version now h d (up_l4 ct None) = (h', Raise AttributeError) /\ level_of V h' k0 = Some "L4".
Proof.
  intros S0 Ef AL. unfold update_level.
  pose proof (check_level_spec V h "L3" (ds_frames d)) as CL. cbn [u_prev up_l4].
  destruct (check_level V h "L3" (ds_frames d)) as [x|].
  { destruct CL as (k & Hk & Q & _). exfalso. apply Q. apply AL. exact Hk. }
  set (st := [("DRPVERSN", version); ("DRPCTIME", now)]).
  destruct (shallow_copy_total V st h d S0) as (h1 & d1 & E). rewrite E.
  destruct (shallow_copy_full V st h d h1 d1 S0 E) as (S1 & S2 & Fr & P1 & P2 & Old & Nm & Keys).
  assert (Hk0 : (k0 < nimg V h)%nat) by (destruct S0 as (_ & (W & _) & _); apply W; rewrite Ef; left; reflexivity).
  rewrite Ef in Fr. cbn [List.length seq] in Fr. rewrite Fr. cbn [level_loop u_fail up_l4].
  eexists. split; [reflexivity|]. unfold level_of. cbn [DatasetModel.hdr DatasetModel.img set_hdr]. rewrite (Old k0 Hk0).
  assert (Q : im_ext (img V h1 (nimg V h)) = im_ext (img V h k0)).
  { apply (proj2 (Nm 0 k0 (nimg V h) ltac:(rewrite Ef; reflexivity) ltac:(rewrite Fr; reflexivity)) HExt). }
  rewrite Q. unfold upd. rewrite Nat.eqb_refl.
  change (set_keys (("DATALVL", "L4") :: u_cards (up_l4 ct None)) ?x) with (set_keys (u_cards (up_l4 ct None)) (hset "DATALVL" "L4" x)).
  cbn [u_new up_l4]. change (u_new (up_l4 ct None)) with "L4".
  change (set_keys (("DATALVL", "L4") :: u_cards (up_l4 ct None)) ?x) with (set_keys (u_cards (up_l4 ct None)) (hset "DATALVL" "L4" x)).
  rewrite hget_set_keys_other by (intros kv [<-|[]]; discriminate). apply hget_hset_same. discriminate.
Qed.

(** The names along the chain of updates. *)
Lemma rename_chain a b : (forall a' t' b', In t' tags -> append a (append "_L1_" b) = append a' (append t' b') -> (String.length a <= String.length a')%nat) ->
  replace1 "_L4_" "_TDA_" (replace1 "_L3_" "_L4_" (replace1 "_L2b" "_L3_" (replace1 "_L2a" "_L2b" (replace1 "_L1_" "_L2a" (append a (append "_L1_" b))))))
  = append a (append "_TDA_" b).
Proof.
  intro F0.
  assert (F : first_tag (append a (append "_L1_" b)) a "_L1_" b) by (split; [reflexivity|split; [cbn; auto|exact F0]]).
  rewrite (first_tag_replace _ _ _ _ "_L2a" F).
  apply (replaced_first _ _ _ _ "_L2a") in F; [|cbn; auto]. rewrite (first_tag_replace _ _ _ _ "_L2b" F).
  apply (replaced_first _ _ _ _ "_L2b") in F; [|cbn; auto]. rewrite (first_tag_replace _ _ _ _ "_L3_" F).
  apply (replaced_first _ _ _ _ "_L3_") in F; [|cbn; auto 6]. rewrite (first_tag_replace _ _ _ _ "_L4_" F).
  apply (replaced_first _ _ _ _ "_L4_") in F; [|cbn; auto 8]. rewrite (first_tag_replace _ _ _ _ "_TDA_" F). reflexivity.
Qed.
