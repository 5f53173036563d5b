From Coq Require Import List Arith Bool Lia String.
From Verif Require Import Base DatasetModel DatasetSpec DatasetProofs DatasetCopyProofs.
Import ListNotations.

Section P.
Variable V : Type.
Variable quad mul : V -> V -> V.
Notation heap := (heap V).
Notation buf := (buf V). Notation nbuf := (nbuf V).
Notation hdr := (hdr V). Notation nhdr := (nhdr V).
Notation img := (img V). Notation nimg := (nimg V).

(** ** Slices *)

Lemma pick_frames_ok : forall idx frames ks, pick_frames frames idx = Ok ks ->
  List.length ks = List.length idx /\
  forall j i, nth_error idx j = Some i -> exists k, nth_error frames i = Some k /\ nth_error ks j = Some k.
Proof.
  induction idx as [|i0 idx IH]; intros frames ks H; cbn in H.
  - injection H as <-. split; [reflexivity|]. intros [|j] i Hj; discriminate.
  - destruct (nth_error frames i0) as [k0|] eqn:E; [|discriminate].
    destruct (pick_frames frames idx) as [ks'|] eqn:E2; cbn in H; [|discriminate]. injection H as <-.
    destruct (IH frames ks' E2) as [L1 L2]. split; [cbn; congruence|].
    intros [|j] i Hj; cbn in Hj.
    + injection Hj as <-. exists k0. auto.
    + destruct (L2 j i Hj) as (k & A & B). exists k. auto.
Qed.

Lemma pick_frames_nodup idx frames ks :
  NoDup idx -> NoDup frames -> pick_frames frames idx = Ok ks -> NoDup ks.
Proof.
  intros Hi Hf. revert ks. induction Hi as [|i0 idx Hx Hi IH]; intros ks H; cbn in H.
  - injection H as <-. constructor.
  - destruct (nth_error frames i0) as [k0|] eqn:E; [|discriminate].
    destruct (pick_frames frames idx) as [ks'|] eqn:E2; cbn in H; [|discriminate]. injection H as <-.
    constructor; [|apply IH; reflexivity]. intro K. apply In_nth_error in K. destruct K as [j Hj].
    destruct (pick_frames_ok _ _ _ E2) as [L1 L2].
    destruct (nth_error idx j) as [i|] eqn:Ei.
    + destruct (L2 j i Ei) as (k & A & B). rewrite Hj in B. injection B as <-.
      assert (i0 = i).
      { apply (proj1 (NoDup_nth_error frames) Hf); [apply nth_error_Some; congruence|congruence]. }
      subst i. apply Hx. eapply nth_error_In. exact Ei.
    + apply nth_error_None in Ei. assert (j < List.length ks')%nat by (apply nth_error_Some; congruence). lia.
Qed.

Lemma slice_spec (h : heap) d idx h' s :
  Linked V h d -> NoDup idx -> getitem V h d idx = Ok (h', s) ->
  Linked V h' s
  /\ List.length (ds_frames s) = List.length idx
  /\ (forall j i, nth_error idx j = Some i -> nth_error (ds_frames s) j = nth_error (ds_frames d) i)
  /\ (forall f j i l p, nth_error idx j = Some i -> cube_pixel V h' s f j l p = cube_pixel V h d f i l p)
  /\ (forall f i l p, cube_pixel V h' d f i l p = cube_pixel V h d f i l p)
  /\ (forall i, ~ In i idx -> forall f l p, frame_pixel V h' d f i l p = cube_pixel V h' d f i l p)
  /\ hdr h' = hdr h.
Proof.
  intros L Hi H. unfold getitem in H. destruct (pick_frames (ds_frames d) idx) as [ks|] eqn:E; cbn [bind] in H; [|discriminate].
  pose proof L as (N1 & N2 & N3 & N4 & N5).
  pose proof (pick_frames_nodup idx (ds_frames d) ks Hi N1 E) as Hks.
  destruct (pick_frames_ok idx (ds_frames d) ks E) as [P1 P2].
  pose proof (new_dataset_linked V h ks h' s Hks H) as L'.
  pose proof (new_dataset_contents V h ks h' s H) as Cont.
  apply new_dataset_inv in H.
  destruct H as (_ & bd & be & bq & G1 & G2 & G3 & Ed & Hb & Hnb & Hh & Hnh & Hni & Him & Hids & Hv).
  assert (Bd : forall f, buf h' (cube f d) = buf h (cube f d)).
  { intro f. rewrite Hb. pose proof (N3 f). rewrite !upd_other by lia. reflexivity. }
  split; [exact L'|]. rewrite Ed. cbn [ds_frames]. split; [exact P1|]. split; [|split; [|split; [|split]]].
  - intros j i Hj. destruct (P2 j i Hj) as (k & A & B). congruence.
  - intros f j i l p Hj. unfold cube_pixel. rewrite <- Ed. destruct (P2 j i Hj) as (k & A & B).
    rewrite (Cont f j k B). rewrite (N5 i k A f). reflexivity.
  - intros f i l p. unfold cube_pixel. rewrite Bd. reflexivity.
  - intros i Hin f l p. unfold frame_pixel, cube_pixel. destruct (nth_error (ds_frames d) i) as [k|] eqn:Ek.
    + rewrite Him.
      * rewrite (N5 i k Ek f). reflexivity.
      * intro K. apply In_nth_error in K. destruct K as [j Hj].
        destruct (nth_error idx j) as [i'|] eqn:Ei.
        -- destruct (P2 j i' Ei) as (k' & A & B). assert (k' = k) by congruence. subst k'.
           assert (i = i').
           { apply (proj1 (NoDup_nth_error (ds_frames d)) N1); [apply nth_error_Some; congruence|congruence]. }
           subst i'. apply Hin. eapply nth_error_In. exact Ei.
        -- apply nth_error_None in Ei. assert (j < List.length ks)%nat by (apply nth_error_Some; congruence). lia.
    + assert (nth_error (buf h' (cube f d)) i = None) as ->.
      { apply nth_error_None. rewrite Bd, N2. apply nth_error_None. exact Ek. }
      reflexivity.
  - exact Hh.
Qed.

(** A write through a selected frame of the parent goes to the slice only. *)
Lemma slice_steals_frames (h : heap) d idx h' s :
  Linked V h d -> NoDup idx -> getitem V h d idx = Ok (h', s) ->
  forall f j i l p x h'', nth_error idx j = Some i ->
    write_frame V h' d f i l p x = Ok h'' ->
    cube_pixel V h'' s f j l p = Some x
    /\ (forall f' i' l' p', cube_pixel V h'' d f' i' l' p' = cube_pixel V h' d f' i' l' p').
Proof.
  intros L Hi H f j i l p x h'' Hj Hw.
  destruct (slice_spec h d idx h' s L Hi H) as (L' & _ & Fr & _).
  assert (Cs : forall f f', cube f' d <> cube f s).
  { unfold getitem in H. destruct (pick_frames (ds_frames d) idx) as [ks|]; cbn [bind] in H; [|discriminate].
    apply new_dataset_inv in H. destruct H as (_ & bd & be & bq & _ & _ & _ & Ed & _).
    destruct L as (_ & _ & N3 & _). intros f1 f2. pose proof (N3 f2). rewrite Ed. destruct f1; cbn; lia. }
  assert (Hw' : write_cube V h' s f j l p x = Ok h'').
  { rewrite <- (write_frame_is_cube V h' s f j l p x L'). unfold write_frame in *. rewrite (Fr j i Hj). exact Hw. }
  destruct (write_cube_exact V h' s f j l p x h'' L' Hw') as (_ & E & Hb & _).
  split.
  - rewrite E. replace (field_eqb f f) with true by (destruct f; reflexivity). rewrite !Nat.eqb_refl. reflexivity.
  - intros f' i' l' p'. unfold cube_pixel. rewrite Hb by apply Cs. reflexivity.
Qed.

(** ** Shallow copies *)

Lemma copy_frames_shallow stamps : forall frames (h : heap) h' frames',
  (forall k, In k frames -> (k < nimg h)%nat) ->
  copy_frames V false stamps h frames = (h', frames') ->
  frames' = seq (nimg h) (List.length frames) /\ buf h' = buf h /\ nbuf h' = nbuf h /\ nhdr h' = nhdr h
  /\ nimg h' = nimg h + List.length frames
  /\ (forall k, (k < nimg h)%nat -> img h' k = img h k)
  /\ (forall i k, nth_error frames i = Some k -> img h' (nimg h + i) = img h k).
Proof.
  induction frames as [|k t IH]; intros h h' frames' Hk H; cbn [copy_frames] in H.
  - injection H as <- <-. repeat split; cbn; auto. intros [|i] k Hi; discriminate.
  - destruct (img_copy V false stamps h k) as [h1 k1] eqn:E1. unfold img_copy in E1. cbn in E1.
    injection E1 as E1 Ek1. subst k1.
    destruct (copy_frames V false stamps h1 t) as [h2 t'] eqn:E. injection H as <- <-.
    assert (Q : buf h1 = buf h /\ nbuf h1 = nbuf h /\ nhdr h1 = nhdr h /\ nimg h1 = S (nimg h)
                /\ img h1 = upd (img h) (nimg h) (img h k)) by (rewrite <- E1; repeat split).
    destruct Q as (Q1 & Q2 & Q3 & Q4 & Q5).
    apply IH in E.
    2:{ intros k' Hk'. specialize (Hk k' (or_intror Hk')). lia. }
    destruct E as (-> & B & NB & NH & NI & I1 & I2).
    rewrite Q4 in *. split; [reflexivity|]. split; [congruence|]. split; [congruence|]. split; [congruence|].
    split; [cbn [List.length]; lia|]. split.
    + intros k' Hk'. rewrite I1 by lia. rewrite Q5. apply upd_other. lia.
    + intros [|i] k' Hi; cbn in Hi.
      * injection Hi as <-. rewrite Nat.add_0_r. rewrite I1 by lia. rewrite Q5. apply upd_same.
      * specialize (I2 i k' Hi).
        replace (nimg h + S i)%nat with (S (nimg h) + i)%nat by lia. rewrite I2, Q5.
        apply upd_other. specialize (Hk k'). assert (In k' (k :: t)) as K by (right; eapply nth_error_In; exact Hi).
        specialize (Hk K). lia.
Qed.

Lemma shallow_copy_spec stamps (h : heap) d h' d' :
  WellFormed V h d -> Linked V h d -> ds_copy V false stamps h d = Ok (h', d') ->
  Linked V h' d /\ Linked V h' d' /\ PixelSeparate V h' d d'
  /\ (forall f i l p, cube_pixel V h' d f i l p = cube_pixel V h d f i l p)
  /\ (forall f i l p, cube_pixel V h' d' f i l p = cube_pixel V h d f i l p)
  (* the headers are the same objects *)
  /\ List.length (ds_frames d') = List.length (ds_frames d)
  /\ (forall i k k', nth_error (ds_frames d) i = Some k -> nth_error (ds_frames d') i = Some k' ->
       forall f, im_hdr f (img h' k') = im_hdr f (img h' k)).
Proof.
  intros W L H. unfold ds_copy in H.
  destruct (copy_frames V false stamps h (ds_frames d)) as [h1 fr] eqn:E.
  apply copy_frames_shallow in E; [|intros k Hk; apply W; exact Hk].
  destruct E as (-> & B1 & NB1 & NH1 & NI1 & I1 & I2).
  assert (HN : NoDup (seq (nimg h) (List.length (ds_frames d)))) by apply seq_NoDup.
  pose proof (new_dataset_linked V h1 _ h' d' HN H) as L'.
  pose proof (new_dataset_contents V h1 _ h' d' H) as Cont.
  apply new_dataset_inv in H.
  destruct H as (_ & bd & be & bq & G1 & G2 & G3 & Ed & Hb & Hnb & Hh & Hnh & Hni & Him & Hids & Hv).
  assert (Old : forall k, (k < nimg h)%nat -> img h' k = img h k).
  { intros k Hk. rewrite Him; [apply I1; exact Hk|]. rewrite in_seq. lia. }
  assert (Bd : forall b, (b < nbuf h)%nat -> buf h' b = buf h b).
  { intros b Hbb. rewrite Hb, !upd_other by lia. rewrite B1. reflexivity. }
  assert (Bf : forall f, buf h' (cube f d) = buf h (cube f d)).
  { intro f. apply Bd. destruct L as (_ & _ & N3 & _). apply N3. }
  assert (Es : forall i k, nth_error (ds_frames d) i = Some k ->
             nth_error (seq (nimg h) (List.length (ds_frames d))) i = Some (nimg h + i)).
  { intros i k Ek. assert (i < List.length (ds_frames d))%nat as Hlt by (apply nth_error_Some; congruence).
    erewrite nth_error_nth' with (d := 0); [rewrite seq_nth by exact Hlt; reflexivity|rewrite seq_length; exact Hlt]. }
  assert (Ld : Linked V h' d).
  { apply (linked_transport V h h' d L).
    - intro f. rewrite Bf. reflexivity.
    - lia.
    - intros k Hk. apply Old. apply W. exact Hk. }
  split; [exact Ld|]. split; [exact L'|]. split; [|split; [|split; [|split]]].
  - split.
    + intros k Hk Hk'. rewrite Ed in Hk'. cbn in Hk'. apply in_seq in Hk'.
      destruct W as [A _]. destruct (A k Hk) as (A1 & _). lia.
    + intros b Hr Hr'.
      assert (b < nbuf h)%nat.
      { destruct Ld as (_ & _ & _ & _ & Lv). destruct W as [_ C].
        destruct Hr as [[f ->]|(k & f & Hk & ->)]; [apply C|].
        apply In_nth_error in Hk. destruct Hk as [i Hi]. rewrite (Lv i k Hi f). apply C. }
      assert (nbuf h <= b)%nat.
      { assert (forall f, nbuf h <= cube f d')%nat as C' by (rewrite Ed; intros []; cbn; lia).
        destruct Hr' as [[f ->]|(k & f & Hk & ->)]; [apply C'|].
        apply In_nth_error in Hk. destruct Hk as [i Hi]. destruct L' as (_ & _ & _ & _ & L').
        rewrite (L' i k Hi f). apply C'. }
      lia.
  - intros f i l p. unfold cube_pixel. rewrite Bf. reflexivity.
  - intros f i l p. unfold cube_pixel. destruct (nth_error (ds_frames d) i) as [k|] eqn:Ek.
    + rewrite (Cont f i _ (Es i k Ek)). rewrite (I2 i k Ek).
      destruct L as (_ & _ & _ & _ & Lv). rewrite (Lv i k Ek f). unfold view_block. rewrite B1. reflexivity.
    + apply nth_error_None in Ek.
      destruct L as (_ & Ll & _). destruct L' as (_ & Ll' & _).
      assert (E1 : nth_error (buf h' (cube f d')) i = None).
      { apply nth_error_None. rewrite Ll', Ed. cbn. rewrite seq_length. exact Ek. }
      assert (E2 : nth_error (buf h (cube f d)) i = None).
      { apply nth_error_None. rewrite Ll. exact Ek. }
      rewrite E1, E2. reflexivity.
  - rewrite Ed. cbn. apply seq_length.
  - intros i k k' Hk Hk' f. rewrite Ed in Hk'. cbn in Hk'. rewrite (Es i k Hk) in Hk'. injection Hk' as <-.
    rewrite Hids, (I2 i k Hk). rewrite Old; [reflexivity|]. apply W. eapply nth_error_In. exact Hk.
Qed.

(** Setting a keyword in the copy changes the original. *)
Lemma shallow_header_shared stamps (h : heap) d h' d' :
  WellFormed V h d -> Linked V h d -> ds_copy V false stamps h d = Ok (h', d') ->
  forall f i key v h'' hd, set_key V h' d' f i key v = Ok h'' ->
    frame_header V h' d f i = Some hd -> frame_header V h'' d f i = Some (hset key v hd).
Proof.
  intros W L H f i key v h'' hd Hs Hf.
  destruct (shallow_copy_spec stamps h d h' d' W L H) as (_ & _ & _ & _ & _ & _ & Sh).
  unfold set_key in Hs. destruct (nth_error (ds_frames d') i) as [k'|] eqn:E'; [|discriminate].
  injection Hs as <-. unfold frame_header in *.
  destruct (nth_error (ds_frames d) i) as [k|] eqn:E; [|discriminate]. injection Hf as <-.
  cbn. rewrite (Sh i k k' E E' f). rewrite upd_same. reflexivity.
Qed.

(** Pixel operations on one of two datasets without common arrays. *)
Lemma local_other_pixels h d h' d' o :
  Local V h d h' d' -> WellFormed V h o -> PixelSeparate V h d o ->
  WellFormed V h' o /\ PixelSeparate V h' d' o
  /\ (forall f i l p, cube_pixel V h' o f i l p = cube_pixel V h o f i l p)
  /\ (forall f i l p, frame_pixel V h' o f i l p = frame_pixel V h o f i l p).
Proof.
  intros L W (S1 & S2).
  assert (Im : forall k, In k (ds_frames o) -> img h' k = img h k).
  { intros k Hk. apply (lc_img _ _ _ _ _ L). intro K. apply (S1 k K Hk). }
  assert (Re : forall b, Reaches V h' o b <-> Reaches V h o b).
  { intro b. split; (intros [[f ->]|(k & f & Hk & ->)]; [left; eauto|right; exists k, f; rewrite Im by exact Hk; auto]). }
  assert (Bf : forall b, Reaches V h o b -> buf h' b = buf h b).
  { intros b Hb. apply (lc_buf _ _ _ _ _ L).
    - eapply wf_reach; eassumption.
    - intro K. apply (S2 b K Hb). }
  split; [|split; [|split]].
  - destruct W as [A C]. split.
    + intros k Hk. destruct (A k Hk) as (A1 & A2 & A3). rewrite Im by exact Hk.
      split; [rewrite (lc_nimg _ _ _ _ _ L); exact A1|]. split.
      * intro f. pose proof (lc_nbuf _ _ _ _ _ L). specialize (A2 f). lia.
      * intro f. rewrite (lc_nhdr _ _ _ _ _ L). apply A3.
    + intro f. pose proof (lc_nbuf _ _ _ _ _ L). specialize (C f). lia.
  - split.
    + intros k Hk. rewrite (lc_frames _ _ _ _ _ L) in Hk. apply S1. exact Hk.
    + intros b Hb Ho. apply Re in Ho. destruct (lc_reach _ _ _ _ _ L b Hb) as [K|K].
      * apply (S2 b K Ho).
      * pose proof (wf_reach V h o b W Ho). lia.
  - intros f i l p. unfold cube_pixel. rewrite Bf; [reflexivity|]. left. eauto.
  - intros f i l p. unfold frame_pixel. destruct (nth_error (ds_frames o) i) as [k|] eqn:E; [|reflexivity].
    assert (In k (ds_frames o)) as Hk by (eapply nth_error_In; exact E).
    rewrite Im by exact Hk. rewrite Bf; [reflexivity|]. right. exists k, f. auto.
Qed.

Lemma drun_local : forall os (h : heap) d, Local V h d (fst (drun V quad mul h d os)) (snd (drun V quad mul h d os)).
Proof.
  induction os as [|o os IH]; intros h d; [apply local_refl|].
  unfold drun. cbn [fold_left fst snd].
  destruct (dstep V quad mul h d o) as [[h' d'] x] eqn:E. cbn [fst].
  eapply local_trans; [eapply dstep_local; exact E|apply IH].
Qed.

Lemma shallow_pixels_independent stamps (h : heap) d h' d' os :
  WellFormed V h d -> Linked V h d -> ds_copy V false stamps h d = Ok (h', d') ->
  let h2 := fst (drun V quad mul h' d' os) in
  (forall f i l p, cube_pixel V h2 d f i l p = cube_pixel V h d f i l p)
  /\ (forall f i l p, frame_pixel V h2 d f i l p = frame_pixel V h d f i l p).
Proof.
  intros W L H h2. destruct (shallow_copy_spec stamps h d h' d' W L H) as (Ld & L' & PS & C1 & C2 & Hlen & Sh).
  assert (W' : WellFormed V h' d).
  { unfold ds_copy in H. destruct (copy_frames V false stamps h (ds_frames d)) as [h1 fr] eqn:E.
    apply copy_frames_shallow in E; [|intros k Hk; apply W; exact Hk].
    destruct E as (-> & B1 & NB1 & NH1 & NI1 & I1 & I2). apply new_dataset_inv in H.
    destruct H as (_ & bd & be & bq & G1 & G2 & G3 & Ed & Hb & Hnb & Hh & Hnh & Hni & Him & Hids & Hv).
    destruct W as [A C]. split.
    - intros k Hk. destruct (A k Hk) as (A1 & A2 & A3). split; [lia|].
      assert (EI : img h' k = img h k) by (rewrite Him; [apply I1; exact A1|rewrite in_seq; lia]).
      rewrite EI. split; intro f; [specialize (A2 f)|specialize (A3 f)]; lia.
    - intro f. specialize (C f). lia. }
  pose proof (drun_local os h' d') as Lo.
  assert (PS' : PixelSeparate V h' d' d).
  { destruct PS as [P1 P2]. split; [intros k K1 K2; apply (P1 k K2 K1)|intros b K1 K2; apply (P2 b K2 K1)]. }
  destruct (local_other_pixels h' d' _ _ d Lo W' PS') as (_ & _ & E1 & E2).
  split; intros f i l p.
  - unfold h2. rewrite E1. apply C1.
  - unfold h2. rewrite E2. rewrite (linked_pixels V h' d Ld), (linked_pixels V h d L). apply C1.
Qed.

(** An interleaved history on a dataset and its deep copy never leaks. *)
Lemma deep_copy_independent stamps (h : heap) d h' d' os bo :
  WellFormed V h d -> Linked V h d -> ds_copy V true stamps h d = Ok (h', d') ->
  let s := both_run V quad mul (h', d, d') os in
  let s' := both_step V quad mul s bo in
  (fst bo = true -> same_observations V (fst (fst s)) (snd s) (fst (fst s')) (snd s'))
  /\ (fst bo = false -> same_observations V (fst (fst s)) (snd (fst s)) (fst (fst s')) (snd (fst s'))).
Proof.
  intros W L H s s'. destruct (deep_copy_spec V stamps h d h' d' W L H) as (A & _).
  apply (both_step_apart V quad mul). apply both_run_apart. exact A.
Qed.
End P.

(** ** Concrete heap used in the examples: two 1x2 images over nat. *)
Definition ex_img (b : nat) (hd : nat) (name : string) : image :=
  mkimage (b, 0) (b + 1, 0) (b + 2, 0) hd (hd + 1) (hd + 2) (hd + 3) name.

Definition ex_heap : heap nat :=
  mkheap nat (fun b => [[[b * 10; b * 10 + 1]]]) 6 (fun _ => []) 8
    (fun k => if Nat.eqb k 0 then ex_img 0 0 "a" else ex_img 3 4 "b") 2.

Definition ex_ds : heap nat * dataset :=
  match new_dataset nat ex_heap [0; 1] with Ok s => s | Raise _ => (ex_heap, mkds [] 0 0 0) end.
