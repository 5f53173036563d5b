From Coq Require Import List Arith Bool Lia String.
From Verif Require Import Base DatasetModel DatasetSpec.
Import ListNotations.

Lemma set_nth_length {A} (l : list A) i x : List.length (set_nth l i x) = List.length l.
Proof. revert i. induction l as [|y l IH]; intros [|i]; cbn; auto. Qed.

Lemma nth_error_set_nth {A} (l : list A) : forall i j x,
  nth_error (set_nth l i x) j =
  if Nat.eqb j i then (if Nat.ltb i (List.length l) then Some x else None) else nth_error l j.
Proof.
  induction l as [|y l IH]; intros i j x.
  - cbn. destruct (Nat.eqb j i); destruct j; reflexivity.
  - destruct i as [|i]; destruct j as [|j]; cbn; try reflexivity.
    rewrite IH. destruct (Nat.eqb j i); reflexivity.
Qed.

Lemma upd_same {A} (m : nat -> A) i x : upd m i x i = x.
Proof. unfold upd. rewrite Nat.eqb_refl. reflexivity. Qed.
Lemma upd_other {A} (m : nat -> A) i j x : j <> i -> upd m i x j = m j.
Proof. unfold upd. intro H. apply Nat.eqb_neq in H. rewrite H. reflexivity. Qed.

Lemma im_view_set f f' v m : im_view f' (set_view f v m) = if (match f, f' with FData, FData => true | FErr, FErr => true | FDq, FDq => true | _, _ => false end) then v else im_view f' m.
Proof. destruct f, f'; reflexivity. Qed.

Lemma im_hdr_set f v m hf : im_hdr hf (set_view f v m) = im_hdr hf m.
Proof. destruct f, hf; reflexivity. Qed.

Section P.
Variable V : Type.
Variable quad mul : V -> V -> V.
Notation heap := (heap V).
Notation buf := (buf V). Notation nbuf := (nbuf V).
Notation hdr := (hdr V). Notation nhdr := (nhdr V).
Notation img := (img V). Notation nimg := (nimg V).

(** ** repoint *)
Lemma repoint_frame : forall frames (h : heap) f b i,
  buf (repoint V h f b i frames) = buf h /\ nbuf (repoint V h f b i frames) = nbuf h
  /\ hdr (repoint V h f b i frames) = hdr h /\ nhdr (repoint V h f b i frames) = nhdr h
  /\ nimg (repoint V h f b i frames) = nimg h
  /\ (forall k, ~ In k frames -> img (repoint V h f b i frames) k = img h k)
  /\ (forall k hf, im_hdr hf (img (repoint V h f b i frames) k) = im_hdr hf (img h k))
  /\ (forall k f', f' <> f -> im_view f' (img (repoint V h f b i frames) k) = im_view f' (img h k)).
Proof.
  induction frames as [|k0 t IH]; intros h f b i; cbn [repoint].
  - repeat split.
  - destruct (IH (set_img V h k0 (set_view f (b, i) (img h k0))) f b (S i))
      as (H1 & H2 & H3 & H4 & H5 & H6 & H7 & H8).
    rewrite H1, H2, H3, H4, H5. repeat split.
    + intros k Hk. rewrite H6 by (cbn in Hk; tauto). cbn. apply upd_other. cbn in Hk. intuition congruence.
    + intros k hf. rewrite H7. cbn. unfold upd. destruct (Nat.eqb_spec k k0) as [->|]; [apply im_hdr_set|reflexivity].
    + intros k f' Hf. rewrite (H8 k f' Hf). cbn. unfold upd.
      destruct (Nat.eqb_spec k k0) as [->|]; [|reflexivity].
      rewrite im_view_set. destruct f, f'; congruence.
Qed.

Lemma repoint_nth : forall frames (h : heap) f b i, NoDup frames ->
  forall j k, nth_error frames j = Some k ->
  img (repoint V h f b i frames) k = set_view f (b, i + j) (img h k).
Proof.
  induction frames as [|k0 t IH]; intros h f b i Hn j k Hj; [destruct j; discriminate|].
  inversion Hn as [|? ? Hx Ht]; subst. cbn [repoint].
  destruct j as [|j]; cbn in Hj.
  - injection Hj as ->. rewrite Nat.add_0_r.
    destruct (repoint_frame t (set_img V h k (set_view f (b, i) (img h k))) f b (S i))
      as (_ & _ & _ & _ & _ & H6 & _). rewrite (H6 k Hx). cbn. apply upd_same.
  - rewrite (IH _ f b (S i) Ht j k Hj). cbn.
    assert (k <> k0). { intros ->. apply Hx. eapply nth_error_In. exact Hj. }
    rewrite upd_other by assumption. rewrite <- plus_n_Sm. reflexivity.
Qed.

(** Every view installed by repoint goes to [b]. *)
Lemma repoint_views : forall frames (h : heap) f b i k,
  im_view f (img (repoint V h f b i frames) k) = im_view f (img h k)
  \/ fst (im_view f (img (repoint V h f b i frames) k)) = b.
Proof.
  induction frames as [|k0 t IH]; intros h f b i k; cbn [repoint]; [auto|].
  destruct (IH (set_img V h k0 (set_view f (b, i) (img h k0))) f b (S i) k) as [H|H]; [|auto].
  rewrite H. cbn. unfold upd. destruct (Nat.eqb_spec k k0) as [->|]; [|auto].
  right. destruct f; reflexivity.
Qed.

(** ** gather *)
Lemma gather_ok : forall frames (h : heap) f bs, gather V h f frames = Ok bs ->
  List.length bs = List.length frames /\
  forall j k, nth_error frames j = Some k ->
    exists b, view_block V h (im_view f (img h k)) = Some b /\ nth_error bs j = Some b.
Proof.
  induction frames as [|k t IH]; intros h f bs H; cbn in H.
  - injection H as <-. split; [reflexivity|]. intros [|j] k Hj; discriminate.
  - destruct (view_block V h (im_view f (img h k))) as [b|] eqn:E; [|discriminate].
    destruct (gather V h f t) as [bs'|] eqn:E2; cbn in H; [|discriminate]. injection H as <-.
    destruct (IH h f bs' E2) as [L1 L2]. split; [cbn; congruence|].
    intros [|j] k' Hj; cbn in Hj.
    + injection Hj as <-. exists b. auto.
    + destruct (L2 j k' Hj) as (b' & Hb & Hn). exists b'. auto.
Qed.

Lemma collect_ok frames (h : heap) f bs : collect V h f frames = Ok bs -> gather V h f frames = Ok bs.
Proof.
  unfold collect. destruct (gather V h f frames) as [b|]; cbn; [|discriminate].
  destruct (homogeneous V b); congruence.
Qed.

(** ** new_dataset *)
Lemma new_dataset_inv (h : heap) frames h' d :
  new_dataset V h frames = Ok (h', d) ->
  frames <> [] /\
  exists bd be bq,
    gather V h FData frames = Ok bd /\ gather V h FErr frames = Ok be /\ gather V h FDq frames = Ok bq
    /\ d = mkds frames (nbuf h) (S (nbuf h)) (S (S (nbuf h)))
    /\ buf h' = upd (upd (upd (buf h) (nbuf h) bd) (S (nbuf h)) be) (S (S (nbuf h))) bq
    /\ nbuf h' = S (S (S (nbuf h)))
    /\ hdr h' = hdr h /\ nhdr h' = nhdr h /\ nimg h' = nimg h
    /\ (forall k, ~ In k frames -> img h' k = img h k)
    /\ (forall k hf, im_hdr hf (img h' k) = im_hdr hf (img h k))
    /\ (NoDup frames -> forall i k, nth_error frames i = Some k ->
          forall f, im_view f (img h' k) = (cube f d, i)).
Proof.
  unfold new_dataset. destruct frames as [|k0 t]; [discriminate|]. intro H.
  split; [discriminate|]. set (frames := k0 :: t) in *.
  destruct (collect V h FData frames) as [bd|] eqn:E1; cbn [bind] in H; [|discriminate].
  destruct (collect V h FErr frames) as [be|] eqn:E2; cbn [bind] in H; [|discriminate].
  destruct (collect V h FDq frames) as [bq|] eqn:E3; cbn [bind] in H; [|discriminate].
  unfold alloc_buf in H. cbn [buf nbuf DatasetModel.buf DatasetModel.nbuf] in H.
  set (h3 := mkheap V _ _ _ _ _ _) in H.
  set (h4 := repoint V h3 FData (nbuf h) 0 frames) in *.
  set (h5 := repoint V h4 FErr (S (nbuf h)) 0 frames) in *.
  set (h6 := repoint V h5 FDq (S (S (nbuf h))) 0 frames) in *.
  assert (Hh : h' = h6 /\ d = mkds frames (nbuf h) (S (nbuf h)) (S (S (nbuf h)))) by (split; congruence).
  destruct Hh as [-> ->]. clear H.
  exists bd, be, bq. split; [apply collect_ok; exact E1|].
  split; [apply collect_ok; exact E2|]. split; [apply collect_ok; exact E3|].
  split; [reflexivity|].
  destruct (repoint_frame frames h3 FData (nbuf h) 0) as (A1 & A2 & A3 & A4 & A5 & A6 & A7 & A8).
  destruct (repoint_frame frames h4 FErr (S (nbuf h)) 0) as (B1 & B2 & B3 & B4 & B5 & B6 & B7 & B8).
  destruct (repoint_frame frames h5 FDq (S (S (nbuf h))) 0) as (C1 & C2 & C3 & C4 & C5 & C6 & C7 & C8).
  fold h4 in A1, A2, A3, A4, A5, A6, A7, A8.
  fold h5 in B1, B2, B3, B4, B5, B6, B7, B8.
  fold h6 in C1, C2, C3, C4, C5, C6, C7, C8.
  split; [rewrite C1, B1, A1; reflexivity|].
  split; [rewrite C2, B2, A2; reflexivity|].
  split; [rewrite C3, B3, A3; reflexivity|].
  split; [rewrite C4, B4, A4; reflexivity|].
  split; [rewrite C5, B5, A5; reflexivity|].
  split; [intros k Hk; rewrite C6, B6, A6 by exact Hk; reflexivity|].
  split; [intros k hf; rewrite C7, B7, A7; reflexivity|].
  intros Hn i k Hi f. destruct f.
  - rewrite C8, B8 by discriminate. unfold h4. rewrite (repoint_nth frames h3 FData _ 0 Hn i k Hi). reflexivity.
  - rewrite C8 by discriminate. unfold h5. rewrite (repoint_nth frames h4 FErr _ 0 Hn i k Hi). reflexivity.
  - unfold h6. rewrite (repoint_nth frames h5 FDq _ 0 Hn i k Hi). reflexivity.
Qed.

Lemma new_dataset_linked (h : heap) frames h' d :
  NoDup frames -> new_dataset V h frames = Ok (h', d) -> Linked V h' d.
Proof.
  intros Hn H. apply new_dataset_inv in H.
  destruct H as (_ & bd & be & bq & G1 & G2 & G3 & -> & Hb & Hnb & _ & _ & _ & _ & _ & Hv).
  apply gather_ok in G1, G2, G3. destruct G1 as [L1 _], G2 as [L2 _], G3 as [L3 _].
  split; [exact Hn|]. split; [|split; [|split]].
  - intros []; cbn [cube ds_data ds_err ds_dq]; rewrite Hb; unfold upd;
      repeat match goal with |- context [Nat.eqb ?a ?b] => destruct (Nat.eqb_spec a b); try lia end; assumption.
  - intros []; cbn; rewrite Hnb; lia.
  - intros [] []; cbn; intro E; try reflexivity; lia.
  - intros i k Hi f. apply Hv; assumption.
Qed.

(** The new cubes hold what the frames held. *)
Lemma new_dataset_contents (h : heap) frames h' d :
  new_dataset V h frames = Ok (h', d) ->
  forall f i k, nth_error frames i = Some k ->
  nth_error (buf h' (cube f d)) i = view_block V h (im_view f (img h k)).
Proof.
  intros H f i k Hi. apply new_dataset_inv in H.
  destruct H as (_ & bd & be & bq & G1 & G2 & G3 & -> & Hb & _).
  apply gather_ok in G1, G2, G3.
  destruct G1 as [_ G1], G2 as [_ G2], G3 as [_ G3].
  destruct f; cbn [cube ds_data ds_err ds_dq]; rewrite Hb; unfold upd;
    repeat match goal with |- context [Nat.eqb ?a ?b] => destruct (Nat.eqb_spec a b); try lia end.
  - destruct (G1 i k Hi) as (b & -> & ->). reflexivity.
  - destruct (G2 i k Hi) as (b & -> & ->). reflexivity.
  - destruct (G3 i k Hi) as (b & -> & ->). reflexivity.
Qed.

(** ** The link *)
Lemma linked_pixels (h : heap) d : Linked V h d ->
  forall f i l p, frame_pixel V h d f i l p = cube_pixel V h d f i l p.
Proof.
  intros (Hn & HL & _ & _ & Hv) f i l p. unfold frame_pixel, cube_pixel.
  destruct (nth_error (ds_frames d) i) as [k|] eqn:E.
  - rewrite (Hv i k E f). reflexivity.
  - apply nth_error_None in E. specialize (HL f).
    assert (nth_error (buf h (cube f d)) i = None) as -> by (apply nth_error_None; lia). reflexivity.
Qed.

Lemma write_at_ok (h : heap) b i l p x h' : write_at V h b i l p x = Ok h' ->
  exists bl ly, nth_error (buf h b) i = Some bl /\ nth_error bl l = Some ly /\ (p < List.length ly)%nat
    /\ h' = set_buf V h b (set_nth (buf h b) i (set_nth bl l (set_nth ly p x))).
Proof.
  unfold write_at, write_block. destruct (nth_error (buf h b) i) as [bl|] eqn:E1; [|discriminate].
  destruct (nth_error bl l) as [ly|] eqn:E2; [|discriminate].
  destruct (Nat.ltb_spec p (List.length ly)) as [Hl|]; [|discriminate].
  intro H. injection H as <-. exists bl, ly. auto.
Qed.

Definition loc_eqb (a b : nat * nat * nat) : bool :=
  let '(i, l, p) := a in let '(i', l', p') := b in Nat.eqb i i' && Nat.eqb l l' && Nat.eqb p p'.

Lemma field_eqb_eq a b : field_eqb a b = true <-> a = b.
Proof. destruct a, b; cbn; split; congruence. Qed.

Definition pix (bs : list (block V)) (i l p : nat) : option V :=
  match nth_error bs i with
  | Some b => match nth_error b l with Some ly => nth_error ly p | None => None end
  | None => None
  end.

Lemma pix_set bs i l p x bl ly i' l' p' :
  nth_error bs i = Some bl -> nth_error bl l = Some ly -> (p < List.length ly)%nat ->
  pix (set_nth bs i (set_nth bl l (set_nth ly p x))) i' l' p' =
  if Nat.eqb i' i && Nat.eqb l' l && Nat.eqb p' p then Some x else pix bs i' l' p'.
Proof.
  intros H1 H2 H3. unfold pix, block, layer in *. rewrite nth_error_set_nth.
  assert (i < List.length bs)%nat as Hi by (apply nth_error_Some; congruence).
  assert (l < List.length bl)%nat as Hl by (apply nth_error_Some; congruence).
  apply Nat.ltb_lt in Hi, Hl, H3. rewrite Hi.
  destruct (Nat.eqb_spec i' i) as [->|]; cbn [andb]; [|reflexivity].
  rewrite nth_error_set_nth, Hl, H1. destruct (Nat.eqb_spec l' l) as [->|]; cbn [andb]; [|reflexivity].
  rewrite nth_error_set_nth, H3, H2. destruct (Nat.eqb_spec p' p); reflexivity.
Qed.

Lemma write_cube_exact (h : heap) d f i l p x h' :
  Linked V h d -> write_cube V h d f i l p x = Ok h' ->
  Linked V h' d
  /\ (forall f' i' l' p', cube_pixel V h' d f' i' l' p' =
        if field_eqb f' f && (Nat.eqb i' i && Nat.eqb l' l && Nat.eqb p' p) then Some x
        else cube_pixel V h d f' i' l' p')
  /\ (forall b, b <> cube f d -> buf h' b = buf h b)
  /\ hdr h' = hdr h /\ img h' = img h.
Proof.
  intros HL H. unfold write_cube in H. apply write_at_ok in H.
  destruct H as (bl & ly & H1 & H2 & H3 & ->).
  destruct HL as (Hn & Hlen & Hb & Hinj & Hv).
  split; [|split; [|split; [|split; reflexivity]]].
  - split; [exact Hn|]. split; [|split; [exact Hb|split; [exact Hinj|exact Hv]]].
    intro f'. cbn. unfold upd. destruct (Nat.eqb_spec (cube f' d) (cube f d)) as [E|N]; [|apply Hlen].
    rewrite set_nth_length. apply Hlen.
  - intros f' i' l' p'. unfold cube_pixel. cbn [DatasetModel.buf set_buf]. unfold upd.
    destruct (Nat.eqb_spec (cube f' d) (cube f d)) as [E|N].
    + apply Hinj in E. subst f'.
      replace (field_eqb f f) with true by (symmetry; apply field_eqb_eq; reflexivity). cbn [andb].
      apply (pix_set (buf h (cube f d)) i l p x bl ly i' l' p' H1 H2 H3).
    + destruct (field_eqb f' f) eqn:E; [apply field_eqb_eq in E; congruence|]. reflexivity.
  - intros b Hbb. cbn. apply upd_other. exact Hbb.
Qed.

Lemma write_frame_is_cube (h : heap) d f i l p x :
  Linked V h d -> write_frame V h d f i l p x = write_cube V h d f i l p x.
Proof.
  intros (Hn & HL & _ & _ & Hv). unfold write_frame, write_cube.
  destruct (nth_error (ds_frames d) i) as [k|] eqn:E.
  - rewrite (Hv i k E f). reflexivity.
  - apply nth_error_None in E. unfold write_at. specialize (HL f).
    assert (nth_error (buf h (cube f d)) i = None) as -> by (apply nth_error_None; lia). reflexivity.
Qed.

Lemma write_cube_defined (h : heap) d f i l p x :
  (write_cube V h d f i l p x = Raise IndexError <-> cube_pixel V h d f i l p = None)
  /\ (forall e, write_cube V h d f i l p x = Raise e -> e = IndexError).
Proof.
  clear quad mul.
  unfold write_cube, write_at, cube_pixel.
  destruct (nth_error (buf h (cube f d)) i) as [bl|]; [|split; [tauto|congruence]].
  destruct (nth_error bl l) as [ly|]; [|split; [tauto|congruence]].
  destruct (Nat.ltb_spec p (List.length ly)) as [Hp|Hp].
  - split; [|congruence]. split; [discriminate|]. intro K. apply nth_error_None in K. lia.
  - split; [|congruence]. split; [|reflexivity]. intros _. apply nth_error_None. exact Hp.
Qed.

(** ** Preservation of the link by the other methods *)

Lemma stamp_frame : forall frames (h : heap) hist en,
  buf (stamp V h hist en frames) = buf h /\ nbuf (stamp V h hist en frames) = nbuf h
  /\ nhdr (stamp V h hist en frames) = nhdr h
  /\ img (stamp V h hist en frames) = img h /\ nimg (stamp V h hist en frames) = nimg h
  /\ (forall a, (forall k, In k frames -> a <> im_ext (img h k) /\ a <> im_errh (img h k)) ->
       hdr (stamp V h hist en frames) a = hdr h a).
Proof.
  induction frames as [|k t IH]; intros h hist en; cbn [stamp]; [repeat split|].
  match goal with |- context [stamp V ?hh hist en t] => destruct (IH hh hist en) as (H1 & H2 & H3 & H4 & H5 & H6) end.
  rewrite H1, H2, H3, H4, H5. repeat split.
  intros a Ha. destruct (Ha k (or_introl eq_refl)) as [A1 A2].
  rewrite H6.
  - cbn. rewrite !upd_other by assumption. reflexivity.
  - intros k' Hk'. cbn. apply Ha. right. exact Hk'.
Qed.

Lemma linked_transport (h h' : heap) d :
  Linked V h d ->
  (forall f, List.length (buf h' (cube f d)) = List.length (buf h (cube f d))) ->
  (nbuf h <= nbuf h')%nat -> (forall k, In k (ds_frames d) -> img h' k = img h k) ->
  Linked V h' d.
Proof.
  intros (Hn & Hl & Hb & Hi & Hv) H1 H2 H3.
  split; [exact Hn|]. split; [intro f; rewrite H1; apply Hl|].
  split; [intro f; specialize (Hb f); lia|]. split; [exact Hi|].
  intros i k Hk f. rewrite H3 by (eapply nth_error_In; exact Hk). apply Hv. exact Hk.
Qed.

(** Re-pointing the error views to a cube [e] of the right length. *)
Lemma repoint_linked (h : heap) d e :
  NoDup (ds_frames d) ->
  (forall f, f <> FErr -> List.length (buf h (cube f d)) = List.length (ds_frames d)
     /\ (cube f d < nbuf h)%nat /\ cube f d <> e) ->
  ds_data d <> ds_dq d ->
  List.length (buf h e) = List.length (ds_frames d) -> (e < nbuf h)%nat ->
  (forall i k, nth_error (ds_frames d) i = Some k ->
     forall f, f <> FErr -> im_view f (img h k) = (cube f d, i)) ->
  Linked V (repoint V h FErr e 0 (ds_frames d)) (mkds (ds_frames d) (ds_data d) e (ds_dq d)).
Proof.
  intros Hn Hf Hne Hle Hbe Hv.
  destruct (repoint_frame (ds_frames d) h FErr e 0) as (A1 & A2 & A3 & A4 & A5 & A6 & A7 & A8).
  destruct (Hf FData) as (D1 & D2 & D3); [discriminate|].
  destruct (Hf FDq) as (Q1 & Q2 & Q3); [discriminate|]. cbn [cube] in *.
  split; [exact Hn|]. split; [|split; [|split]]; cbn [ds_frames].
  - intros []; cbn [cube ds_data ds_err ds_dq]; rewrite A1; assumption.
  - intros []; cbn [cube ds_data ds_err ds_dq]; rewrite A2; assumption.
  - intros [] []; cbn [cube ds_data ds_err ds_dq]; intro E; try reflexivity; congruence.
  - intros i k Hk []; cbn [cube ds_data ds_err ds_dq].
    + rewrite A8 by discriminate. apply (Hv i k Hk FData). discriminate.
    + rewrite (repoint_nth _ h FErr e 0 Hn i k Hk). reflexivity.
    + rewrite A8 by discriminate. apply (Hv i k Hk FDq). discriminate.
Qed.

Lemma same_shapes_length a b : same_shapes V a b = true -> List.length a = List.length b.
Proof. unfold same_shapes. rewrite andb_true_iff. intros [H _]. apply Nat.eqb_eq. exact H. Qed.

Lemma err_shapes_length a b : err_shapes V a b = true -> List.length a = List.length b.
Proof. unfold err_shapes. rewrite andb_true_iff. intros [H _]. apply Nat.eqb_eq. exact H. Qed.

Lemma set_buf_linked (h : heap) d f bs :
  Linked V h d -> List.length bs = List.length (buf h (cube f d)) ->
  Linked V (set_buf V h (cube f d) bs) d.
Proof.
  intros HL Hlen. apply (linked_transport h); [exact HL| |cbn; lia|reflexivity].
  intro f'. cbn. unfold upd. destruct (Nat.eqb_spec (cube f' d) (cube f d)) as [E|N]; [|reflexivity].
  rewrite E. exact Hlen.
Qed.

Lemma update_step_linked (h : heap) d hist nd ne nq en h' d' x :
  Linked V h d ->
  (forall e, ne = Some e -> (e < nbuf h)%nat /\ e <> ds_data d /\ e <> ds_dq d) ->
  update_step V h d hist nd ne nq en = (h', d', x) -> Linked V h' d'.
Proof.
  intros HL Hne H. unfold update_step in H.
  set (s1 := match nd with None => (h, None) | Some b => _ end) in H.
  assert (L1 : Linked V (fst s1) d /\ nbuf (fst s1) = nbuf h).
  { unfold s1. destruct nd as [b|]; [|auto].
    destruct (same_shapes V b (buf h (ds_data d))) eqn:E; [|auto].
    split; [|reflexivity]. apply (set_buf_linked h d FData b HL). apply same_shapes_length. exact E. }
  destruct s1 as [h1 [x1|]]; cbn [fst] in L1; [injection H as <- <- <-; apply L1|].
  destruct L1 as [L1 N1].
  set (s2 := match ne with None => (h1, d, None) | Some e => _ end) in H.
  assert (L2 : Linked V (fst (fst s2)) (snd (fst s2))).
  { unfold s2. destruct ne as [e|]; [|exact L1]. destruct (Hne e eq_refl) as (E1 & E2 & E3).
    destruct (err_shapes V (buf h1 e) (buf h1 (ds_err d))) eqn:E; [|exact L1].
    cbn [fst snd]. destruct L1 as (M1 & M2 & M3 & M4 & M5).
    apply repoint_linked.
    - exact M1.
    - intros f Hf. split; [apply M2|]. split; [apply M3|]. destruct f; cbn [cube]; congruence.
    - intro K. specialize (M4 FData FDq K). discriminate.
    - apply err_shapes_length in E. rewrite E. apply (M2 FErr).
    - lia.
    - intros i k Hk f Hf. apply M5. exact Hk. }
  destruct s2 as [[h2 d2] [x2|]]; cbn [fst snd] in L2; [injection H as <- <- <-; exact L2|].
  set (s3 := match nq with None => (h2, None) | Some b => _ end) in H.
  assert (L3 : Linked V (fst s3) d2).
  { unfold s3. destruct nq as [b|]; [|exact L2].
    destruct (same_shapes V b (buf h2 (ds_dq d2))) eqn:E; [|exact L2].
    apply (set_buf_linked h2 d2 FDq b L2). apply same_shapes_length. exact E. }
  destruct s3 as [h3 [x3|]]; cbn [fst] in L3; injection H as <- <- <-; [exact L3|].
  destruct (stamp_frame (ds_frames d2) h3 hist en) as (S1 & S2 & S3 & S4 & S5 & S6).
  apply (linked_transport h3); [exact L3|intro f; rewrite S1; reflexivity|lia|intros; rewrite S4; reflexivity].
Qed.

(** Error methods: what the per-frame step may change. *)
Definition ErrStep (frames : list nat) (h0 h : heap) : Prop :=
  (nbuf h0 <= nbuf h)%nat /\
  (forall k f, f <> FErr -> im_view f (img h k) = im_view f (img h0 k)) /\
  (forall b, List.length (buf h0 b) = List.length (buf h b) \/ (nbuf h0 <= b)%nat).

Lemma errstep_refl fr h : ErrStep fr h h.
Proof. repeat split; auto. Qed.

Lemma errstep_trans fr h1 h2 h3 : ErrStep fr h1 h2 -> ErrStep fr h2 h3 -> ErrStep fr h1 h3.
Proof.
  intros (A1 & A2 & A3) (B1 & B2 & B3). split; [lia|]. split.
  - intros k f Hf. rewrite B2, A2 by assumption. reflexivity.
  - intro b. destruct (A3 b) as [A|A]; [|auto]. destruct (B3 b) as [B|B]; [left; congruence|right; lia].
Qed.

Lemma img_add_error_step track name h k e h' x fr :
  img_add_error V quad track name h k e = (h', x) -> ErrStep fr h h'.
Proof.
  unfold img_add_error. destruct (view_block V h (im_data (img h k))) as [db|]; [|intro H; injection H as <- <-; apply errstep_refl].
  destruct (view_block V h (im_err (img h k))) as [[|l0 rest]|]; try (intro H; injection H as <- <-; apply errstep_refl).
  destruct (list_nat_eqb (shape V db) [List.length e]); [|intro H; injection H as <- <-; apply errstep_refl].
  set (h1 := set_buf V h _ _).
  assert (E1 : ErrStep fr h h1).
  { split; [cbn; lia|]. split; [reflexivity|]. intro b. left. cbn. unfold upd.
    destruct (Nat.eqb_spec b (fst (im_err (img h k)))) as [->|]; [|reflexivity].
    rewrite set_nth_length. reflexivity. }
  destruct track; [|intro H; injection H as <- <-; exact E1].
  cbn [alloc_buf]. intro H. injection H as <- <-. apply (errstep_trans fr h h1); [exact E1|].
  split; [cbn; lia|]. split.
  - intros k' f Hf. cbn. unfold upd. destruct (Nat.eqb_spec k' k) as [->|]; [|reflexivity].
    destruct f; reflexivity || congruence.
  - intro b. cbn. unfold upd. destruct (Nat.eqb_spec b (nbuf h)) as [->|]; [right; lia|left; reflexivity].
Qed.

Lemma img_rescale_step name h k e h' x fr :
  img_rescale V mul name h k e = (h', x) -> ErrStep fr h h'.
Proof.
  unfold img_rescale. destruct (view_block V h (im_data (img h k))) as [db|]; [|intro H; injection H as <- <-; apply errstep_refl].
  destruct (view_block V h (im_err (img h k))) as [be|]; try (intro H; injection H as <- <-; apply errstep_refl).
  destruct (list_nat_eqb (shape V db) [List.length e]); [|intro H; injection H as <- <-; apply errstep_refl].
  cbn [alloc_buf]. intro H. injection H as <- <-.
  split; [cbn; lia|]. split.
  - intros k' f Hf. cbn. unfold upd. destruct (Nat.eqb_spec k' k) as [->|]; [|reflexivity].
    destruct f; reflexivity || congruence.
  - intro b. cbn. unfold upd. destruct (Nat.eqb_spec b (nbuf h)) as [->|]; [right; lia|left; reflexivity].
Qed.

Lemma loop_err_step step fr :
  (forall h k e h' x, step h k e = (h', x) -> ErrStep fr h h') ->
  forall frames h i a h' x, loop_err V step h i frames a = (h', x) -> ErrStep fr h h'.
Proof.
  intros Hs. induction frames as [|k t IH]; intros h i a h' x H; cbn in H.
  - injection H as <- <-. apply errstep_refl.
  - destruct (match a with EShared _ e => Some e | EPer _ es => nth_error es i | EBad _ => None end) as [e|];
      [|injection H as <- <-; apply errstep_refl].
    destruct (step h k e) as [h1 [x1|]] eqn:E.
    + injection H as <- <-. eapply Hs. exact E.
    + eapply errstep_trans; [eapply Hs; exact E|]. eapply IH. exact H.
Qed.

Lemma err_method_linked step (h : heap) d a h' d' :
  (forall h k e h' x, step h k e = (h', x) -> ErrStep (ds_frames d) h h') ->
  Linked V h d -> err_method V step h d a = (h', d', None) -> Linked V h' d'.
Proof.
  intros Hs HL H. unfold err_method in H.
  assert (H' : match loop_err V step h 0 (ds_frames d) a with
         | (h1, Some x) => (h1, d, Some x)
         | (h1, None) => relink_err V h1 d end = (h', d', None)) by (destruct a; congruence).
  clear H. destruct (loop_err V step h 0 (ds_frames d) a) as [h1 [x|]] eqn:E; [discriminate|].
  apply (loop_err_step step (ds_frames d) Hs) in E. destruct E as (E1 & E2 & E3).
  unfold relink_err in H'. destruct (collect V h1 FErr (ds_frames d)) as [bs|] eqn:EC; [|discriminate].
  cbn [alloc_buf] in H'. injection H' as <- <-.
  apply collect_ok, gather_ok in EC. destruct EC as [EL _].
  destruct HL as (M1 & M2 & M3 & M4 & M5).
  apply repoint_linked.
  - exact M1.
  - intros f Hf. pose proof (M3 f) as M3f. cbn [DatasetModel.buf DatasetModel.nbuf].
    split; [|split; [lia|lia]]. rewrite upd_other by lia.
    destruct (E3 (cube f d)) as [E|E]; [rewrite <- E; apply M2|lia].
  - intro K. specialize (M4 FData FDq K). discriminate.
  - cbn. rewrite upd_same. exact EL.
  - cbn. lia.
  - intros i k Hk f Hf. cbn. rewrite E2 by exact Hf. apply M5. exact Hk.
Qed.

Lemma linked_alloc (h : heap) d bs : Linked V h d -> Linked V (fst (alloc_buf V h bs)) d.
Proof.
  intro HL. apply (linked_transport h); [exact HL| |cbn; lia|reflexivity].
  intro f. cbn. rewrite upd_other; [reflexivity|]. destruct HL as (_ & _ & Hb & _). specialize (Hb f). lia.
Qed.

Lemma dstep_linked (h : heap) d o h' d' x :
  Linked V h d -> dstep V quad mul h d o = (h', d', x) -> link_safe V o x -> Linked V h' d'.
Proof.
  intros HL H Hs. destruct o as [f i l p v|f i l p v|hist nd ne nq en|t n a|n a|f i k v]; cbn [dstep link_safe] in *.
  - rewrite write_frame_is_cube in H by exact HL.
    destruct (write_cube V h d f i l p v) as [h1|e] eqn:E; cbn [lift] in H; injection H as <- <- <-; [|exact HL].
    eapply write_cube_exact; eassumption.
  - destruct (write_cube V h d f i l p v) as [h1|e] eqn:E; cbn [lift] in H; injection H as <- <- <-; [|exact HL].
    eapply write_cube_exact; eassumption.
  - destruct ne as [bs|].
    + cbn [alloc_buf] in H. eapply update_step_linked; [|  |exact H].
      * apply (linked_alloc h d bs HL).
      * intros e He. injection He as <-. destruct HL as (_ & _ & Hb & _).
        pose proof (Hb FData). pose proof (Hb FDq). cbn [cube] in *. cbn. lia.
    + eapply update_step_linked; [exact HL| |exact H]. intros e He. discriminate.
  - subst x. eapply err_method_linked; [|exact HL|exact H]. intros. eapply img_add_error_step. eassumption.
  - subst x. eapply err_method_linked; [|exact HL|exact H]. intros. eapply img_rescale_step. eassumption.
  - unfold set_key in H. destruct (nth_error (ds_frames d) i) as [n|]; cbn [lift] in H; injection H as <- <- <-; [|exact HL].
    apply (linked_transport h); [exact HL|reflexivity|cbn; lia|reflexivity].
Qed.

Lemma drun_linked : forall os (h : heap) d, Linked V h d -> all_safe V quad mul h d os ->
  Linked V (fst (drun V quad mul h d os)) (snd (drun V quad mul h d os)).
Proof.
  induction os as [|o os IH]; intros h d HL HS; [exact HL|].
  unfold drun. cbn [fold_left fst snd]. cbn [all_safe] in HS.
  destruct (dstep V quad mul h d o) as [[h' d'] x] eqn:E. destruct HS as [H1 H2].
  cbn [fst]. apply (IH h' d'); [|exact H2]. eapply dstep_linked; eassumption.
Qed.
End P.
