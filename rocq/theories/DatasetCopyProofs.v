From Coq Require Import List Arith Bool Lia String.
From Verif Require Import Base DatasetModel DatasetSpec DatasetProofs.
Import ListNotations.

Section P.
Variable V : Type.
Variable quad mul : V -> V -> V.
Notation heap := (heap V).
Notation buf := (buf V). Notation nbuf := (nbuf V).
Notation hdr := (hdr V). Notation nhdr := (nhdr V).
Notation img := (img V). Notation nimg := (nimg V).

(** ** Locality: an operation on a dataset touches only what it reaches *)

(** The current state ([h], [d]) was reached from the base state ([h0], [d0])
    touching only what [d0] reaches and fresh arrays. *)
Record Local (h0 : heap) (d0 : dataset) (h : heap) (d : dataset) : Prop := {
  lc_frames : ds_frames d = ds_frames d0;
  lc_nbuf : (nbuf h0 <= nbuf h)%nat;
  lc_nhdr : nhdr h = nhdr h0;
  lc_nimg : nimg h = nimg h0;
  lc_buf : forall b, (b < nbuf h0)%nat -> ~ Reaches V h0 d0 b -> buf h b = buf h0 b;
  lc_img : forall k, ~ In k (ds_frames d0) -> img h k = img h0 k;
  lc_ids : forall k f, im_hdr f (img h k) = im_hdr f (img h0 k);
  lc_hdr : forall a, (forall k f, In k (ds_frames d0) -> a <> im_hdr f (img h0 k)) -> hdr h a = hdr h0 a;
  lc_reach : forall b, Reaches V h d b -> Reaches V h0 d0 b \/ (nbuf h0 <= b)%nat;
  lc_bound : (forall b, Reaches V h0 d0 b -> (b < nbuf h0)%nat) -> forall b, Reaches V h d b -> (b < nbuf h)%nat
}.

Lemma local_refl h d : Local h d h d.
Proof. constructor; auto. Qed.

Lemma local_trans h0 d0 h1 d1 h2 d2 :
  Local h0 d0 h1 d1 -> Local h1 d1 h2 d2 -> Local h0 d0 h2 d2.
Proof.
  intros A B. constructor.
  - rewrite (lc_frames _ _ _ _ B). apply (lc_frames _ _ _ _ A).
  - pose proof (lc_nbuf _ _ _ _ A). pose proof (lc_nbuf _ _ _ _ B). lia.
  - rewrite (lc_nhdr _ _ _ _ B). apply (lc_nhdr _ _ _ _ A).
  - rewrite (lc_nimg _ _ _ _ B). apply (lc_nimg _ _ _ _ A).
  - intros b Hb Hr. pose proof (lc_nbuf _ _ _ _ A). rewrite (lc_buf _ _ _ _ B b).
    + apply (lc_buf _ _ _ _ A b Hb Hr).
    + lia.
    + intro K. destruct (lc_reach _ _ _ _ A b K); [tauto|lia].
  - intros k Hk. rewrite (lc_img _ _ _ _ B k).
    + apply (lc_img _ _ _ _ A k Hk).
    + rewrite (lc_frames _ _ _ _ A). exact Hk.
  - intros k f. rewrite (lc_ids _ _ _ _ B). apply (lc_ids _ _ _ _ A).
  - intros a Ha. rewrite (lc_hdr _ _ _ _ B a).
    + apply (lc_hdr _ _ _ _ A a Ha).
    + intros k f Hk. rewrite (lc_frames _ _ _ _ A) in Hk. rewrite (lc_ids _ _ _ _ A). apply Ha. exact Hk.
  - intros b Hb. pose proof (lc_nbuf _ _ _ _ A). destruct (lc_reach _ _ _ _ B b Hb) as [K|K]; [|right; lia].
    apply (lc_reach _ _ _ _ A b K).
  - intros H0 b Hb. apply (lc_bound _ _ _ _ B); [|exact Hb]. apply (lc_bound _ _ _ _ A). exact H0.
Qed.

Lemma local_set_buf h0 d0 h d b x :
  Local h0 d0 h d -> Reaches V h d b -> Local h0 d0 (set_buf V h b x) d.
Proof.
  intros L Hb. destruct L as [L1 L2 L3 L4 L5 L6 L7 L8 L9 L10]. constructor; cbn; auto.
  - intros b' Hb' Hr. unfold upd. destruct (Nat.eqb_spec b' b) as [->|]; [|auto].
    destruct (L9 b Hb); [tauto|lia].
Qed.

Lemma local_set_hdr h0 d0 h d k f x :
  Local h0 d0 h d -> In k (ds_frames d) -> Local h0 d0 (set_hdr V h (im_hdr f (img h k)) x) d.
Proof.
  intros L Hk. destruct L as [L1 L2 L3 L4 L5 L6 L7 L8 L9 L10]. constructor; cbn; auto.
  intros a Ha. unfold upd. destruct (Nat.eqb_spec a (im_hdr f (img h k))) as [E|]; [|auto].
  exfalso. rewrite L7 in E. rewrite L1 in Hk. apply (Ha k f Hk). exact E.
Qed.

Lemma local_alloc h0 d0 h d x :
  Local h0 d0 h d -> Local h0 d0 (fst (alloc_buf V h x)) d.
Proof.
  intros L. destruct L as [L1 L2 L3 L4 L5 L6 L7 L8 L9 L10]. constructor; cbn; auto.
  - intros b Hb Hr. rewrite upd_other by lia. auto.
  - intros H0 b Hb. specialize (L10 H0 b Hb). lia.
Qed.

Lemma reaches_set_img h d k f v b :
  Reaches V (set_img V h k (set_view f v (img h k))) d b -> Reaches V h d b \/ b = fst v.
Proof.
  intros [[f' ->]|(k' & f' & Hk & ->)]; [left; left; eauto|].
  cbn. unfold upd. destruct (Nat.eqb_spec k' k) as [->|].
  - rewrite im_view_set. destruct f, f'; auto; left; right; exists k; eexists; eauto.
  - left. right. exists k', f'. auto.
Qed.

Lemma local_set_view h0 d0 h d k f v :
  Local h0 d0 h d -> In k (ds_frames d) -> (nbuf h0 <= fst v < nbuf h)%nat ->
  Local h0 d0 (set_img V h k (set_view f v (img h k))) d.
Proof.
  intros L Hk Hv. destruct L as [L1 L2 L3 L4 L5 L6 L7 L8 L9 L10]. constructor; cbn; auto.
  - intros k' Hk'. rewrite upd_other; [auto|]. intros ->. rewrite L1 in Hk. tauto.
  - intros k' f'. unfold upd. destruct (Nat.eqb_spec k' k) as [->|]; [rewrite im_hdr_set|]; apply L7.
  - intros b Hb. apply reaches_set_img in Hb. destruct Hb as [Hb| ->]; [auto|right; lia].
  - intros H0 b Hb. apply reaches_set_img in Hb. destruct Hb as [Hb| ->]; [auto|lia].
Qed.

Lemma local_repoint h0 d0 f e : forall frames h d i,
  Local h0 d0 h d -> (forall k, In k frames -> In k (ds_frames d)) -> (nbuf h0 <= e < nbuf h)%nat ->
  Local h0 d0 (repoint V h f e i frames) d.
Proof.
  induction frames as [|k t IH]; intros h d i L Hk He; cbn [repoint]; [exact L|].
  apply IH.
  - apply local_set_view; [exact L|apply Hk; left; reflexivity|exact He].
  - intros k' Hk'. apply Hk. right. exact Hk'.
  - exact He.
Qed.

Lemma local_set_err h0 d0 h d e :
  Local h0 d0 h d -> (nbuf h0 <= e < nbuf h)%nat ->
  Local h0 d0 h (mkds (ds_frames d) (ds_data d) e (ds_dq d)).
Proof.
  intros L He. destruct L as [L1 L2 L3 L4 L5 L6 L7 L8 L9 L10].
  assert (R : forall b, Reaches V h (mkds (ds_frames d) (ds_data d) e (ds_dq d)) b -> Reaches V h d b \/ b = e).
  { intros b [[f ->]|(k & f & Hk & ->)].
    - destruct f; cbn; auto; left; left; [exists FData|exists FDq]; reflexivity.
    - left. right. exists k, f. auto. }
  constructor; cbn; auto.
  - intros b Hb. apply R in Hb. destruct Hb as [Hb| ->]; [auto|right; lia].
  - intros H0 b Hb. apply R in Hb. destruct Hb as [Hb| ->]; [auto|lia].
Qed.

Lemma local_stamp h0 d0 hist en : forall frames h d,
  Local h0 d0 h d -> (forall k, In k frames -> In k (ds_frames d)) ->
  Local h0 d0 (stamp V h hist en frames) d.
Proof.
  induction frames as [|k t IH]; intros h d L Hk; cbn [stamp]; [exact L|].
  apply IH; [|intros k' Hk'; apply Hk; right; exact Hk'].
  assert (Hin : In k (ds_frames d)) by (apply Hk; left; reflexivity).
  set (h1 := set_hdr V h (im_ext (img h k)) _).
  apply (local_set_hdr h0 d0 h1 d k HErr); [|exact Hin].
  apply (local_set_hdr h0 d0 h d k HExt); assumption.
Qed.

Lemma local_write h0 d0 h d f i l p x h' :
  Local h0 d0 h d -> write_frame V h d f i l p x = Ok h' -> Local h0 d0 h' d.
Proof.
  intros L H. unfold write_frame in H. destruct (nth_error (ds_frames d) i) as [k|] eqn:E; [|discriminate].
  apply write_at_ok in H. destruct H as (bl & ly & _ & _ & _ & ->).
  apply local_set_buf; [exact L|]. right. exists k, f. split; [eapply nth_error_In; exact E|reflexivity].
Qed.

Lemma local_write_cube h0 d0 h d f i l p x h' :
  Local h0 d0 h d -> write_cube V h d f i l p x = Ok h' -> Local h0 d0 h' d.
Proof.
  intros L H. unfold write_cube in H. apply write_at_ok in H. destruct H as (bl & ly & _ & _ & _ & ->).
  apply local_set_buf; [exact L|]. left. exists f. reflexivity.
Qed.

Lemma local_update h0 d0 h d hist nd ne nq en h' d' x :
  Local h0 d0 h d -> (forall e, ne = Some e -> (nbuf h0 <= e < nbuf h)%nat) ->
  update_step V h d hist nd ne nq en = (h', d', x) -> Local h0 d0 h' d'.
Proof.
  intros L Hne H. unfold update_step in H.
  set (s1 := match nd with None => (h, None) | Some b => _ end) in H.
  assert (L1 : Local h0 d0 (fst s1) d /\ nbuf (fst s1) = nbuf h).
  { unfold s1. destruct nd as [b|]; [|auto].
    destruct (same_shapes V b (buf h (ds_data d))); [|auto].
    split; [|reflexivity]. apply local_set_buf; [exact L|]. left. exists FData. reflexivity. }
  destruct s1 as [h1 [x1|]]; cbn [fst] in L1; [injection H as <- <- <-; apply L1|].
  destruct L1 as [L1 N1].
  set (s2 := match ne with None => (h1, d, None) | Some e => _ end) in H.
  assert (L2 : Local h0 d0 (fst (fst s2)) (snd (fst s2))).
  { unfold s2. destruct ne as [e|]; [|exact L1]. specialize (Hne e eq_refl).
    destruct (err_shapes V (buf h1 e) (buf h1 (ds_err d))); [|exact L1].
    cbn [fst snd]. apply local_set_err.
    - apply local_repoint; [exact L1|auto|lia].
    - destruct (repoint_frame V (ds_frames d) h1 FErr e 0) as (_ & -> & _). lia. }
  destruct s2 as [[h2 d2] [x2|]]; cbn [fst snd] in L2; [injection H as <- <- <-; exact L2|].
  set (s3 := match nq with None => (h2, None) | Some b => _ end) in H.
  assert (L3 : Local h0 d0 (fst s3) d2).
  { unfold s3. destruct nq as [b|]; [|exact L2].
    destruct (same_shapes V b (buf h2 (ds_dq d2))); [|exact L2].
    apply local_set_buf; [exact L2|]. left. exists FDq. reflexivity. }
  destruct s3 as [h3 [x3|]]; cbn [fst] in L3; injection H as <- <- <-; [exact L3|].
  apply local_stamp; [exact L3|auto].
Qed.

Lemma local_set_errh h0 d0 h d k a x :
  Local h0 d0 h d -> In k (ds_frames d) -> a = im_hdr HErr (img h k) -> Local h0 d0 (set_hdr V h a x) d.
Proof. intros L Hk ->. apply local_set_hdr; assumption. Qed.

Lemma local_img_add h0 d0 h d track name k e h' x :
  Local h0 d0 h d -> In k (ds_frames d) -> img_add_error V quad track name h k e = (h', x) -> Local h0 d0 h' d.
Proof.
  intros L Hk H. unfold img_add_error in H.
  destruct (view_block V h (im_data (img h k))) as [db|]; [|injection H as <- <-; exact L].
  destruct (view_block V h (im_err (img h k))) as [[|l0 rest]|]; try (injection H as <- <-; exact L).
  destruct (list_nat_eqb (shape V db) [List.length e]); [|injection H as <- <-; exact L].
  set (h1 := set_buf V h _ _) in H.
  assert (L1 : Local h0 d0 h1 d).
  { apply local_set_buf; [exact L|]. right. exists k, FErr. auto. }
  set (h2 := set_hdr V h1 _ _) in H.
  assert (L2 : Local h0 d0 h2 d) by (apply (local_set_errh h0 d0 h1 d k); [exact L1|exact Hk|reflexivity]).
  destruct track; [|injection H as <- <-; apply (local_set_errh h0 d0 h2 d k); [exact L2|exact Hk|reflexivity]].
  cbn [alloc_buf] in H. injection H as <- <-.
  set (h3 := set_img V _ _ _).
  assert (L3 : Local h0 d0 h3 d).
  { apply (local_set_view h0 d0 (fst (alloc_buf V h2 [(map2 quad l0 e :: rest) ++ [e]])) d k FErr).
    - apply local_alloc. exact L2.
    - exact Hk.
    - cbn. pose proof (lc_nbuf _ _ _ _ L). lia. }
  assert (I3 : im_errh (img h k) = im_hdr HErr (img h3 k)) by (unfold h3; cbn; rewrite upd_same; reflexivity).
  apply (local_set_errh h0 d0 _ d k); [|exact Hk|exact I3].
  apply (local_set_errh h0 d0 _ d k); [exact L3|exact Hk|exact I3].
Qed.

Lemma local_img_rescale h0 d0 h d name k e h' x :
  Local h0 d0 h d -> In k (ds_frames d) -> img_rescale V mul name h k e = (h', x) -> Local h0 d0 h' d.
Proof.
  intros L Hk H. unfold img_rescale in H.
  destruct (view_block V h (im_data (img h k))) as [db|]; [|injection H as <- <-; exact L].
  destruct (view_block V h (im_err (img h k))) as [be|]; try (injection H as <- <-; exact L).
  destruct (list_nat_eqb (shape V db) [List.length e]); [|injection H as <- <-; exact L].
  cbn [alloc_buf] in H. injection H as <- <-.
  set (h3 := set_img V _ _ _).
  assert (L3 : Local h0 d0 h3 d).
  { apply (local_set_view h0 d0 (fst (alloc_buf V h [map (fun ly => map2 mul ly e) be])) d k FErr).
    - apply local_alloc. exact L.
    - exact Hk.
    - cbn. pose proof (lc_nbuf _ _ _ _ L). lia. }
  apply (local_set_errh h0 d0 _ d k); [exact L3|exact Hk|unfold h3; cbn; rewrite upd_same; reflexivity].
Qed.

Lemma local_loop h0 d0 step d :
  (forall h k e h' x, Local h0 d0 h d -> In k (ds_frames d) -> step h k e = (h', x) -> Local h0 d0 h' d) ->
  forall frames h i a h' x, Local h0 d0 h d -> (forall k, In k frames -> In k (ds_frames d)) ->
  loop_err V step h i frames a = (h', x) -> Local h0 d0 h' d.
Proof.
  intro Hs. induction frames as [|k t IH]; intros h i a h' x L Hk H; cbn in H.
  - injection H as <- <-. exact L.
  - destruct (match a with EShared _ e => Some e | EPer _ es => nth_error es i | EBad _ => None end) as [e|];
      [|injection H as <- <-; exact L].
    destruct (step h k e) as [h1 x1] eqn:E.
    assert (L1 : Local h0 d0 h1 d) by (eapply Hs; [exact L|apply Hk; left; reflexivity|exact E]).
    destruct x1 as [x1|]; [injection H as <- <-; exact L1|].
    eapply IH; [exact L1| |exact H]. intros k' Hk'. apply Hk. right. exact Hk'.
Qed.

Lemma local_err_method h0 d0 h d step a h' d' x :
  (forall h k e h' x, Local h0 d0 h d -> In k (ds_frames d) -> step h k e = (h', x) -> Local h0 d0 h' d) ->
  Local h0 d0 h d -> err_method V step h d a = (h', d', x) -> Local h0 d0 h' d'.
Proof.
  intros Hs L H. unfold err_method in H.
  assert (H' : (h, d, Some ValueError) = (h', d', x) \/
    match loop_err V step h 0 (ds_frames d) a with
    | (h1, Some x) => (h1, d, Some x)
    | (h1, None) => relink_err V h1 d end = (h', d', x)) by (destruct a; auto).
  clear H. destruct H' as [H|H]; [injection H as <- <- <-; exact L|].
  destruct (loop_err V step h 0 (ds_frames d) a) as [h1 x1] eqn:E.
  apply (local_loop h0 d0 step d Hs) in E; [|exact L|auto].
  destruct x1 as [x1|]; [injection H as <- <- <-; exact E|].
  unfold relink_err in H.
  destruct (collect V h1 FErr (ds_frames d)) as [bs|y]; [|injection H as <- <- <-; exact E].
  cbn [alloc_buf] in H. injection H as <- <- <-.
  pose proof (lc_nbuf _ _ _ _ E) as N.
  set (h2 := mkheap V _ _ _ _ _ _).
  destruct (repoint_frame V (ds_frames d) h2 FErr (nbuf h1) 0) as (_ & N2 & _).
  apply local_set_err.
  - apply (local_repoint h0 d0 FErr (nbuf h1) (ds_frames d) h2);
      [apply (local_alloc h0 d0 h1 d bs); exact E|auto|cbn; lia].
  - rewrite N2. cbn. lia.
Qed.

Lemma dstep_local h d o h' d' x :
  dstep V quad mul h d o = (h', d', x) -> Local h d h' d'.
Proof.
  intro H. destruct o as [f i l p v|f i l p v|hist nd ne nq en|t n a|n a|f i k v]; cbn [dstep] in H.
  - destruct (write_frame V h d f i l p v) as [h1|e] eqn:E; cbn [lift] in H; injection H as <- <- <-;
      [|apply local_refl]. eapply local_write; [apply local_refl|exact E].
  - destruct (write_cube V h d f i l p v) as [h1|e] eqn:E; cbn [lift] in H; injection H as <- <- <-;
      [|apply local_refl]. eapply local_write_cube; [apply local_refl|exact E].
  - destruct ne as [bs|].
    + cbn [alloc_buf] in H. eapply local_update; [| |exact H].
      * apply (local_alloc h d h d bs). apply local_refl.
      * intros e He. injection He as <-. cbn. lia.
    + eapply local_update; [apply local_refl| |exact H]. discriminate.
  - eapply local_err_method; [|apply local_refl|exact H]. intros. eapply local_img_add; eassumption.
  - eapply local_err_method; [|apply local_refl|exact H]. intros. eapply local_img_rescale; eassumption.
  - unfold set_key in H. destruct (nth_error (ds_frames d) i) as [n|] eqn:E; cbn [lift] in H;
      injection H as <- <- <-; [|apply local_refl].
    apply local_set_hdr; [apply local_refl|eapply nth_error_In; exact E].
Qed.

(** ** Separation *)

Lemma wf_reach h d b : WellFormed V h d -> Reaches V h d b -> (b < nbuf h)%nat.
Proof.
  intros [A C] [[f ->]|(k & f & Hk & ->)]; [apply C|]. destruct (A k Hk) as (_ & Hv & _). apply Hv.
Qed.

Lemma local_wf h d h' d' : WellFormed V h d -> Local h d h' d' -> WellFormed V h' d'.
Proof.
  intros W L. pose proof (lc_bound _ _ _ _ L (fun b => wf_reach h d b W)) as B. split.
  - intros k Hk. rewrite (lc_frames _ _ _ _ L) in Hk. destruct W as [A _]. destruct (A k Hk) as (A1 & A2 & A3).
    split; [rewrite (lc_nimg _ _ _ _ L); exact A1|]. split.
    + intro f. apply B. right. exists k, f. rewrite (lc_frames _ _ _ _ L). auto.
    + intro f. rewrite (lc_ids _ _ _ _ L), (lc_nhdr _ _ _ _ L). apply A3.
  - intro f. apply B. left. exists f. reflexivity.
Qed.

(** The other dataset is not affected. *)
Lemma local_other h d h' d' o :
  Local h d h' d' -> WellFormed V h o -> Separate V h d o ->
  WellFormed V h' o /\ Separate V h' d' o /\ same_observations V h o h' o.
Proof.
  intros L W (S1 & S2 & S3).
  assert (Im : forall k, In k (ds_frames o) -> img h' k = img h k).
  { intros k Hk. apply (lc_img _ _ _ _ L). intro K. apply (S1 k K Hk). }
  assert (Re : forall b, Reaches V h' o b <-> Reaches V h o b).
  { intro b. split; (intros [[f ->]|(k & f & Hk & ->)]; [left; eauto|right; exists k, f; rewrite Im by exact Hk; auto]). }
  assert (Bf : forall b, Reaches V h o b -> buf h' b = buf h b).
  { intros b Hb. apply (lc_buf _ _ _ _ L).
    - eapply wf_reach; eassumption.
    - intro K. apply (S2 b K Hb). }
  assert (Hd : forall k f, In k (ds_frames o) -> hdr h' (im_hdr f (img h k)) = hdr h (im_hdr f (img h k))).
  { intros k f Hk. apply (lc_hdr _ _ _ _ L). intros k1 f1 Hk1 K. apply (S3 k1 k f1 f Hk1 Hk). congruence. }
  split; [|split].
  - destruct W as [A C]. split.
    + intros k Hk. destruct (A k Hk) as (A1 & A2 & A3). rewrite Im by exact Hk.
      split; [rewrite (lc_nimg _ _ _ _ L); exact A1|]. split.
      * intro f. pose proof (lc_nbuf _ _ _ _ L). specialize (A2 f). lia.
      * intro f. rewrite (lc_nhdr _ _ _ _ L). apply A3.
    + intro f. pose proof (lc_nbuf _ _ _ _ L). specialize (C f). lia.
  - split; [|split].
    + intros k Hk. rewrite (lc_frames _ _ _ _ L) in Hk. apply S1. exact Hk.
    + intros b Hb Ho. apply Re in Ho. destruct (lc_reach _ _ _ _ L b Hb) as [K|K].
      * apply (S2 b K Ho).
      * pose proof (wf_reach h o b W Ho). lia.
    + intros k1 k2 f1 f2 H1 H2. rewrite (lc_ids _ _ _ _ L). rewrite Im by exact H2.
      rewrite (lc_frames _ _ _ _ L) in H1. apply S3; assumption.
  - split; [|split].
    + intros f i l p. unfold cube_pixel. rewrite Bf; [reflexivity|]. left. eauto.
    + intros f i l p. unfold frame_pixel. destruct (nth_error (ds_frames o) i) as [k|] eqn:E; [|reflexivity].
      assert (In k (ds_frames o)) as Hk by (eapply nth_error_In; exact E).
      rewrite Im by exact Hk. rewrite Bf; [reflexivity|]. right. exists k, f. auto.
    + intros f i. unfold frame_header. destruct (nth_error (ds_frames o) i) as [k|] eqn:E; [|reflexivity].
      assert (In k (ds_frames o)) as Hk by (eapply nth_error_In; exact E).
      rewrite Im by exact Hk. rewrite Hd by exact Hk. reflexivity.
Qed.

Lemma separate_sym h d1 d2 : Separate V h d1 d2 -> Separate V h d2 d1.
Proof.
  intros (A & B & C). split; [|split].
  - intros k H1 H2. apply (A k H2 H1).
  - intros b H1 H2. apply (B b H2 H1).
  - intros k1 k2 f1 f2 H1 H2 K. apply (C k2 k1 f2 f1 H2 H1). congruence.
Qed.

Definition Apart (s : heap * dataset * dataset) : Prop :=
  let '(h, d1, d2) := s in WellFormed V h d1 /\ WellFormed V h d2 /\ Separate V h d1 d2.

Lemma both_step_apart s bo : Apart s ->
  Apart (both_step V quad mul s bo) /\
  (fst bo = true -> same_observations V (fst (fst s)) (snd s) (fst (fst (both_step V quad mul s bo))) (snd (both_step V quad mul s bo))) /\
  (fst bo = false -> same_observations V (fst (fst s)) (snd (fst s)) (fst (fst (both_step V quad mul s bo))) (snd (fst (both_step V quad mul s bo)))).
Proof.
  destruct s as [[h d1] d2]. intros (W1 & W2 & S). destruct bo as [[|] o]; cbn [both_step fst snd].
  - destruct (dstep V quad mul h d1 o) as [[h' d1'] x] eqn:E. apply dstep_local in E. cbn [fst snd].
    destruct (local_other h d1 h' d1' d2 E W2 S) as (A & B & C).
    split; [|split; [intros _; exact C|discriminate]].
    split; [exact (local_wf _ _ _ _ W1 E)|auto].
  - destruct (dstep V quad mul h d2 o) as [[h' d2'] x] eqn:E. apply dstep_local in E. cbn [fst snd].
    destruct (local_other h d2 h' d2' d1 E W1 (separate_sym _ _ _ S)) as (A & B & C).
    split; [|split; [discriminate|intros _; exact C]].
    split; [exact A|]. split; [exact (local_wf _ _ _ _ W2 E)|]. apply separate_sym. exact B.
Qed.

Lemma both_run_apart : forall os s, Apart s -> Apart (both_run V quad mul s os).
Proof.
  induction os as [|o os IH]; intros s H; [exact H|]. unfold both_run. cbn [fold_left].
  apply IH. apply both_step_apart. exact H.
Qed.

(** ** Deep copies *)

(** Extending the heap without touching what exists. *)
Definition Extends (h0 h : heap) : Prop :=
  (nbuf h0 <= nbuf h)%nat /\ (nhdr h0 <= nhdr h)%nat /\ (nimg h0 <= nimg h)%nat
  /\ (forall b, (b < nbuf h0)%nat -> buf h b = buf h0 b)
  /\ (forall a, (a < nhdr h0)%nat -> hdr h a = hdr h0 a)
  /\ (forall k, (k < nimg h0)%nat -> img h k = img h0 k).

Lemma extends_refl h : Extends h h.
Proof. repeat split; auto. Qed.
Lemma extends_trans h1 h2 h3 : Extends h1 h2 -> Extends h2 h3 -> Extends h1 h3.
Proof.
  intros (A1 & A2 & A3 & A4 & A5 & A6) (B1 & B2 & B3 & B4 & B5 & B6).
  repeat split; try lia.
  - intros b Hb. rewrite B4 by lia. auto.
  - intros b Hb. rewrite B5 by lia. auto.
  - intros b Hb. rewrite B6 by lia. auto.
Qed.

Lemma extends_alloc_buf h x : Extends h (fst (alloc_buf V h x)).
Proof. repeat split; cbn; auto. intros b Hb. apply upd_other. lia. Qed.
Lemma extends_alloc_hdr h x : Extends h (fst (alloc_hdr V h x)).
Proof. repeat split; cbn; auto. intros b Hb. apply upd_other. lia. Qed.
Lemma extends_alloc_img h x : Extends h (fst (alloc_img V h x)).
Proof. repeat split; cbn; auto. intros b Hb. apply upd_other. lia. Qed.

(** A copied image: a fresh object whose arrays and headers are fresh and hold
    the same contents (ext header: plus the stamps). *)
Definition CopyOf (stamps : list (string * string)) (h0 : heap) (k : nat) (h : heap) (k' : nat) : Prop :=
  (forall f, (nbuf h0 <= fst (im_view f (img h k')) < nbuf h)%nat
     /\ view_block V h (im_view f (img h k')) = view_block V h0 (im_view f (img h0 k))) /\
  (forall f, (nhdr h0 <= im_hdr f (img h k') < nhdr h)%nat
     /\ hdr h (im_hdr f (img h k')) =
        match f with HExt => set_keys stamps (hdr h0 (im_hdr f (img h0 k))) | _ => hdr h0 (im_hdr f (img h0 k)) end)
  /\ im_name (img h k') = im_name (img h0 k).

Definition ValidViews (h : heap) (k : nat) : Prop :=
  forall f, view_block V h (im_view f (img h k)) <> None.

Lemma extends_view h h' v : Extends h h' -> (fst v < nbuf h)%nat -> view_block V h' v = view_block V h v.
Proof. intros (_ & _ & _ & H & _) Hv. unfold view_block. rewrite H by exact Hv. reflexivity. Qed.

Lemma copy_block_spec (h : heap) v h1 v1 :
  (fst v < nbuf h)%nat -> view_block V h v <> None -> copy_block V h v = (h1, v1) ->
  Extends h h1 /\ v1 = (nbuf h, 0) /\ nbuf h1 = S (nbuf h) /\ nhdr h1 = nhdr h /\ nimg h1 = nimg h
  /\ view_block V h1 v1 = view_block V h v.
Proof.
  intros Hv Hn H. unfold copy_block in H. destruct (view_block V h v) as [b|] eqn:E; [|congruence].
  cbn in H. injection H as <- <-. split; [apply (extends_alloc_buf h [b])|].
  repeat split. unfold view_block. cbn. rewrite upd_same. reflexivity.
Qed.

Lemma extends_set_hdr h0 h a x : Extends h0 h -> (nhdr h0 <= a)%nat -> Extends h0 (set_hdr V h a x).
Proof.
  intros (A1 & A2 & A3 & A4 & A5 & A6) Ha. repeat split; cbn; auto.
  intros a' Ha'. rewrite upd_other by lia. auto.
Qed.

Lemma img_copy_deep (h : heap) k stamps h' k' :
  Allocated V h [k] -> ValidViews h k -> img_copy V true stamps h k = (h', k') ->
  Extends h h' /\ k' = nimg h /\ nimg h' = S (nimg h) /\ CopyOf stamps h k h' k'.
Proof.
  intros HA HV H. destruct (HA k (or_introl eq_refl)) as (Ak & Av & Ah).
  unfold img_copy in H. cbv zeta in H.
  destruct (copy_block V h (im_data (img h k))) as [h1 vd] eqn:E1.
  destruct (copy_block V h1 (im_err (img h k))) as [h2 ve] eqn:E2.
  destruct (copy_block V h2 (im_dq (img h k))) as [h3 vq] eqn:E3.
  apply copy_block_spec in E1; [|apply (Av FData)|apply (HV FData)].
  destruct E1 as (X1 & -> & N1 & M1 & I1 & B1).
  assert (Q2 : view_block V h1 (im_err (img h k)) = view_block V h (im_err (img h k)))
    by (apply extends_view; [exact X1|apply (Av FErr)]).
  apply copy_block_spec in E2; [|specialize (Av FErr); cbn in Av; lia|rewrite Q2; apply (HV FErr)].
  destruct E2 as (X2 & -> & N2 & M2 & I2 & B2).
  pose proof (extends_trans _ _ _ X1 X2) as X12.
  assert (Q3 : view_block V h2 (im_dq (img h k)) = view_block V h (im_dq (img h k)))
    by (apply extends_view; [exact X12|apply (Av FDq)]).
  apply copy_block_spec in E3; [|specialize (Av FDq); cbn in Av; lia|rewrite Q3; apply (HV FDq)].
  destruct E3 as (X3 & -> & N3 & M3 & I3 & B3).
  pose proof (extends_trans _ _ _ X12 X3) as X123.
  cbn [alloc_hdr alloc_img DatasetModel.nhdr DatasetModel.hdr DatasetModel.nimg DatasetModel.buf
       DatasetModel.nbuf DatasetModel.img im_ext] in H.
  assert (Hn3 : nhdr h3 = nhdr h) by congruence. assert (Ho3 : hdr h3 = hdr h3) by reflexivity.
  set (hN := mkheap V _ _ _ _ _ _) in H at 1.
  injection H as <- <-.
  assert (XN : Extends h hN).
  { apply (extends_trans h h3); [exact X123|]. unfold hN. repeat split; cbn; auto; try lia.
    - intros a Ha. rewrite !upd_other by lia. reflexivity.
    - intros a Ha. rewrite !upd_other by lia. reflexivity. }
  split; [apply extends_set_hdr; [exact XN|lia]|].
  split; [lia|]. split; [cbn; lia|].
  unfold CopyOf. cbn [DatasetModel.img set_hdr]. 
  assert (EI : img hN (nimg h3) = mkimage (nbuf h, 0) (nbuf h1, 0) (nbuf h2, 0)
             (nhdr h3) (S (nhdr h3)) (S (S (nhdr h3))) (S (S (S (nhdr h3)))) (im_name (img h k))).
  { unfold hN. cbn. apply upd_same. }
  rewrite EI. split; [|split].
  - assert (EB : buf hN = buf h3) by reflexivity. assert (NB : nbuf hN = nbuf h3) by reflexivity.
    intros []; cbn [im_view im_data im_err im_dq fst]; (split; [cbn; lia|]); unfold view_block in *; cbn [fst snd DatasetModel.buf set_hdr] in *; rewrite EB.
    + destruct X2 as (_ & _ & _ & X2 & _). destruct X3 as (_ & _ & _ & X3 & _).
      rewrite X3, X2 by lia. exact B1.
    + destruct X3 as (_ & _ & _ & X3 & _). rewrite X3 by lia. rewrite B2. exact Q2.
    + rewrite B3. exact Q3.
  - intros []; cbn [im_hdr im_pri im_ext im_errh im_dqh]; (split; [cbn; lia|]); unfold hN; cbn;
      unfold upd;
      repeat match goal with |- context [Nat.eqb ?a ?b] => destruct (Nat.eqb_spec a b); try lia end; reflexivity.
  - reflexivity.
Qed.

Lemma allocated_extends h h' frames : Extends h h' -> Allocated V h frames -> Allocated V h' frames.
Proof.
  intros X A k Hk. destruct (A k Hk) as (A1 & A2 & A3). destruct X as (X1 & X2 & X3 & X4 & X5 & X6).
  rewrite X6 by exact A1. split; [lia|]. split; intro f; [specialize (A2 f)|specialize (A3 f)]; lia.
Qed.

Lemma validviews_extends h h' k : Extends h h' -> Allocated V h [k] -> ValidViews h k -> ValidViews h' k.
Proof.
  intros X A HV f. destruct (A k (or_introl eq_refl)) as (A1 & A2 & _).
  pose proof X as X'. destruct X' as (_ & _ & _ & _ & _ & X6). rewrite X6 by exact A1.
  rewrite (extends_view h h') by (assumption || apply A2). apply HV.
Qed.

(** [CopyOf] is stable when the heap grows. *)
Lemma copyof_extends stamps h0 k h k' h2 :
  CopyOf stamps h0 k h k' -> Extends h h2 -> (k' < nimg h)%nat -> CopyOf stamps h0 k h2 k'.
Proof.
  intros (C1 & C2 & C3) X Hk. pose proof X as (X1 & X2 & X3 & X4 & X5 & X6).
  unfold CopyOf. rewrite X6 by exact Hk. split; [|split; [|exact C3]].
  - intro f. destruct (C1 f) as [A B]. split; [lia|].
    rewrite (extends_view h h2 _ X) by lia. exact B.
  - intro f. destruct (C2 f) as [A B]. split; [lia|]. rewrite X5 by lia. exact B.
Qed.

Lemma copyof_base stamps h0 h1 k h k' :
  Extends h0 h1 -> Allocated V h0 [k] -> CopyOf stamps h1 k h k' -> CopyOf stamps h0 k h k'.
Proof.
  intros X A (C1 & C2 & C3). destruct (A k (or_introl eq_refl)) as (A1 & A2 & A3).
  pose proof X as (X1 & X2 & X3 & X4 & X5 & X6). rewrite X6 in C1, C2, C3 by exact A1.
  split; [|split; [|exact C3]].
  - intro f. destruct (C1 f) as [P Q]. split; [lia|]. rewrite Q. apply extends_view; [exact X|apply A2].
  - intro f. destruct (C2 f) as [P Q]. split; [lia|]. rewrite Q. rewrite X5 by apply A3. reflexivity.
Qed.

Lemma copy_frames_deep stamps : forall frames (h : heap) h' frames',
  Allocated V h frames -> (forall k, In k frames -> ValidViews h k) ->
  copy_frames V true stamps h frames = (h', frames') ->
  Extends h h' /\ frames' = seq (nimg h) (List.length frames)
  /\ nimg h' = nimg h + List.length frames
  /\ (forall i k k', nth_error frames i = Some k -> nth_error frames' i = Some k' -> CopyOf stamps h k h' k').
Proof.
  induction frames as [|k t IH]; intros h h' frames' A HV H; cbn in H.
  - injection H as <- <-. split; [apply extends_refl|]. split; [reflexivity|]. split; [cbn; lia|].
    intros [|i] k k' Hi; discriminate.
  - destruct (img_copy V true stamps h k) as [h1 k1] eqn:E1.
    destruct (copy_frames V true stamps h1 t) as [h2 t'] eqn:E2. injection H as <- <-.
    assert (A1 : Allocated V h [k]) by (intros x [<-|[]]; apply A; left; reflexivity).
    apply img_copy_deep in E1; [|exact A1|apply HV; left; reflexivity].
    destruct E1 as (X1 & -> & N1 & C1).
    apply IH in E2.
    + destruct E2 as (X2 & -> & N2 & C2). split; [eapply extends_trans; eassumption|].
      split; [cbn; rewrite N1; reflexivity|]. split; [cbn; lia|].
      intros [|i] k0 k0' H1 H2; cbn in H1, H2.
      * injection H1 as <-. injection H2 as <-. eapply copyof_extends; [exact C1|exact X2|lia].
      * apply (copyof_base stamps h h1); [exact X1| |eapply C2; eassumption].
        intros x [<-|[]]. apply A. right. eapply nth_error_In. exact H1.
    + eapply allocated_extends; [exact X1|]. intros x Hx. apply A. right. exact Hx.
    + intros x Hx. eapply validviews_extends; [exact X1| |apply HV; right; exact Hx].
      intros y [<-|[]]. apply A. right. exact Hx.
Qed.

Lemma linked_valid h d k : Linked V h d -> In k (ds_frames d) -> ValidViews h k.
Proof.
  intros (_ & HL & _ & _ & Hv) Hk f. apply In_nth_error in Hk. destruct Hk as [i Hi].
  rewrite (Hv i k Hi f). unfold view_block. cbn. apply nth_error_Some. rewrite HL.
  apply nth_error_Some. congruence.
Qed.

Lemma extends_obs h h' d : WellFormed V h d -> Extends h h' -> same_observations V h d h' d.
Proof.
  intros [A C] (X1 & X2 & X3 & X4 & X5 & X6). split; [|split].
  - intros f i l p. unfold cube_pixel. rewrite X4 by apply C. reflexivity.
  - intros f i l p. unfold frame_pixel. destruct (nth_error (ds_frames d) i) as [k|] eqn:E; [|reflexivity].
    destruct (A k) as (A1 & A2 & A3); [eapply nth_error_In; exact E|].
    rewrite X6 by exact A1. rewrite X4 by apply A2. reflexivity.
  - intros f i. unfold frame_header. destruct (nth_error (ds_frames d) i) as [k|] eqn:E; [|reflexivity].
    destruct (A k) as (A1 & A2 & A3); [eapply nth_error_In; exact E|].
    rewrite X6 by exact A1. rewrite X5 by apply A3. reflexivity.
Qed.

Lemma deep_copy_spec stamps (h : heap) d h' d' :
  WellFormed V h d -> Linked V h d -> ds_copy V true stamps h d = Ok (h', d') ->
  Apart (h', d, d') /\ Linked V h' d'
  /\ same_observations V h d h' d
  /\ (forall f i l p, cube_pixel V h' d' f i l p = cube_pixel V h d f i l p)
  /\ (forall f i, frame_header V h' d' f i =
        match frame_header V h d f i with
        | Some x => Some (match f with HExt => set_keys stamps x | _ => x end)
        | None => None end).
Proof.
  intros W L H. unfold ds_copy in H.
  destruct (copy_frames V true stamps h (ds_frames d)) as [h1 fr] eqn:E.
  apply copy_frames_deep in E; [|apply W|intros k Hk; eapply linked_valid; eassumption].
  destruct E as (X & -> & N & C).
  assert (HN : NoDup (seq (nimg h) (List.length (ds_frames d)))) by apply seq_NoDup.
  pose proof (new_dataset_linked V h1 _ h' d' HN H) as L'.
  pose proof (new_dataset_contents V h1 _ h' d' H) as Cont.
  pose proof H as H0. apply new_dataset_inv in H.
  destruct H as (_ & bd & be & bq & G1 & G2 & G3 & Ed & Hb & Hnb & Hh & Hnh & Hni & Him & Hids & Hv).
  assert (X2 : Extends h h').
  { destruct X as (X1 & X2 & X3 & X4 & X5 & X6).
    split; [lia|]. split; [lia|]. split; [lia|]. split; [|split].
    - intros b Hbb. rewrite Hb. rewrite !upd_other by lia. auto.
    - intros a Ha. rewrite Hh. auto.
    - intros k Hk. rewrite Him; [auto|]. rewrite in_seq. lia. }
  assert (Fr : forall k', In k' (ds_frames d') -> (nimg h <= k' < nimg h1)%nat).
  { intros k' Hk'. rewrite Ed in Hk'. cbn in Hk'. apply in_seq in Hk'. lia. }
  assert (Cp : forall k', In k' (ds_frames d') -> exists k, In k (ds_frames d) /\ CopyOf stamps h k h1 k').
  { intros k' Hk'. rewrite Ed in Hk'. cbn in Hk'. apply In_nth_error in Hk'. destruct Hk' as [i Hi].
    assert (i < List.length (ds_frames d))%nat as Hlt.
    { rewrite <- (seq_length (List.length (ds_frames d)) (nimg h)). apply nth_error_Some. congruence. }
    destruct (nth_error (ds_frames d) i) as [k|] eqn:Ek; [|apply nth_error_None in Ek; lia].
    exists k. split; [eapply nth_error_In; exact Ek|]. eapply C; eassumption. }
  assert (Cb : forall f, (nbuf h <= cube f d' < nbuf h')%nat).
  { destruct X as (X1 & _). rewrite Ed. intros []; cbn; lia. }
  assert (Re : forall b, Reaches V h' d' b -> (nbuf h <= b < nbuf h')%nat).
  { intros b [[f ->]|(k & f & Hk & ->)]; [apply Cb|].
    apply In_nth_error in Hk. destruct Hk as [i Hi]. destruct L' as (_ & _ & _ & _ & L').
    rewrite (L' i k Hi f). cbn. apply Cb. }
  split; [|split; [exact L'|split; [|split]]].
  - split; [|split].
    + destruct W as [A B]. split.
      * intros k Hk. destruct (A k Hk) as (A1 & A2 & A3). destruct X2 as (Y1 & Y2 & Y3 & Y4 & Y5 & Y6).
        rewrite Y6 by exact A1. split; [lia|]. split; intro f; [specialize (A2 f)|specialize (A3 f)]; lia.
      * intro f. destruct X2 as (Y1 & _). specialize (B f). lia.
    + split.
      * intros k Hk. split; [specialize (Fr k Hk); lia|]. split.
        -- intro f. apply Re. right. exists k, f. auto.
        -- intro f. rewrite Hids, Hnh. destruct (Cp k Hk) as (k0 & _ & (_ & C2 & _)). apply C2.
      * intro f. apply Cb.
    + split; [|split].
      * intros k Hk Hk'. destruct W as [A _]. destruct (A k Hk) as (A1 & _). specialize (Fr k Hk'). lia.
      * intros b Hr Hr'. apply Re in Hr'.
        assert (Reaches V h d b) as Hr0.
        { destruct Hr as [[f ->]|(k & f & Hk & ->)]; [left; eauto|]. right. exists k, f. split; [exact Hk|].
          destruct X2 as (_ & _ & _ & _ & _ & Y6). destruct W as [A _]. destruct (A k Hk) as (A1 & _).
          rewrite Y6 by exact A1. reflexivity. }
        pose proof (wf_reach h d b W Hr0). lia.
      * intros k1 k2 f1 f2 H1 H2. rewrite (Hids k2). destruct (Cp k2 H2) as (k0 & _ & (_ & C2 & _)).
        destruct (C2 f2) as [C2' _]. destruct W as [A _]. destruct (A k1 H1) as (A1 & _ & A3).
        destruct X2 as (_ & _ & _ & _ & _ & Y6). rewrite Y6 by exact A1. specialize (A3 f1). lia.
  - apply extends_obs; assumption.
  - intros f i l p. unfold cube_pixel.
    destruct (nth_error (ds_frames d) i) as [k|] eqn:Ek.
    + assert (i < List.length (ds_frames d))%nat as Hlt by (apply nth_error_Some; congruence).
      assert (Es : nth_error (seq (nimg h) (List.length (ds_frames d))) i = Some (nimg h + i)).
      { erewrite nth_error_nth' with (d := 0); [rewrite seq_nth by exact Hlt; reflexivity|rewrite seq_length; exact Hlt]. }
      rewrite (Cont f i _ Es).
      destruct (C i k _ Ek Es) as (C1 & _). destruct (C1 f) as [_ ->].
      destruct L as (_ & _ & _ & _ & Lv). rewrite (Lv i k Ek f). reflexivity.
    + apply nth_error_None in Ek.
      destruct L as (_ & Ll & _). destruct L' as (_ & Ll' & _).
      assert (E1 : nth_error (buf h' (cube f d')) i = None).
      { apply nth_error_None. rewrite Ll', Ed. cbn. rewrite seq_length. exact Ek. }
      assert (E2 : nth_error (buf h (cube f d)) i = None).
      { apply nth_error_None. rewrite Ll. exact Ek. }
      rewrite E1, E2. reflexivity.
  - intros f i. unfold frame_header. rewrite Ed. cbn [ds_frames].
    destruct (nth_error (ds_frames d) i) as [k|] eqn:Ek.
    + assert (i < List.length (ds_frames d))%nat as Hlt by (apply nth_error_Some; congruence).
      assert (Es : nth_error (seq (nimg h) (List.length (ds_frames d))) i = Some (nimg h + i)).
      { erewrite nth_error_nth' with (d := 0); [rewrite seq_nth by exact Hlt; reflexivity|rewrite seq_length; exact Hlt]. }
      rewrite Es. destruct (C i k _ Ek Es) as (_ & C2 & _). destruct (C2 f) as [_ C2f].
      rewrite Hids, Hh, C2f. destruct f; reflexivity.
    + apply nth_error_None in Ek.
      assert (E1 : nth_error (seq (nimg h) (List.length (ds_frames d))) i = None)
        by (apply nth_error_None; rewrite seq_length; exact Ek).
      rewrite E1. reflexivity.
Qed.
End P.
