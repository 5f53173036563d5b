From Coq Require Import List Arith Bool Lia String.
From Verif Require Import Base DatasetModel DatasetSpec DatasetProofs DatasetCopyProofs DatasetErrProofs DatasetSliceProofs SplitModel SplitProofs AliasModel AliasSpec.
Import ListNotations.

Section P.
Variable V : Type.
Variable quad mul : V -> V -> V.
Variable leb : string -> string -> bool.
Variable track : bool.
Variable stamps : list (string * string).
Notation heap := (heap V).
Notation buf := (buf V). Notation nbuf := (nbuf V).
Notation hdr := (hdr V). Notation nhdr := (nhdr V).
Notation img := (img V). Notation nimg := (nimg V).

Definition Ext (T : hfield -> nat -> Prop) (h0 h : heap) : Prop :=
  (nbuf h0 <= nbuf h)%nat /\ (nhdr h0 <= nhdr h)%nat /\ (nimg h0 <= nimg h)%nat
  /\ (forall b, (b < nbuf h0)%nat -> buf h b = buf h0 b)
  /\ (forall a, (a < nhdr h0)%nat -> ~ T HExt a -> ~ T HErr a -> hdr h a = hdr h0 a)
  /\ (forall k, (k < nimg h0)%nat -> img h k = img h0 k).
Definition New (T : hfield -> nat -> Prop) (h0 h : heap) (d : dataset) : Prop :=
  (forall k, In k (ds_frames d) -> (nimg h0 <= k)%nat) /\ (forall f, (nbuf h0 <= cube f d)%nat)
  /\ (forall k f, In k (ds_frames d) -> (nbuf h0 <= fst (im_view f (img h k)))%nat)
  /\ (forall k r, In k (ds_frames d) -> (nhdr h0 <= im_hdr r (img h k))%nat \/ T r (im_hdr r (img h k))).
Definition Lk (L : field -> Prop) (h : heap) (d : dataset) : Prop :=
  forall i k f, nth_error (ds_frames d) i = Some k -> L f -> im_view f (img h k) = (cube f d, i).
Definition Inv (T : hfield -> nat -> Prop) (h0 : heap) (L : field -> Prop) (h : heap) (d : dataset) : Prop :=
  Ext T h0 h /\ New T h0 h d /\ Sound V h d /\ Lk L h d.

Lemma inv_weak T h0 (L L' : field -> Prop) h d : (forall f, L' f -> L f) -> Inv T h0 L h d -> Inv T h0 L' h d.
Proof. intros W (A & B & C & D). split; [exact A|split; [exact B|split; [exact C|]]]. intros i k f H1 H2. apply D; auto. Qed.

Lemma inv_linked T h0 (L : field -> Prop) h d : (forall f, L f) -> Inv T h0 L h d -> Linked V h d.
Proof.
  intros W (_ & _ & ((A1 & A2) & A3 & A4 & A5 & A6) & D). split; [exact A3|]. split; [exact A5|]. split; [exact A2|]. split; [exact A4|].
  intros i k H f. apply D; auto.
Qed.

Section I.
Variable T : hfield -> nat -> Prop.
Variable h0 : heap.

(** a header of a frame *)
Lemma inv_hdr L h d k r x : r = HExt \/ r = HErr -> In k (ds_frames d) -> Inv T h0 L h d -> Inv T h0 L (set_hdr V h (im_hdr r (img h k)) x) d.
Proof.
  intros R Hk ((E1 & E2 & E3 & E4 & E5 & E6) & N & S & D).
  split; [|split; [exact N|split; [exact S|exact D]]].
  repeat split; try assumption. intros a Ha N1 N2. cbn. unfold upd. destruct (Nat.eqb_spec a (im_hdr r (img h k))) as [E|]; [|apply E5; assumption].
  exfalso. destruct N as (_ & _ & _ & N4). destruct (N4 k r Hk) as [Q|Q]; [lia|]. rewrite <- E in Q. destruct R as [-> | ->]; auto.
Qed.

(** an array reached by the dataset gets new contents *)
Lemma inv_buf L h d b x : (nbuf h0 <= b)%nat -> List.length x = List.length (buf h b) -> Inv T h0 L h d -> Inv T h0 L (set_buf V h b x) d.
Proof.
  intros Hb Hx ((E1 & E2 & E3 & E4 & E5 & E6) & N & ((S1 & S2) & S3 & S4 & S5 & S6) & D).
  split; [|split; [exact N|split; [|exact D]]].
  - repeat split; try assumption. intros c Hc. cbn. rewrite upd_other by lia. apply E4. exact Hc.
  - split; [split; assumption|]. split; [exact S3|]. split; [exact S4|]. split.
    + intro f. cbn. unfold upd. destruct (Nat.eqb_spec (cube f d) b) as [E|]; [|apply S5]. rewrite Hx, <- E. apply S5.
    + intros k f Hk. specialize (S6 k f Hk). cbn. unfold upd. destruct (Nat.eqb_spec (fst (im_view f (img h k))) b) as [E|]; [|exact S6].
      apply nth_error_Some. rewrite Hx, <- E. apply nth_error_Some. exact S6.
Qed.

Lemma inv_alloc L h d x : Inv T h0 L h d -> Inv T h0 L (fst (alloc_buf V h x)) d.
Proof.
  intros ((E1 & E2 & E3 & E4 & E5 & E6) & N & ((S1 & S2) & S3 & S4 & S5 & S6) & D).
  split; [|split; [exact N|split; [|exact D]]].
  - repeat split; try assumption; cbn; [lia|]. intros c Hc. rewrite upd_other by lia. apply E4. exact Hc.
  - split; [split|].
    + intros k Hk. destruct (S1 k Hk) as (Q1 & Q2 & Q3). split; [exact Q1|]. split; [|exact Q3]. intro f. cbn. specialize (Q2 f). cbn in *. lia.
    + intro f. cbn. specialize (S2 f). lia.
    + split; [exact S3|]. split; [exact S4|]. split.
      * intro f. cbn. rewrite upd_other; [apply S5|]. specialize (S2 f). lia.
      * intros k f Hk. cbn. rewrite upd_other; [apply S6; exact Hk|]. destruct (S1 k Hk) as (_ & Q2 & _). specialize (Q2 f). cbn in Q2. lia.
Qed.

(** a frame gets another array *)
Lemma inv_view (L : field -> Prop) h d k f v : In k (ds_frames d) -> (nbuf h0 <= fst v < nbuf h)%nat -> nth_error (buf h (fst v)) (snd v) <> None ->
  Inv T h0 L h d -> Inv T h0 (fun g => L g /\ g <> f) (set_img V h k (set_view f v (img h k))) d.
Proof.
  intros Hk Hv Hx ((E1 & E2 & E3 & E4 & E5 & E6) & (N1 & N2 & N3 & N4) & ((S1 & S2) & S3 & S4 & S5 & S6) & D).
  assert (VW : forall k' g, im_view g (upd (img h) k (set_view f v (img h k)) k') = im_view g (img h k') \/ (k' = k /\ g = f /\ im_view g (upd (img h) k (set_view f v (img h k)) k') = v)).
  { intros k' g. unfold upd. destruct (Nat.eqb_spec k' k) as [->|]; [|auto]. rewrite im_view_set. destruct f, g; cbn; auto. }
  assert (HW : forall k' r, im_hdr r (upd (img h) k (set_view f v (img h k)) k') = im_hdr r (img h k')).
  { intros k' r. unfold upd. destruct (Nat.eqb_spec k' k) as [->|]; [|auto]. apply im_hdr_set. }
  split; [|split; [|split]].
  - repeat split; try assumption. intros j Hj. cbn. rewrite upd_other; [apply E6; exact Hj|]. specialize (N1 k Hk). lia.
  - split; [exact N1|]. split; [exact N2|]. split.
    + intros k' g Hk'. cbn. destruct (VW k' g) as [-> |(_ & _ & ->)]; [apply N3; exact Hk'|lia].
    + intros k' r Hk'. cbn. rewrite HW. apply N4. exact Hk'.
  - split; [split|].
    + intros k' Hk'. destruct (S1 k' Hk') as (Q1 & Q2 & Q3). split; [exact Q1|]. cbn. split; [|intro r; rewrite HW; apply Q3].
      intro g. destruct (VW k' g) as [-> |(_ & _ & ->)]; [apply Q2|lia].
    + exact S2.
    + split; [exact S3|]. split; [exact S4|]. split; [exact S5|].
      intros k' g Hk'. cbn. destruct (VW k' g) as [-> |(_ & _ & ->)]; [apply S6; exact Hk'|exact Hx].
  - intros i k' g Hi [G1 G2]. cbn. destruct (VW k' g) as [-> |(_ & G3 & _)]; [apply D; assumption|contradiction].
Qed.

Lemma inv_repoint (f : field) b : forall frames L h d i, (forall k, In k frames -> In k (ds_frames d)) -> (nbuf h0 <= b < nbuf h)%nat -> (i + List.length frames <= List.length (buf h b))%nat ->
  Inv T h0 L h d -> Inv T h0 (fun g => L g /\ g <> f) (repoint V h f b i frames) d.
Proof.
  induction frames as [|k t IH]; intros L h d i Hf Hb Hl Q; cbn [repoint].
  - eapply inv_weak; [|exact Q]. intros g [G _]. exact G.
  - cbn [List.length] in Hl. eapply inv_weak; [|apply (IH (fun g => L g /\ g <> f))].
    + intros g [G1 G2]. auto.
    + intros k' H'. apply Hf. right. exact H'.
    + exact Hb.
    + cbn. lia.
    + apply inv_view; [apply Hf; left; reflexivity|exact Hb| |exact Q]. cbn. apply nth_error_Some. lia.
Qed.

(** the error cube is replaced *)
Lemma inv_err (L : field -> Prop) h d e : (nbuf h0 <= e < nbuf h)%nat -> e <> ds_data d -> e <> ds_dq d -> List.length (buf h e) = List.length (ds_frames d) ->
  Inv T h0 L h d -> Inv T h0 (fun g => L g \/ g = FErr) (repoint V h FErr e 0 (ds_frames d)) (mkds (ds_frames d) (ds_data d) e (ds_dq d)).
Proof.
  intros He E1 E2 Hl Q. pose proof Q as (_ & _ & ((_ & S2') & S3' & S4' & S5' & _) & D').
  pose proof (repoint_frame V (ds_frames d) h FErr e 0) as (RB & RN & _ & _ & _ & _ & _ & RV).
  pose proof (inv_repoint FErr e (ds_frames d) L h d 0 (fun k H => H) He (eq_ind_r (fun n => (0 + n <= _)%nat) (Nat.le_refl _) (eq_sym Hl)) Q) as (A & (N1 & N2 & N3 & N4) & ((S1 & S2) & S3 & S4 & S5 & S6) & D).
  split; [exact A|]. split; [|split].
  - split; [exact N1|]. split; [|split; [exact N3|exact N4]]. intros []; cbn; [apply (N2 FData)|lia|apply (N2 FDq)].
  - split; [split; [exact S1|]|].
    + intros []; cbn; [apply (S2 FData)|rewrite RN; lia|apply (S2 FDq)].
    + split; [exact S3|]. split; [|split; [|exact S6]].
      * pose proof (S4 FData FDq) as F1. pose proof (S4 FDq FData) as F2. cbn in F1, F2. intros [] []; cbn; intro EE; try reflexivity; try congruence; auto.
      * intros []; cbn [cube ds_data ds_err ds_dq ds_frames]; [apply (S5 FData)|rewrite RB; exact Hl|apply (S5 FDq)].
  - intros i k f Hi [G|G].
    + destruct f; cbn [cube ds_data ds_err ds_dq ds_frames] in *.
      * apply (D i k FData Hi). split; [exact G|discriminate].
      * rewrite (repoint_nth V (ds_frames d) h FErr e 0 S3' i k Hi). reflexivity.
      * apply (D i k FDq Hi). split; [exact G|discriminate].
    + subst f. cbn [cube ds_err]. rewrite (repoint_nth V (ds_frames d) h FErr e 0 S3' i k Hi). reflexivity.
Qed.

(** ** The methods *)
Lemma inv_cards (L : field -> Prop) d : forall frames h css h' x, (forall k, In k frames -> In k (ds_frames d)) -> cards V h frames css = (h', x) -> Inv T h0 L h d -> Inv T h0 L h' d.
Proof.
  induction frames as [|k t IH]; intros h css h' x Hf H Q; cbn [cards] in H.
  - injection H as <- _. exact Q.
  - destruct css as [|c ct]; [injection H as <- _; exact Q|]. eapply IH; [|exact H|].
    + intros k' Hk'. apply Hf. right. exact Hk'.
    + apply (inv_hdr L h d k HExt); [auto|apply Hf; left; reflexivity|exact Q].
Qed.

Lemma inv_stamp (L : field -> Prop) d hist en : forall frames h, (forall k, In k frames -> In k (ds_frames d)) -> Inv T h0 L h d -> Inv T h0 L (stamp V h hist en frames) d.
Proof.
  induction frames as [|k t IH]; intros h Hf Q; cbn [stamp]; [exact Q|]. apply IH; [intros k' Hk'; apply Hf; right; exact Hk'|].
  assert (Hk : In k (ds_frames d)) by (apply Hf; left; reflexivity).
  apply (inv_hdr L (set_hdr V h (im_ext (img h k)) _) d k HErr); [auto|exact Hk|].
  apply (inv_hdr L h d k HExt); [auto|exact Hk|exact Q].
Qed.

Lemma inv_put (L : field -> Prop) h d v b h' x : (nbuf h0 <= fst v)%nat -> put V h v b = (h', x) -> Inv T h0 L h d -> Inv T h0 L h' d.
Proof.
  intros Hv H Q. unfold put in H. destruct (view_block V h v) as [b0|]; [|injection H as <- _; exact Q].
  destruct (list_nat_eqb (shape V b) (shape V b0)); injection H as <- _; [|exact Q]. apply inv_buf; [exact Hv|apply set_nth_length|exact Q].
Qed.

Lemma inv_new_cube (L : field -> Prop) h d f : Inv T h0 L h d -> (nbuf h0 <= cube f d)%nat.
Proof. intros (_ & (_ & N2 & _) & _). apply N2. Qed.
Lemma inv_new_view (L : field -> Prop) h d f k : In k (ds_frames d) -> Inv T h0 L h d -> (nbuf h0 <= fst (im_view f (img h k)))%nat.
Proof. intros Hk (_ & (_ & _ & N3 & _) & _). apply N3. exact Hk. Qed.

Definition errgiven (ne : option nat) (L : field -> Prop) : field -> Prop := match ne with Some _ => fun g => L g \/ g = FErr | None => L end.

Lemma inv_update (L : field -> Prop) h d hist nd ne nq en h' d' x :
  (forall e, ne = Some e -> (nbuf h0 <= e < nbuf h)%nat /\ e <> ds_data d /\ e <> ds_dq d) ->
  update_step V h d hist nd ne nq en = (h', d', x) -> Inv T h0 L h d -> Inv T h0 L h' d' /\ (x = None -> Inv T h0 (errgiven ne L) h' d') /\ ds_frames d' = ds_frames d.
Proof.
  intros He H Q. unfold update_step in H.
  set (s1 := match nd with None => (h, None) | Some b => _ end) in H.
  assert (Q1 : Inv T h0 L (fst s1) d /\ nbuf (fst s1) = nbuf h).
  { unfold s1. destruct nd as [b|]; [|auto]. destruct (same_shapes V b (buf h (ds_data d))) eqn:E; [|auto]. cbn [fst]. split; [|reflexivity].
    apply inv_buf; [apply (inv_new_cube L h d FData Q)|apply same_shapes_length; exact E|exact Q]. }
  destruct s1 as [h1 x1]. cbn [fst] in Q1. destruct Q1 as [Q1 B1].
  destruct x1 as [x1|]; [injection H as <- <- <-; split; [exact Q1|split; [discriminate|reflexivity]]|].
  set (s2 := match ne with None => (h1, d, None) | Some e => _ end) in H.
  assert (Q2 : Inv T h0 L (fst (fst s2)) (snd (fst s2)) /\ (snd s2 = None -> Inv T h0 (errgiven ne L) (fst (fst s2)) (snd (fst s2))) /\ ds_frames (snd (fst s2)) = ds_frames d).
  { unfold s2. destruct ne as [e|]; [|cbn; auto]. destruct (He e eq_refl) as (X1 & X2 & X3).
    destruct (err_shapes V (buf h1 e) (buf h1 (ds_err d))) eqn:E; [|cbn; split; [exact Q1|split; [discriminate|reflexivity]]]. cbn [fst snd].
    assert (R : Inv T h0 (errgiven (Some e) L) (repoint V h1 FErr e 0 (ds_frames d)) (mkds (ds_frames d) (ds_data d) e (ds_dq d))).
    { apply inv_err; [rewrite B1; exact X1|exact X2|exact X3| |exact Q1]. rewrite (err_shapes_length V _ _ E). destruct Q1 as (_ & _ & (_ & _ & _ & S5 & _) & _). apply (S5 FErr). }
    split; [|split; [auto|reflexivity]]. eapply inv_weak; [|exact R]. intros f F. left. exact F. }
  destruct s2 as [[h2 d2] x2]. cbn [fst snd] in Q2. destruct Q2 as (Q2 & Q2' & F2).
  destruct x2 as [x2|]; [injection H as <- <- <-; split; [exact Q2|split; [discriminate|exact F2]]|]. specialize (Q2' eq_refl).
  set (s3 := match nq with None => (h2, None) | Some b => _ end) in H.
  assert (Q3 : forall M, Inv T h0 M h2 d2 -> Inv T h0 M (fst s3) d2).
  { intros M QM. unfold s3. destruct nq as [b|]; [|auto]. destruct (same_shapes V b (buf h2 (ds_dq d2))) eqn:E; [|auto]. cbn [fst].
    apply inv_buf; [apply (inv_new_cube M h2 d2 FDq QM)|apply same_shapes_length; exact E|exact QM]. }
  destruct s3 as [h3 x3]. cbn [fst] in Q3. destruct x3 as [x3|]; injection H as <- <- <-.
  - split; [apply Q3; exact Q2|split; [discriminate|exact F2]].
  - split; [apply inv_stamp; [auto|apply Q3; exact Q2]|]. split; [|exact F2]. intros _. apply inv_stamp; [auto|apply Q3; exact Q2'].
Qed.

Definition noerr (L : field -> Prop) : field -> Prop := fun g => L g /\ g <> FErr.
Lemma inv_noerr (L : field -> Prop) h d : Inv T h0 L h d -> Inv T h0 (noerr L) h d.
Proof. apply inv_weak. intros f [F _]. exact F. Qed.

Lemma inv_img_add (L : field -> Prop) tr name h d k e h' x : In k (ds_frames d) -> img_add_error V quad tr name h k e = (h', x) -> Inv T h0 (noerr L) h d -> Inv T h0 (noerr L) h' d.
Proof.
  intros Hk H Q. unfold img_add_error in H.
  destruct (view_block V h (im_data (img h k))) as [db|]; [|injection H as <- <-; exact Q].
  destruct (view_block V h (im_err (img h k))) as [[|l0 rest]|]; try (injection H as <- <-; exact Q).
  destruct (list_nat_eqb (shape V db) [List.length e]); [|injection H as <- <-; exact Q].
  set (h1 := set_buf V h _ _) in H.
  assert (Q1 : Inv T h0 (noerr L) h1 d) by (apply inv_buf; [apply (inv_new_view (noerr L) h d FErr k Hk Q)|apply set_nth_length|exact Q]).
  set (h2 := set_hdr V h1 _ _) in H.
  assert (Q2 : Inv T h0 (noerr L) h2 d) by (apply (inv_hdr (noerr L) h1 d k HErr); auto).
  injection H as <- _. set (h3 := if tr then _ else _).
  assert (Q3 : Inv T h0 (noerr L) h3 d /\ im_errh (img h3 k) = im_errh (img h k)).
  { unfold h3. destruct tr; [|auto]. cbn [alloc_buf].
    set (h2' := mkheap _ _ _ _ _ _ _).
    assert (Q2' : Inv T h0 (noerr L) h2' d) by apply (inv_alloc (noerr L) h2 d _ Q2).
    set (h4 := set_img V h2' k _).
    assert (Q4 : Inv T h0 (noerr L) h4 d).
    { eapply inv_weak; [|apply (inv_view (noerr L) h2' d k FErr (nbuf h2, 0) Hk)].
      - intros g [G1 G2]. split; [split; assumption|exact G2].
      - cbn. pose proof Q2 as ((E1 & _) & _). unfold h2, h1 in E1. cbn in E1. lia.
      - cbn. rewrite upd_same. discriminate.
      - exact Q2'. }
    assert (I4 : im_errh (img h4 k) = im_errh (img h k)) by (unfold h4; cbn; rewrite upd_same; reflexivity).
    split; [|cbn; exact I4]. rewrite <- I4. apply (inv_hdr (noerr L) h4 d k HErr); auto. }
  destruct Q3 as [Q3 I3]. rewrite <- I3. apply (inv_hdr (noerr L) h3 d k HErr); auto.
Qed.

Lemma inv_img_rescale (L : field -> Prop) name h d k e h' x : In k (ds_frames d) -> img_rescale V mul name h k e = (h', x) -> Inv T h0 (noerr L) h d -> Inv T h0 (noerr L) h' d.
Proof.
  intros Hk H Q. unfold img_rescale in H.
  destruct (view_block V h (im_data (img h k))) as [db|]; [|injection H as <- <-; exact Q].
  destruct (view_block V h (im_err (img h k))) as [be|]; [|injection H as <- <-; exact Q].
  destruct (list_nat_eqb (shape V db) [List.length e]); [|injection H as <- <-; exact Q].
  cbn [alloc_buf] in H. set (h1 := mkheap _ _ _ _ _ _ _) in H.
  assert (Q1 : Inv T h0 (noerr L) h1 d) by apply (inv_alloc (noerr L) h d _ Q).
  set (h2 := set_img V h1 k _) in H.
  assert (Q2 : Inv T h0 (noerr L) h2 d).
  { eapply inv_weak; [|apply (inv_view (noerr L) h1 d k FErr (nbuf h, 0) Hk)].
    - intros g [G1 G2]. split; [split; assumption|exact G2].
    - cbn. pose proof Q as ((E1 & _) & _). lia.
    - cbn. rewrite upd_same. discriminate.
    - exact Q1. }
  injection H as <- _. assert (I2 : im_errh (img h2 k) = im_errh (img h k)) by (unfold h2; cbn; rewrite upd_same; reflexivity).
  rewrite <- I2. apply (inv_hdr (noerr L) h2 d k HErr); auto.
Qed.

Lemma inv_loop (L : field -> Prop) (st : heap -> nat -> layer V -> heap * option exn) d :
  (forall h k e h' x, In k (ds_frames d) -> st h k e = (h', x) -> Inv T h0 (noerr L) h d -> Inv T h0 (noerr L) h' d) ->
  forall frames h i a h' x, (forall k, In k frames -> In k (ds_frames d)) -> loop_err V st h i frames a = (h', x) -> Inv T h0 (noerr L) h d -> Inv T h0 (noerr L) h' d.
Proof.
  intro HS. induction frames as [|k t IH]; intros h i a h' x Hf H Q; cbn [loop_err] in H; [injection H as <- _; exact Q|].
  destruct (match a with EShared _ e => Some e | EPer _ es => nth_error es i | EBad _ => None end) as [e|]; [|injection H as <- _; exact Q].
  destruct (st h k e) as [h1 x1] eqn:E. assert (Q1 : Inv T h0 (noerr L) h1 d) by (eapply HS; [apply Hf; left; reflexivity|exact E|exact Q]).
  destruct x1 as [x1|]; [injection H as <- _; exact Q1|]. eapply IH; [|exact H|exact Q1]. intros k' Hk'. apply Hf. right. exact Hk'.
Qed.

Lemma inv_cubes_lt (L : field -> Prop) h d f : Inv T h0 L h d -> (cube f d < nbuf h)%nat.
Proof. intros (_ & _ & ((_ & S2) & _) & _). apply S2. Qed.

Lemma inv_fresh_err (L : field -> Prop) h d bs : List.length bs = List.length (ds_frames d) -> Inv T h0 L h d ->
  let h1 := fst (alloc_buf V h bs) in Inv T h0 (fun g => L g \/ g = FErr) (repoint V h1 FErr (nbuf h) 0 (ds_frames d)) (mkds (ds_frames d) (ds_data d) (nbuf h) (ds_dq d)).
Proof.
  intros Hl Q h1. pose proof (inv_cubes_lt L h d FData Q) as C1. pose proof (inv_cubes_lt L h d FDq Q) as C2. cbn [cube] in C1, C2.
  apply inv_err; [|lia|lia| |apply inv_alloc; exact Q].
  - pose proof Q as ((E1 & _) & _). unfold h1. cbn. lia.
  - unfold h1. cbn. rewrite upd_same. exact Hl.
Qed.

Lemma inv_err_method (L : field -> Prop) (st : heap -> nat -> layer V -> heap * option exn) h d a h' d' x :
  (forall h k e h' x, In k (ds_frames d) -> st h k e = (h', x) -> Inv T h0 (noerr L) h d -> Inv T h0 (noerr L) h' d) ->
  err_method V st h d a = (h', d', x) -> Inv T h0 L h d -> Inv T h0 (noerr L) h' d' /\ (x = None -> Inv T h0 L h' d') /\ ds_frames d' = ds_frames d.
Proof.
  intros HS H Q. pose proof (inv_noerr L h d Q) as Q0. unfold err_method in H.
  assert (H' : (h, d, Some ValueError) = (h', d', x) \/ match loop_err V st h 0 (ds_frames d) a with (h1, Some x) => (h1, d, Some x) | (h1, None) => relink_err V h1 d end = (h', d', x)) by (destruct a; auto).
  clear H. destruct H' as [H|H]; [injection H as <- <- <-; split; [exact Q0|split; [discriminate|reflexivity]]|].
  destruct (loop_err V st h 0 (ds_frames d) a) as [h1 x1] eqn:E.
  assert (Q1 : Inv T h0 (noerr L) h1 d) by (eapply inv_loop; [exact HS| |exact E|exact Q0]; auto).
  destruct x1 as [x1|]; [injection H as <- <- <-; split; [exact Q1|split; [discriminate|reflexivity]]|].
  unfold relink_err in H. destruct (collect V h1 FErr (ds_frames d)) as [bs|y] eqn:C; [|injection H as <- <- <-; split; [exact Q1|split; [discriminate|reflexivity]]].
  cbn [alloc_buf] in H. injection H as <- <- <-.
  assert (R := inv_fresh_err (noerr L) h1 d bs (proj1 (gather_ok V _ _ _ _ (collect_ok V _ _ _ _ C))) Q1). cbn in R.
  split; [eapply inv_weak; [|exact R]; intros g G; left; exact G|]. split; [|reflexivity].
  intros _. eapply inv_weak; [|exact R]. intros g G. destruct g; [left; split; [exact G|discriminate]|right; reflexivity|left; split; [exact G|discriminate]].
Qed.

Lemma inv_each (L : field -> Prop) d body : (forall h i k h' x, In k (ds_frames d) -> body h i k = (h', x) -> Inv T h0 L h d -> Inv T h0 L h' d) ->
  forall frames h i h' x, (forall k, In k frames -> In k (ds_frames d)) -> each V body h i frames = (h', x) -> Inv T h0 L h d -> Inv T h0 L h' d.
Proof.
  intro HB. induction frames as [|k t IH]; intros h i h' x Hf H Q; cbn [each] in H; [injection H as <- _; exact Q|].
  destruct (body h i k) as [h1 x1] eqn:E. assert (Q1 : Inv T h0 L h1 d) by (eapply HB; [apply Hf; left; reflexivity|exact E|exact Q]).
  unfold seq2 in H. destruct x1 as [x1|]; [injection H as <- _; exact Q1|]. eapply IH; [|exact H|exact Q1]. intros k' Hk'. apply Hf. right. exact Hk'.
Qed.

Lemma inv_filled (L : field -> Prop) f new h d h' x : filled V f new h d = (h', x) -> Inv T h0 L h d -> Inv T h0 L h' d.
Proof.
  unfold filled. intros H Q. eapply inv_each; [| |exact H|exact Q]; [|auto].
  intros h1 i k h2 y Hk E Q1. unfold given2 in E. destruct (new h1 d i) as [b|]; [|injection E as <- _; exact Q1].
  eapply inv_put; [|exact E|exact Q1]. apply (inv_new_cube L h1 d f Q1).
Qed.

(** ** Slices *)
Lemma inv_slice (L : field -> Prop) h d ks h' d2 : (forall k, In k ks -> In k (ds_frames d)) -> NoDup ks -> new_dataset V h ks = Ok (h', d2) -> Inv T h0 L h d ->
  Inv T h0 (fun _ => False) h' d /\ Inv T h0 (fun _ => True) h' d2.
Proof.
  intros Hs HN H Q.
  assert (O : Inv T h0 (fun _ => False) h' d).
  { pose proof H as H1. unfold new_dataset in H1. destruct ks as [|k0 t]; [discriminate|]. set (ks := k0 :: t) in *.
    destruct (collect V h FData ks) as [bd|] eqn:C1; cbn [bind] in H1; [|discriminate].
    destruct (collect V h FErr ks) as [be|] eqn:C2; cbn [bind] in H1; [|discriminate].
    destruct (collect V h FDq ks) as [bq|] eqn:C3; cbn [bind] in H1; [|discriminate].
    apply collect_ok, gather_ok in C1, C2, C3. destruct C1 as [C1 _], C2 as [C2 _], C3 as [C3 _].
    pose proof Q as ((EB & _) & _).
    pose proof (inv_alloc _ _ _ bq (inv_alloc _ _ _ be (inv_alloc L h d bd Q))) as Q1.
    set (h3 := fst (alloc_buf V (fst (alloc_buf V (fst (alloc_buf V h bd)) be)) bq)) in Q1.
    change (Ok (repoint V (repoint V (repoint V h3 FData (nbuf h) 0 ks) FErr (S (nbuf h)) 0 ks) FDq (S (S (nbuf h))) 0 ks, mkds ks (nbuf h) (S (nbuf h)) (S (S (nbuf h)))) = Ok (h', d2)) in H1.
    injection H1 as H1 _.
    assert (B3 : buf h3 = upd (upd (upd (buf h) (nbuf h) bd) (S (nbuf h)) be) (S (S (nbuf h))) bq) by reflexivity.
    assert (N3 : nbuf h3 = S (S (S (nbuf h)))) by reflexivity.
    assert (L1 : (0 + List.length ks <= List.length (buf h3 (nbuf h)))%nat) by (rewrite B3, !upd_other, upd_same by lia; lia).
    assert (L2 : (0 + List.length ks <= List.length (buf h3 (S (nbuf h))))%nat) by (rewrite B3, upd_other, upd_same by lia; lia).
    assert (L3 : (0 + List.length ks <= List.length (buf h3 (S (S (nbuf h)))))%nat) by (rewrite B3, upd_same; lia).
    assert (R1 : (nbuf h0 <= nbuf h < nbuf h3)%nat) by (rewrite N3; lia).
    pose proof (inv_repoint FData (nbuf h) ks _ h3 d 0 Hs R1 L1 Q1) as Q2.
    set (h4 := repoint V h3 FData _ 0 ks) in Q2. destruct (repoint_frame V ks h3 FData (nbuf h) 0) as (RB & RN & _). fold h4 in RB, RN.
    rewrite <- RB in L2, L3. rewrite <- RN in N3.
    assert (R2 : (nbuf h0 <= S (nbuf h) < nbuf h4)%nat) by (rewrite N3; lia).
    pose proof (inv_repoint FErr (S (nbuf h)) ks _ h4 d 0 Hs R2 L2 Q2) as Q3.
    set (h5 := repoint V h4 FErr _ 0 ks) in Q3. destruct (repoint_frame V ks h4 FErr (S (nbuf h)) 0) as (RB' & RN' & _). fold h5 in RB', RN'.
    rewrite <- RB' in L3. rewrite <- RN' in N3.
    assert (R3 : (nbuf h0 <= S (S (nbuf h)) < nbuf h5)%nat) by (rewrite N3; lia).
    pose proof (inv_repoint FDq (S (S (nbuf h))) ks _ h5 d 0 Hs R3 L3 Q3) as Q4.
    subst h'. eapply inv_weak; [|exact Q4]. intros g []. }
  split; [exact O|].
  pose proof (new_dataset_linked V h ks h' d2 HN H) as (K1 & K2 & K3 & K4 & K5).
  pose proof Q as (_ & _ & ((S1 & _) & _) & _).
  assert (A : Allocated V h ks) by (intros k Hk; apply S1; apply Hs; exact Hk).
  pose proof (new_dataset_wf V h ks h' d2 A HN H) as W.
  pose proof (new_dataset_inv V h ks h' d2 H) as (_ & bd & be & bq & _ & _ & _ & Ed & _ & _ & _ & _ & _ & _ & Hids & _).
  destruct O as (OE & (O1 & O2 & O3 & O4) & _). destruct Q as ((EB & _) & _).
  assert (Fr : ds_frames d2 = ks) by (rewrite Ed; reflexivity).
  assert (NC : forall f, (nbuf h0 <= cube f d2)%nat) by (rewrite Ed; intros []; cbn; lia).
  split; [exact OE|]. split; [|split].
  - split; [|split; [|split]].
    + intros k Hk. rewrite Fr in Hk. apply O1. auto.
    + exact NC.
    + intros k f Hk. apply In_nth_error in Hk. destruct Hk as [i Hi]. rewrite (K5 i k Hi f). apply NC.
    + intros k r Hk. rewrite Fr in Hk. apply O4. auto.
  - split; [exact W|]. split; [exact K1|]. split; [exact K4|]. split; [exact K2|].
    intros k f Hk. apply In_nth_error in Hk. destruct Hk as [i Hi]. rewrite (K5 i k Hi f). cbn [fst snd]. apply nth_error_Some. rewrite K2. apply nth_error_Some. congruence.
  - intros i k f Hi _. apply K5. exact Hi.
Qed.

Lemma pick_sub idx frames ks : pick_frames frames idx = Ok ks -> forall k, In k ks -> In k frames.
Proof.
  intros H k Hk. destruct (pick_frames_ok _ _ _ H) as [P1 P2]. apply In_nth_error in Hk. destruct Hk as [j Hj].
  destruct (nth_error idx j) as [i|] eqn:E.
  - destruct (P2 j i E) as (k1 & F1 & F2). apply (nth_error_In frames i). congruence.
  - exfalso. apply nth_error_None in E. assert (j < List.length ks)%nat by (apply nth_error_Some; congruence). lia.
Qed.

Lemma inv_getitem (L : field -> Prop) h d idx h' d2 : NoDup idx -> getitem V h d idx = Ok (h', d2) -> Inv T h0 L h d -> Inv T h0 (fun _ => False) h' d /\ Inv T h0 (fun _ => True) h' d2.
Proof.
  intros HN H Q. unfold getitem in H. destruct (pick_frames (ds_frames d) idx) as [ks|] eqn:E; cbn [bind] in H; [|discriminate].
  pose proof Q as (_ & _ & (_ & S3 & _) & _).
  eapply inv_slice; [apply (pick_sub _ _ _ E)|eapply pick_frames_nodup; [exact HN|exact S3|exact E]|exact H|exact Q].
Qed.

Lemma inv_groups d : forall gs (L : field -> Prop) h h' ds, (forall g, In g gs -> NoDup g) -> take_groups V h d gs = Ok (h', ds) -> Inv T h0 L h d -> Inv T h0 (fun _ => False) h' d.
Proof.
  induction gs as [|g t IH]; intros L h h' ds HN H Q; cbn [take_groups] in H.
  - injection H as <- _. eapply inv_weak; [|exact Q]. intros f [].
  - destruct (getitem V h d g) as [[h1 d1]|] eqn:E; cbn [bind fst snd] in H; [|discriminate].
    destruct (take_groups V h1 d t) as [[h2 ds2]|] eqn:E2; cbn [bind fst snd] in H; [|discriminate]. injection H as <- _.
    eapply IH; [intros g' Hg'; apply HN; right; exact Hg'|exact E2|]. exact (proj1 (inv_getitem L h d g h1 d1 (HN g (or_introl eq_refl)) E Q)).
Qed.

Lemma split_groups h d pri ext h' subs keys : split_dataset V leb h d pri ext = Ok (h', subs, keys) -> exists gs, (forall g, In g gs -> NoDup g) /\ take_groups V h d gs = Ok (h', subs).
Proof.
  intro H. unfold split_dataset in H.
  assert (H' : exists p e, match rows_of V h p e (ds_frames d) with Ok rows => match p ++ e with [] => Raise ValueError | _ :: _ => do r <- take_groups V h d (map (fun k => positions k 0 rows) (group_keys leb rows)); Ok (fst r, snd r, group_keys leb rows) end | Raise x => Raise x end = Ok (h', subs, keys)).
  { destruct pri as [p|]; [exists p, (match ext with Some l => l | None => [] end)|exists [], (match ext with Some l => l | None => [] end)]; unfold bind at 1 in H; destruct ext; try discriminate; exact H. }
  clear H. destruct H' as (p & e & H). destruct (rows_of V h p e (ds_frames d)) as [rows|]; [|discriminate]. destruct (p ++ e); [discriminate|].
  destruct (take_groups V h d _) as [[h1 ds1]|] eqn:E; cbn [bind fst snd] in H; [|discriminate]. injection H as <- <- _.
  eexists. split; [|exact E]. intros g Hg. apply in_map_iff in Hg. destruct Hg as (k & <- & _). apply sorted_lt_nodup, positions_sorted.
Qed.

Lemma inv_split (L : field -> Prop) h d pri ext h' subs keys : split_dataset V leb h d pri ext = Ok (h', subs, keys) -> Inv T h0 L h d -> Inv T h0 (fun _ => False) h' d.
Proof. intros H Q. destruct (split_groups _ _ _ _ _ _ _ H) as (gs & HN & E). eapply inv_groups; eassumption. Qed.
End I.

(** ** Splitting the input keeps its contents *)
Definition Kept (h h' : heap) : Prop :=
  (nbuf h <= nbuf h')%nat /\ nhdr h' = nhdr h /\ nimg h' = nimg h
  /\ (forall b, (b < nbuf h)%nat -> buf h' b = buf h b) /\ hdr h' = hdr h
  /\ (forall k r, im_hdr r (img h' k) = im_hdr r (img h k))
  /\ (forall k f, (fst (im_view f (img h k)) < nbuf h)%nat -> view_block V h (im_view f (img h k)) <> None ->
        (fst (im_view f (img h' k)) < nbuf h')%nat /\ view_block V h' (im_view f (img h' k)) = view_block V h (im_view f (img h k))).

Lemma kept_refl h : Kept h h.
Proof. repeat split; auto. Qed.
Lemma kept_trans h1 h2 h3 : Kept h1 h2 -> Kept h2 h3 -> Kept h1 h3.
Proof.
  intros (A1 & A2 & A3 & A4 & A5 & A6 & A7) (B1 & B2 & B3 & B4 & B5 & B6 & B7).
  split; [lia|]. split; [congruence|]. split; [congruence|]. split; [intros b Hb; rewrite B4 by lia; apply A4; exact Hb|]. split; [congruence|].
  split; [intros k r; rewrite B6; apply A6|]. intros k f H1 H2. destruct (A7 k f H1 H2) as [Q1 Q2].
  assert (Q3 : view_block V h2 (im_view f (img h2 k)) <> None) by (rewrite Q2; exact H2).
  destruct (B7 k f Q1 Q3) as [Q4 Q5]. split; [exact Q4|congruence].
Qed.

Lemma kept_new h ks h' d : NoDup ks -> new_dataset V h ks = Ok (h', d) -> Kept h h'.
Proof.
  intros HN H. pose proof (new_dataset_contents V h ks h' d H) as Cn. pose proof (new_dataset_linked V h ks h' d HN H) as (_ & _ & K3 & _ & K5).
  pose proof (new_dataset_inv V h ks h' d H) as (_ & bd & be & bq & _ & _ & _ & Ed & Hb & Hn & Hh & Hnh & Hni & Him & Hids & Hv).
  assert (OB : forall b, (b < nbuf h)%nat -> buf h' b = buf h b) by (intros b Hb'; rewrite Hb, !upd_other by lia; reflexivity).
  assert (Fr : ds_frames d = ks) by (rewrite Ed; reflexivity).
  split; [lia|]. split; [exact Hnh|]. split; [exact Hni|]. split; [exact OB|]. split; [exact Hh|]. split; [exact Hids|].
  intros k f H1 H2. destruct (in_dec Nat.eq_dec k ks) as [I|I].
  - apply In_nth_error in I. destruct I as [i Hi]. assert (Hi' : nth_error (ds_frames d) i = Some k) by (rewrite Fr; exact Hi).
    rewrite (K5 i k Hi' f). split; [apply K3|]. unfold view_block at 1. cbn [fst snd]. apply Cn. exact Hi.
  - rewrite (Him k I). split; [lia|]. unfold view_block. rewrite OB by exact H1. reflexivity.
Qed.

Lemma kept_groups d : NoDup (ds_frames d) -> forall gs h h' ds, (forall g, In g gs -> NoDup g) -> take_groups V h d gs = Ok (h', ds) -> Kept h h'.
Proof.
  intro HD. induction gs as [|g t IH]; intros h h' ds HN H; cbn [take_groups] in H; [injection H as <- _; apply kept_refl|].
  destruct (getitem V h d g) as [[h1 d1]|] eqn:E; cbn [bind fst snd] in H; [|discriminate].
  destruct (take_groups V h1 d t) as [[h2 ds2]|] eqn:E2; cbn [bind fst snd] in H; [|discriminate]. injection H as <- _.
  apply (kept_trans h h1).
  - unfold getitem in E. destruct (pick_frames (ds_frames d) g) as [ks|] eqn:P; cbn [bind] in E; [|discriminate].
    eapply kept_new; [|exact E]. eapply pick_frames_nodup; [apply HN; left; reflexivity|exact HD|exact P].
  - eapply IH; [|exact E2]. intros g' Hg'. apply HN. right. exact Hg'.
Qed.

Lemma kept_split h d pri ext h' subs keys : NoDup (ds_frames d) -> split_dataset V leb h d pri ext = Ok (h', subs, keys) -> Kept h h'.
Proof. intros HD H. destruct (split_groups _ _ _ _ _ _ _ H) as (gs & HN & E). eapply kept_groups; eassumption. Qed.

Lemma kept_sound h h' o : Kept h h' -> Sound V h o -> Sound V h' o.
Proof.
  intros (A1 & A2 & A3 & A4 & A5 & A6 & A7) ((S1 & S2) & S3 & S4 & S5 & S6).
  split; [split|].
  - intros k Hk. destruct (S1 k Hk) as (Q1 & Q2 & Q3). split; [lia|]. split.
    + intro f. apply A7; [apply Q2|]. apply S6. exact Hk.
    + intro r. rewrite A6, A2. apply Q3.
  - intro f. specialize (S2 f). lia.
  - split; [exact S3|]. split; [exact S4|]. split; [intro f; rewrite A4 by apply S2; apply S5|].
    intros k f Hk. destruct (S1 k Hk) as (_ & Q2 & _). destruct (A7 k f (Q2 f) (S6 k f Hk)) as [_ Q]. unfold view_block in Q. rewrite Q. apply S6. exact Hk.
Qed.

Lemma kept_pixels h h' o : Kept h h' -> Sound V h o -> SamePixels V h o h'.
Proof.
  intros (A1 & A2 & A3 & A4 & A5 & A6 & A7) ((S1 & S2) & S3 & S4 & S5 & S6) f i l p. split.
  - unfold cube_pixel. rewrite A4 by apply S2. reflexivity.
  - unfold frame_pixel. destruct (nth_error (ds_frames o) i) as [k|] eqn:E; [|reflexivity]. apply nth_error_In in E.
    destruct (S1 k E) as (_ & Q2 & _). destruct (A7 k f (Q2 f) (S6 k f E)) as [_ Q]. unfold view_block in Q. rewrite Q. reflexivity.
Qed.

(** ** What holds of an extension *)
Lemma ext_sound T h h' o : Ext T h h' -> Sound V h o -> Sound V h' o.
Proof.
  intros (A1 & A2 & A3 & A4 & A5 & A6) ((S1 & S2) & S3 & S4 & S5 & S6). split; [split|].
  - intros k Hk. destruct (S1 k Hk) as (Q1 & Q2 & Q3). rewrite A6 by exact Q1. split; [lia|]. split; [intro f; specialize (Q2 f); lia|intro r; specialize (Q3 r); lia].
  - intro f. specialize (S2 f). lia.
  - split; [exact S3|]. split; [exact S4|]. split; [intro f; rewrite A4 by apply S2; apply S5|].
    intros k f Hk. destruct (S1 k Hk) as (Q1 & Q2 & _). rewrite A6 by exact Q1. rewrite A4 by apply Q2. apply S6. exact Hk.
Qed.
Lemma ext_pixels T h h' o : Ext T h h' -> Sound V h o -> SamePixels V h o h'.
Proof.
  intros (A1 & A2 & A3 & A4 & A5 & A6) ((S1 & S2) & S3 & S4 & S5 & S6) f i l p. split.
  - unfold cube_pixel. rewrite A4 by apply S2. reflexivity.
  - unfold frame_pixel. destruct (nth_error (ds_frames o) i) as [k|] eqn:E; [|reflexivity]. apply nth_error_In in E.
    destruct (S1 k E) as (Q1 & Q2 & _). rewrite A6 by exact Q1. rewrite A4 by apply Q2. reflexivity.
Qed.
Lemma ext_linked T h h' o : Ext T h h' -> Sound V h o -> Linked V h o -> Linked V h' o.
Proof.
  intros (A1 & A2 & A3 & A4 & A5 & A6) ((S1 & S2) & _) K. apply (linked_transport V h); [exact K| |exact A1|].
  - intro f. rewrite A4 by apply S2. reflexivity.
  - intros k Hk. apply A6. apply S1. exact Hk.
Qed.
Lemma ext_trans T h1 h2 h3 : Ext T h1 h2 -> Ext T h2 h3 -> Ext T h1 h3.
Proof.
  intros (A1 & A2 & A3 & A4 & A5 & A6) (B1 & B2 & B3 & B4 & B5 & B6). repeat split; try lia.
  - intros b Hb. rewrite B4 by lia. apply A4. exact Hb.
  - intros a Ha N1 N2. rewrite B5 by (lia || assumption). apply A5; assumption.
  - intros k Hk. rewrite B6 by lia. apply A6. exact Hk.
Qed.
Lemma ext_refl T h : Ext T h h.
Proof. repeat split; auto. Qed.

(** ** Copies *)
Definition Tof (deep : bool) (h : heap) (d : dataset) (r : hfield) (a : nat) : Prop := deep = false /\ exists k, In k (ds_frames d) /\ a = im_hdr r (img h k).

Lemma copy_shallow_hdr : forall frames h h' frames', (forall k, In k frames -> (k < nimg h)%nat) -> copy_frames V false stamps h frames = (h', frames') ->
  forall a, (forall k, In k frames -> a <> im_ext (img h k)) -> hdr h' a = hdr h a.
Proof.
  induction frames as [|k t IH]; intros h h' frames' Hk H a Ha; cbn [copy_frames] in H; [injection H as <- _; reflexivity|].
  destruct (img_copy V false stamps h k) as [h1 k1] eqn:E1. unfold img_copy in E1. cbn in E1. injection E1 as E1 Ek1. subst k1.
  destruct (copy_frames V false stamps h1 t) as [h2 t'] eqn:E. injection H as <- _.
  assert (I1 : img h1 = upd (img h) (nimg h) (img h k)) by (rewrite <- E1; reflexivity).
  assert (N1 : nimg h1 = S (nimg h)) by (rewrite <- E1; reflexivity).
  assert (X1 : hdr h1 a = hdr h a) by (rewrite <- E1; cbn; apply upd_other; apply Ha; left; reflexivity).
  rewrite (IH h1 h2 t'); [exact X1| |exact E|].
  - intros k' Hk'. rewrite N1. specialize (Hk k' (or_intror Hk')). lia.
  - intros k' Hk'. rewrite I1. specialize (Hk k' (or_intror Hk')). rewrite upd_other by lia. apply Ha. right. exact Hk'.
Qed.

Lemma inv_start T h h1 (frames : list nat) h' d' :
  Ext T h h1 -> frames = seq (nimg h) (List.length frames) -> (nimg h + List.length frames <= nimg h1)%nat -> Allocated V h1 frames ->
  (forall k r, In k frames -> (nhdr h <= im_hdr r (img h1 k))%nat \/ T r (im_hdr r (img h1 k))) ->
  new_dataset V h1 frames = Ok (h', d') -> Inv T h (fun _ => True) h' d'.
Proof.
  intros E Hf Hn A Hr H.
  assert (HN : NoDup frames) by (rewrite Hf; apply seq_NoDup).
  pose proof (new_dataset_linked V h1 frames h' d' HN H) as (K1 & K2 & K3 & K4 & K5).
  pose proof (new_dataset_wf V h1 frames h' d' A HN H) as W.
  pose proof (new_dataset_inv V h1 frames h' d' H) as (_ & bd & be & bq & _ & _ & _ & Ed & Hb & Hnb & Hh & Hnh & Hni & Him & Hids & _).
  pose proof E as (A1 & A2 & A3 & A4 & A5 & A6).
  assert (Fr : ds_frames d' = frames) by (rewrite Ed; reflexivity).
  assert (NC : forall f, (nbuf h <= cube f d')%nat) by (rewrite Ed; intros []; cbn; lia).
  split; [|split; [|split]].
  - repeat split; try lia.
    + intros b Hb'. rewrite Hb, !upd_other by lia. apply A4. exact Hb'.
    + intros a Ha N1 N2. rewrite Hh. apply A5; assumption.
    + intros k Hk. rewrite Him; [apply A6; exact Hk|]. rewrite Hf, in_seq. lia.
  - split; [|split; [exact NC|split]].
    + intros k Hk. rewrite Fr, Hf, in_seq in Hk. lia.
    + intros k f Hk. apply In_nth_error in Hk. destruct Hk as [i Hi]. rewrite (K5 i k Hi f). apply NC.
    + intros k r Hk. rewrite Fr in Hk. rewrite Hids. apply Hr. exact Hk.
  - split; [exact W|]. split; [exact K1|]. split; [exact K4|]. split; [exact K2|].
    intros k f Hk. apply In_nth_error in Hk. destruct Hk as [i Hi]. rewrite (K5 i k Hi f). cbn [fst snd]. apply nth_error_Some. rewrite K2. apply nth_error_Some. congruence.
  - intros i k f Hi _. apply K5. exact Hi.
Qed.

Lemma copied_inv deep h d h' d' : Sound V h d -> ds_copy V deep stamps h d = Ok (h', d') -> Inv (Tof deep h d) h (fun _ => True) h' d'.
Proof.
  intros ((S1 & S2) & S3 & S4 & S5 & S6) H. unfold ds_copy in H. destruct (copy_frames V deep stamps h (ds_frames d)) as [h1 fs] eqn:E.
  destruct deep.
  - destruct (copy_frames_deep V stamps (ds_frames d) h h1 fs S1 (fun k Hk f => S6 k f Hk) E) as (X & Ef & En & C).
    assert (Lf : List.length fs = List.length (ds_frames d)) by (rewrite Ef; apply seq_length).
    pose proof X as (X1 & X2 & X3 & X4 & X5 & X6).
    assert (CO : forall k', In k' fs -> exists k, CopyOf V stamps h k h1 k').
    { intros k' Hk'. apply In_nth_error in Hk'. destruct Hk' as [i Hi]. destruct (nth_error (ds_frames d) i) as [k|] eqn:Ei.
      - exists k. eapply C; eassumption.
      - apply nth_error_None in Ei. assert (i < List.length fs)%nat by (apply nth_error_Some; congruence). lia. }
    eapply inv_start; [| | | | |exact H].
    + repeat split; auto.
    + rewrite Lf. exact Ef.
    + lia.
    + intros k' Hk'. destruct (CO k' Hk') as (k & C1 & C2 & _). rewrite Ef, in_seq in Hk'. split; [lia|]. split; [intro f; apply C1|intro r; apply C2].
    + intros k' r Hk'. destruct (CO k' Hk') as (k & _ & C2 & _). left. apply C2.
  - pose proof (copy_shallow_hdr (ds_frames d) h h1 fs (fun k Hk => proj1 (S1 k Hk)) E) as HH.
    destruct (copy_frames_shallow V stamps (ds_frames d) h h1 fs (fun k Hk => proj1 (S1 k Hk)) E) as (Ef & B1 & NB1 & NH1 & NI1 & I1 & I2).
    assert (Lf : List.length fs = List.length (ds_frames d)) by (rewrite Ef; apply seq_length).
    assert (CO : forall k', In k' fs -> exists k, In k (ds_frames d) /\ img h1 k' = img h k).
    { intros k' Hk'. rewrite Ef, in_seq in Hk'. destruct (nth_error (ds_frames d) (k' - nimg h)) as [k|] eqn:Ei.
      - exists k. split; [eapply nth_error_In; exact Ei|]. rewrite <- (I2 _ _ Ei). f_equal. lia.
      - apply nth_error_None in Ei. lia. }
    eapply inv_start; [| | | | |exact H].
    + repeat split; try lia.
      * intros b _. rewrite B1. reflexivity.
      * intros a Ha N1 _. apply HH. intros k Hk Ea. apply N1. split; [reflexivity|]. exists k. auto.
      * exact I1.
    + rewrite Lf. exact Ef.
    + lia.
    + intros k' Hk'. destruct (CO k' Hk') as (k & Hk & Ei). rewrite Ei. destruct (S1 k Hk) as (Q1 & Q2 & Q3). rewrite Ef, in_seq in Hk'.
      split; [lia|]. rewrite NB1, NH1. auto.
    + intros k' r Hk'. destruct (CO k' Hk') as (k & Hk & Ei). right. split; [reflexivity|]. exists k. rewrite Ei. auto.
Qed.
End P.
