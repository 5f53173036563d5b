From Coq Require Import List Arith Bool String Sorted Lia Permutation.
From Verif Require Import Base BaseProofs DatasetModel DatasetSpec DatasetProofs DatasetCopyProofs DatasetSliceProofs SplitModel SplitSpec.
Import ListNotations.
Local Open Scope list_scope.

Lemma keyeqb_eq a b : keyeqb a b = true <-> a = b.
Proof. unfold keyeqb. destruct (list_eq_dec string_dec a b); split; congruence. Qed.

Section Order.
Variable leb : string -> string -> bool.
Hypothesis TO : total_order leb.

Lemma lexleb_lt : forall a b, List.length a = List.length b -> a <> b -> lexleb leb a b = true -> key_lt leb a b.
Proof.
  induction a as [|x a IH]; intros [|y b] Hl Hn H; cbn in *; try discriminate; try congruence.
  destruct (String.eqb_spec x y) as [->|N].
  - destruct (IH b) as (p & u & v & s & t & -> & -> & Q1 & Q2); [lia|congruence|exact H|].
    exists (y :: p), u, v, s, t. auto.
  - exists [], x, y, a, b. auto.
Qed.

Lemma lexleb_total : forall a b, List.length a = List.length b -> lexleb leb a b = true \/ lexleb leb b a = true.
Proof.
  induction a as [|x a IH]; intros [|y b] Hl; cbn in *; try discriminate; auto.
  destruct (String.eqb_spec x y) as [->|N].
  - rewrite String.eqb_refl. apply IH. lia.
  - destruct (String.eqb_spec y x); [congruence|]. apply TO.
Qed.

Lemma key_lt_cons x a y b : key_lt leb (x :: a) (y :: b) <-> (x <> y /\ leb x y = true) \/ (x = y /\ key_lt leb a b).
Proof.
  split.
  - intros (p & u & v & s & t & E1 & E2 & N & H). destruct p as [|z p]; cbn in E1, E2.
    + injection E1 as -> ->. injection E2 as -> ->. left. auto.
    + injection E1 as -> ->. injection E2 as -> ->. right. split; [reflexivity|]. exists p, u, v, s, t. auto.
  - intros [[N H]|[-> (p & u & v & s & t & -> & -> & N & H)]].
    + exists [], x, y, a, b. auto.
    + exists (y :: p), u, v, s, t. auto.
Qed.

Lemma key_lt_nil_l b : ~ key_lt leb [] b.
Proof. intros ([|z p] & u & v & s & t & E1 & _); discriminate. Qed.
Lemma key_lt_nil_r a : ~ key_lt leb a [].
Proof. intros ([|z p] & u & v & s & t & _ & E1 & _); discriminate. Qed.

Lemma key_lt_trans : forall a b c, key_lt leb a b -> key_lt leb b c -> key_lt leb a c.
Proof.
  destruct TO as (T1 & T2 & T3).
  induction a as [|x a IH]; intros [|y b] [|z c] H1 H2; try (exfalso; eapply key_lt_nil_l; eassumption); try (exfalso; eapply key_lt_nil_r; eassumption).
  apply key_lt_cons in H1. apply key_lt_cons in H2. apply key_lt_cons.
  destruct H1 as [[N1 H1]|[-> H1]], H2 as [[N2 H2]|[-> H2]].
  - left. split; [intros ->; apply N1; apply T2; assumption|eapply T3; eassumption].
  - left. auto.
  - left. auto.
  - right. split; [reflexivity|]. eapply IH; eassumption.
Qed.

Lemma key_lt_irrefl a b : key_lt leb a b -> a <> b.
Proof. intros (p & x & y & s & t & -> & -> & N & _) E. apply app_inv_head in E. congruence. Qed.

Lemma insert_key_in k l x : In x (insert_key leb k l) <-> x = k \/ In x l.
Proof.
  induction l as [|k' t IH]; cbn [insert_key]; [cbn; intuition congruence|].
  destruct (keyeqb k k') eqn:E.
  - apply keyeqb_eq in E. subst k'. cbn. intuition congruence.
  - destruct (lexleb leb k k'); cbn [In]; [intuition congruence|]. rewrite IH. intuition congruence.
Qed.

Lemma insert_key_sorted n k l : List.length k = n -> (forall x, In x l -> List.length x = n) ->
  StronglySorted (key_lt leb) l -> StronglySorted (key_lt leb) (insert_key leb k l).
Proof.
  intros Hk Hl S. induction S as [|k' t S IH F]; cbn [insert_key]; [repeat constructor|].
  assert (Hl' : List.length k' = n) by (apply Hl; left; reflexivity).
  destruct (keyeqb k k') eqn:E; [constructor; assumption|].
  assert (N : k <> k') by (intro Q; apply keyeqb_eq in Q; congruence).
  destruct (lexleb leb k k') eqn:E2.
  - assert (LT : key_lt leb k k') by (apply lexleb_lt; [congruence|exact N|exact E2]).
    constructor; [constructor; assumption|]. constructor; [exact LT|].
    rewrite Forall_forall in *. intros x Hx. apply (key_lt_trans k k' x); [exact LT|apply F; exact Hx].
  - constructor; [apply IH; intros x Hx; apply Hl; right; exact Hx|].
    rewrite Forall_forall in *. intros x Hx. apply insert_key_in in Hx. destruct Hx as [->|Hx]; [|apply F; exact Hx].
    apply lexleb_lt; [congruence|congruence|]. destruct (lexleb_total k k'); [congruence|congruence|assumption].
Qed.

Lemma group_keys_in rows x : In x (group_keys leb rows) <-> In x rows.
Proof.
  induction rows as [|r t IH]; [reflexivity|].
  change (group_keys leb (r :: t)) with (insert_key leb r (group_keys leb t)). rewrite insert_key_in, IH. cbn. intuition congruence.
Qed.

Lemma group_keys_sorted n rows : (forall x, In x rows -> List.length x = n) ->
  StronglySorted (key_lt leb) (group_keys leb rows).
Proof.
  induction rows as [|r t IH]; intro H; [constructor|]. change (group_keys leb (r :: t)) with (insert_key leb r (group_keys leb t)).
  apply (insert_key_sorted n).
  - apply H. left. reflexivity.
  - intros x Hx. apply (proj1 (group_keys_in _ _)) in Hx. apply H. right. exact Hx.
  - apply IH. intros x Hx. apply H. right. exact Hx.
Qed.

Lemma sorted_nodup l : StronglySorted (key_lt leb) l -> NoDup l.
Proof.
  induction 1 as [|k t S IH F]; constructor; [|assumption].
  intro Q. rewrite Forall_forall in F. apply (key_lt_irrefl k k); [apply F; exact Q|reflexivity].
Qed.
End Order.

Lemma positions_in k : forall rows i j, In j (positions k i rows) <-> (i <= j)%nat /\ nth_error rows (j - i) = Some k.
Proof.
  induction rows as [|r t IH]; intros i j; cbn [positions].
  - split; [intros []|]. intros [_ H]. destruct (j - i); discriminate.
  - assert (C : In j (positions k (S i) t) <-> (S i <= j)%nat /\ nth_error (r :: t) (j - i) = Some k).
    { rewrite IH. split; intros [A B]; (split; [exact A|]).
      - replace (j - i) with (S (j - S i)) by lia. exact B.
      - replace (j - i) with (S (j - S i)) in B by lia. exact B. }
    destruct (keyeqb r k) eqn:E.
    + apply keyeqb_eq in E. subst r. cbn [In]. rewrite C. split.
      * intros [<-|[A B]]; [split; [lia|rewrite Nat.sub_diag; reflexivity]|split; [lia|exact B]].
      * intros [A B]. destruct (Nat.eq_dec i j); [auto|right]. split; [lia|exact B].
    + rewrite C. split; intros [A B]; (split; [lia|exact B] || idtac).
      split; [|exact B]. destruct (Nat.eq_dec i j) as [->|]; [|lia]. rewrite Nat.sub_diag in B. cbn in B.
      injection B as ->. assert (keyeqb k k = true) by (apply keyeqb_eq; reflexivity). congruence.
Qed.

Lemma positions_sorted k : forall rows i, StronglySorted lt (positions k i rows).
Proof.
  induction rows as [|r t IH]; intro i; cbn [positions]; [constructor|].
  destruct (keyeqb r k); [|apply IH]. constructor; [apply IH|].
  rewrite Forall_forall. intros x Hx. apply positions_in in Hx. lia.
Qed.

Lemma sorted_lt_nodup l : StronglySorted lt l -> NoDup l.
Proof.
  induction 1 as [|k t S IH F]; constructor; [|assumption].
  intro Q. rewrite Forall_forall in F. specialize (F k Q). lia.
Qed.

Section P.
Variable V : Type.
Variable leb : string -> string -> bool.
Notation heap := (heap V).
Notation hdr := (hdr V). Notation img := (img V).

Lemma key_values_ok hd : forall keys vs, key_values hd keys = Ok vs ->
  List.length vs = List.length keys /\ forall j key, nth_error keys j = Some key -> hget key hd = nth_error vs j.
Proof.
  induction keys as [|k t IH]; intros vs H; cbn [key_values] in H.
  - injection H as <-. split; [reflexivity|]. intros [|j] key Hj; discriminate.
  - destruct (hget k hd) as [v|] eqn:E; [|discriminate].
    destruct (key_values hd t) as [vs'|] eqn:E2; cbn [bind] in H; [|discriminate]. injection H as <-.
    destruct (IH vs' eq_refl) as [A B]. split; [cbn; congruence|]. intros [|j] key Hj; cbn in Hj |- *.
    + congruence.
    + apply B. exact Hj.
Qed.

Lemma key_values_raise hd : forall keys e, key_values hd keys = Raise e ->
  e = KeyError /\ exists j key, nth_error keys j = Some key /\ hget key hd = None.
Proof.
  induction keys as [|k t IH]; intros e H; cbn [key_values] in H; [discriminate|].
  destruct (hget k hd) as [v|] eqn:E.
  - destruct (key_values hd t) as [vs'|e'] eqn:E2; cbn [bind] in H; [discriminate|]. injection H as <-.
    destruct (IH e' eq_refl) as (A & j & key & B & C). split; [exact A|]. exists (S j), key. auto.
  - injection H as <-. split; [reflexivity|]. exists 0, k. auto.
Qed.

Lemma row_of_ok (h : heap) pri ext k r : row_of V h pri ext k = Ok r -> has_key V h pri ext k r.
Proof.
  unfold row_of. destruct (key_values (hdr h (im_pri (img h k))) pri) as [a|] eqn:E1; cbn [bind]; [|discriminate].
  destruct (key_values (hdr h (im_ext (img h k))) ext) as [b|] eqn:E2; cbn [bind]; [|discriminate].
  intro H. injection H as <-. apply key_values_ok in E1. apply key_values_ok in E2.
  destruct E1 as [A1 A2], E2 as [B1 B2]. split; [rewrite app_length; congruence|].
  intros j Hj. unfold keyword_value. destruct (nth_error pri j) as [key|] eqn:Ep.
  - assert (j < List.length pri)%nat by (apply nth_error_Some; congruence).
    rewrite nth_error_app1 by lia. apply A2. exact Ep.
  - apply nth_error_None in Ep. rewrite nth_error_app2 by lia. rewrite A1.
    destruct (nth_error ext (j - List.length pri)) as [key|] eqn:Ee.
    + apply B2. exact Ee.
    + apply nth_error_None in Ee. lia.
Qed.

Lemma row_of_raise (h : heap) pri ext k e : row_of V h pri ext k = Raise e -> e = KeyError /\ ~ has_keywords V h pri ext k.
Proof.
  unfold row_of. destruct (key_values (hdr h (im_pri (img h k))) pri) as [a|e1] eqn:E1; cbn [bind].
  - destruct (key_values (hdr h (im_ext (img h k))) ext) as [b|e2] eqn:E2; cbn [bind]; [discriminate|].
    intro H. injection H as <-. apply key_values_raise in E2. destruct E2 as (A & j & key & B & C). split; [exact A|].
    intro K. assert (j < List.length ext)%nat by (apply nth_error_Some; congruence).
    apply (K (List.length pri + j)%nat); [lia|]. unfold keyword_value.
    assert (nth_error pri (List.length pri + j) = None) as -> by (apply nth_error_None; lia).
    replace (List.length pri + j - List.length pri)%nat with j by lia. rewrite B. exact C.
  - intro H. injection H as <-. apply key_values_raise in E1. destruct E1 as (A & j & key & B & C). split; [exact A|].
    intro K. assert (j < List.length pri)%nat by (apply nth_error_Some; congruence).
    apply (K j); [lia|]. unfold keyword_value. rewrite B. exact C.
Qed.

Lemma rows_of_ok (h : heap) pri ext : forall frames rows, rows_of V h pri ext frames = Ok rows ->
  List.length rows = List.length frames /\
  forall i k, nth_error frames i = Some k -> exists r, nth_error rows i = Some r /\ has_key V h pri ext k r.
Proof.
  induction frames as [|k t IH]; intros rows H; cbn [rows_of] in H.
  - injection H as <-. split; [reflexivity|]. intros [|i] k Hi; discriminate.
  - destruct (row_of V h pri ext k) as [r|] eqn:E; cbn [bind] in H; [|discriminate].
    destruct (rows_of V h pri ext t) as [rs|] eqn:E2; cbn [bind] in H; [|discriminate]. injection H as <-.
    destruct (IH rs eq_refl) as [A B]. split; [cbn; congruence|]. intros [|i] k' Hi; cbn in Hi |- *.
    + injection Hi as <-. exists r. split; [reflexivity|]. apply row_of_ok. exact E.
    + apply B. exact Hi.
Qed.

Lemma rows_of_raise (h : heap) pri ext : forall frames e, rows_of V h pri ext frames = Raise e ->
  e = KeyError /\ exists k, In k frames /\ ~ has_keywords V h pri ext k.
Proof.
  induction frames as [|k t IH]; intros e H; cbn [rows_of] in H; [discriminate|].
  destruct (row_of V h pri ext k) as [r|e1] eqn:E; cbn [bind] in H.
  - destruct (rows_of V h pri ext t) as [rs|e2] eqn:E2; cbn [bind] in H; [discriminate|]. injection H as <-.
    destruct (IH e2 eq_refl) as (A & k' & B & C). split; [exact A|]. exists k'. split; [right; exact B|exact C].
  - injection H as <-. apply row_of_raise in E. destruct E as [A B]. split; [exact A|]. exists k. split; [left; reflexivity|exact B].
Qed.

Lemma has_key_unique (h : heap) pri ext k a b : has_key V h pri ext k a -> has_key V h pri ext k b -> a = b.
Proof.
  intros [L1 A] [L2 B]. apply nth_error_ext'. intro j.
  destruct (lt_dec j (List.length pri + List.length ext)) as [Hj|Hj].
  - rewrite <- A, <- B by exact Hj. reflexivity.
  - assert (nth_error a j = None) as -> by (apply nth_error_None; lia).
    assert (nth_error b j = None) as -> by (apply nth_error_None; lia). reflexivity.
Qed.

Lemma agree_iff (h : heap) pri ext k k' a b : has_key V h pri ext k a -> has_key V h pri ext k' b ->
  (agree V h pri ext k k' <-> a = b).
Proof.
  intros HA HB. split.
  - intro G. apply (has_key_unique h pri ext k a b HA). destruct HB as [L B]. split; [exact L|].
    intros j Hj. rewrite (G j Hj). apply B. exact Hj.
  - intros -> j Hj. destruct HA as [_ A], HB as [_ B]. rewrite A, B by exact Hj. reflexivity.
Qed.

(** What happened to the heap while slicing: later slices of other frames do
    not disturb an earlier slice. *)
Lemma getitem_keeps (h : heap) d idx h' s o :
  getitem V h d idx = Ok (h', s) -> Linked V h o ->
  (forall k, In k (ds_frames s) -> ~ In k (ds_frames o)) ->
  Linked V h' o /\ (forall f i l p, cube_pixel V h' o f i l p = cube_pixel V h o f i l p).
Proof.
  intros H L Dis. unfold getitem in H. destruct (pick_frames (ds_frames d) idx) as [ks|]; cbn [bind] in H; [|discriminate].
  apply new_dataset_inv in H.
  destruct H as (_ & bd & be & bq & G1 & G2 & G3 & Ed & Hb & Hnb & Hh & Hnh & Hni & Him & Hids & Hv).
  assert (Bo : forall f, buf V h' (cube f o) = buf V h (cube f o)).
  { intro f. pose proof L as (_ & _ & N3 & _). specialize (N3 f). rewrite Hb, !upd_other by lia. reflexivity. }
  split.
  - apply (linked_transport V h h' o L).
    + intro f. rewrite Bo. reflexivity.
    + lia.
    + intros k Hk. apply Him. intro Q. apply (Dis k); [rewrite Ed; exact Q|exact Hk].
  - intros f i l p. unfold cube_pixel. rewrite Bo. reflexivity.
Qed.

(** Slicing only needs the parent's frames to have valid views (the parent may
    be partly disconnected already). *)
Definition Sliceable (h : heap) (d : dataset) : Prop :=
  NoDup (ds_frames d) /\
  forall k, In k (ds_frames d) -> forall f, view_block V h (im_view f (img h k)) <> None /\ (fst (im_view f (img h k)) < nbuf V h)%nat.

Lemma linked_sliceable (h : heap) d : Linked V h d -> Sliceable h d.
Proof.
  intros (N & Hl & Hb & _ & Hv). split; [exact N|]. intros k Hk f. apply In_nth_error in Hk. destruct Hk as [i Hi].
  rewrite (Hv i k Hi f). unfold view_block. cbn. split; [|apply Hb].
  apply nth_error_Some. rewrite Hl. apply nth_error_Some. congruence.
Qed.

(** The block of a frame. *)
Definition fblock (h : heap) (f : field) (k : nat) : option (block V) := view_block V h (im_view f (img h k)).

Lemma getitem_step (h : heap) d idx h' s :
  Sliceable h d -> NoDup idx -> getitem V h d idx = Ok (h', s) ->
  Linked V h' s /\ Sliceable h' d
  /\ (forall j i, nth_error idx j = Some i -> nth_error (ds_frames s) j = nth_error (ds_frames d) i)
  /\ List.length (ds_frames s) = List.length idx
  /\ (forall f k, In k (ds_frames d) -> fblock h' f k = fblock h f k)
  /\ hdr h' = hdr h /\ (forall k f, im_hdr f (img h' k) = im_hdr f (img h k))
  /\ (nbuf V h <= nbuf V h')%nat /\ (forall b, (b < nbuf V h)%nat -> buf V h' b = buf V h b).
Proof.
  intros [N SV] Ni H. unfold getitem in H.
  destruct (pick_frames (ds_frames d) idx) as [ks|] eqn:E; cbn [bind] in H; [|discriminate].
  pose proof (pick_frames_nodup idx (ds_frames d) ks Ni N E) as Nk.
  destruct (pick_frames_ok idx (ds_frames d) ks E) as [P1 P2].
  pose proof (new_dataset_linked V h ks h' s Nk H) as L'.
  pose proof (new_dataset_contents V h ks h' s H) as Cont.
  apply new_dataset_inv in H.
  destruct H as (_ & bd & be & bq & G1 & G2 & G3 & Ed & Hb & Hnb & Hh & Hnh & Hni & Him & Hids & Hv).
  assert (Bo : forall b, (b < nbuf V h)%nat -> buf V h' b = buf V h b).
  { intros b Hbb. rewrite Hb, !upd_other by lia. reflexivity. }
  assert (FB : forall f k, In k (ds_frames d) -> fblock h' f k = fblock h f k).
  { intros f k Hk. unfold fblock. destruct (in_dec Nat.eq_dec k ks) as [Hin|Hout].
    - apply In_nth_error in Hin. destruct Hin as [j Hj]. rewrite <- (Cont f j k Hj).
      destruct L' as (_ & _ & _ & _ & Lv). rewrite Ed in Lv. cbn [ds_frames] in Lv.
      rewrite (Lv j k Hj f). rewrite <- Ed. reflexivity.
    - rewrite Him by exact Hout. unfold view_block. rewrite Bo; [reflexivity|apply SV; exact Hk]. }
  split; [exact L'|]. split; [|split; [|split; [|split; [|split; [|split; [|split]]]]]].
  - split; [exact N|]. intros k Hk f. split.
    + fold (fblock h' f k). rewrite FB by exact Hk. apply SV. exact Hk.
    + destruct (in_dec Nat.eq_dec k ks) as [Hin|Hout].
      * apply In_nth_error in Hin. destruct Hin as [j Hj]. destruct L' as (_ & _ & Lb & _ & Lv). rewrite Ed in Lv. cbn [ds_frames] in Lv.
        rewrite (Lv j k Hj f). rewrite <- Ed. apply Lb.
      * rewrite Him by exact Hout. specialize (SV k Hk f). lia.
  - intros j i Hj. rewrite Ed. cbn [ds_frames]. destruct (P2 j i Hj) as (k & A & B). congruence.
  - rewrite Ed. exact P1.
  - exact FB.
  - exact Hh.
  - exact Hids.
  - lia.
  - exact Bo.
Qed.

Lemma take_groups_spec d : forall gs (h : heap) h' subs,
  Sliceable h d -> Forall (@NoDup nat) gs ->
  (forall a b ga gb i, nth_error gs a = Some ga -> nth_error gs b = Some gb -> In i ga -> In i gb -> a = b) ->
  take_groups V h d gs = Ok (h', subs) ->
  List.length subs = List.length gs
  /\ (forall j s g, nth_error subs j = Some s -> nth_error gs j = Some g ->
        Linked V h' s
        /\ List.length (ds_frames s) = List.length g
        /\ (forall a i, nth_error g a = Some i -> nth_error (ds_frames s) a = nth_error (ds_frames d) i)
        /\ (forall a k, nth_error (ds_frames s) a = Some k -> forall f, nth_error (buf V h' (cube f s)) a = fblock h f k))
  /\ hdr h' = hdr h /\ (forall k f, im_hdr f (img h' k) = im_hdr f (img h k))
  /\ (nbuf V h <= nbuf V h')%nat /\ (forall b, (b < nbuf V h)%nat -> buf V h' b = buf V h b)
  /\ (forall o, Linked V h o -> (forall k, In k (ds_frames o) -> forall g, In g gs -> forall i, In i g -> nth_error (ds_frames d) i <> Some k) ->
        Linked V h' o).
Proof.
  induction gs as [|g t IH]; intros h h' subs SL ND Dis H; cbn [take_groups] in H.
  - injection H as <- <-. split; [reflexivity|]. split; [intros [|j] s g Hj; discriminate|].
    split; [reflexivity|]. split; [reflexivity|]. split; [lia|]. split; [reflexivity|auto].
  - destruct (getitem V h d g) as [[h1 s1]|] eqn:E; cbn [bind fst snd] in H; [|discriminate].
    destruct (take_groups V h1 d t) as [[h2 ss]|] eqn:E2; cbn [bind fst snd] in H; [|discriminate]. injection H as <- <-.
    inversion ND as [|g0 t0 Ng Nt]; subst g0 t0.
    destruct (getitem_step h d g h1 s1 SL Ng E) as (L1 & SL1 & F1 & Len1 & B1 & Hh1 & I1 & Nb1 & Bf1).
    assert (Dis' : forall a b ga gb i, nth_error t a = Some ga -> nth_error t b = Some gb -> In i ga -> In i gb -> a = b).
    { intros a b ga gb i Ha Hb Hia Hib. assert (S a = S b) by (eapply (Dis (S a) (S b)); eassumption). lia. }
    destruct (IH h1 h2 ss SL1 Nt Dis' E2) as (A1 & A2 & A3 & A4 & A5 & A6 & A7).
    assert (Fin : forall k, In k (ds_frames s1) -> exists a i, nth_error g a = Some i /\ nth_error (ds_frames d) i = Some k).
    { intros k Hk. apply In_nth_error in Hk. destruct Hk as [a Ha].
      destruct (nth_error g a) as [i|] eqn:Eg.
      - exists a, i. split; [exact Eg|]. rewrite <- (F1 a i Eg). exact Ha.
      - apply nth_error_None in Eg. assert (a < List.length (ds_frames s1))%nat by (apply nth_error_Some; congruence). lia. }
    split; [cbn; congruence|]. split; [|split; [congruence|split; [|split; [lia|split]]]].
    + intros [|j] s g0 Hs Hg; cbn in Hs, Hg.
      * injection Hs as <-. injection Hg as <-. split; [|split; [exact Len1|split; [exact F1|]]].
        -- apply A7; [exact L1|]. intros k Hk g' Hg' i Hi Q. destruct (Fin k Hk) as (a & i' & Ga & Gi).
           assert (i = i').
           { destruct SL as [N _]. apply (proj1 (NoDup_nth_error (ds_frames d)) N); [apply nth_error_Some; congruence|congruence]. }
           subst i'. apply In_nth_error in Hg'. destruct Hg' as [b Hb].
           assert (0 = S b) as Q2; [|discriminate Q2].
           eapply (Dis 0 (S b) g g' i); [reflexivity|exact Hb|eapply nth_error_In; exact Ga|exact Hi].
        -- intros a k Hk f. destruct L1 as (_ & _ & Lb & _ & Lv). rewrite A6 by apply Lb.
           destruct (Fin k) as (a' & i & Ga & Gi); [eapply nth_error_In; exact Hk|].
           rewrite <- (B1 f k) by (eapply nth_error_In; exact Gi). unfold fblock. rewrite (Lv a k Hk f). reflexivity.
      * destruct (A2 j s g0 Hs Hg) as (C1 & C2 & C3 & C4). split; [exact C1|]. split; [exact C2|]. split; [exact C3|].
        intros a k Hk f. rewrite (C4 a k Hk f). apply B1.
        destruct (nth_error g0 a) as [i|] eqn:Eg.
        -- eapply nth_error_In. rewrite <- (C3 a i Eg). exact Hk.
        -- apply nth_error_None in Eg. assert (a < List.length (ds_frames s))%nat by (apply nth_error_Some; congruence). lia.
    + intros k f. rewrite A4. apply I1.
    + intros b Hb. rewrite A6 by lia. apply Bf1. exact Hb.
    + intros o Lo Ho. apply A7.
      * eapply (getitem_keeps h d g h1 s1 o E Lo). intros k Hk Hk'. destruct (Fin k Hk) as (a & i & Ga & Gi).
        apply (Ho k Hk' g (or_introl eq_refl) i); [eapply nth_error_In; exact Ga|exact Gi].
      * intros k Hk g' Hg' i Hi. apply (Ho k Hk g' (or_intror Hg') i Hi).
Qed.

(** ** The main lemma *)
Lemma split_dataset_spec (h : heap) d pri ext h' subs keys :
  total_order leb -> Linked V h d ->
  split_dataset V leb h d pri ext = Ok (h', subs, keys) ->
  let p := match pri with Some l => l | None => [] end in
  let e := match ext with Some l => l | None => [] end in
  List.length subs = List.length keys
  /\ StronglySorted (key_lt leb) keys /\ NoDup keys
  /\ (forall key, In key keys <-> exists k, In k (ds_frames d) /\ has_key V h p e k key)
  /\ (forall j s key, nth_error subs j = Some s -> nth_error keys j = Some key ->
        Linked V h' s
        /\ ds_frames s <> []
        /\ (forall k, In k (ds_frames s) <-> In k (ds_frames d) /\ has_key V h p e k key)
        /\ (exists idx, StronglySorted lt idx /\ List.length idx = List.length (ds_frames s)
              /\ forall a i, nth_error idx a = Some i -> nth_error (ds_frames s) a = nth_error (ds_frames d) i
                   /\ forall f l px, cube_pixel V h' s f a l px = cube_pixel V h d f i l px))
  /\ (forall f i l px, cube_pixel V h' d f i l px = cube_pixel V h d f i l px)
  /\ hdr h' = hdr h.
Proof.
  intros TO L H p e. unfold split_dataset in H.
  assert (H' : (do rows <- rows_of V h p e (ds_frames d);
    match p ++ e with
    | [] => Raise ValueError
    | _ :: _ =>
      let ks := group_keys leb rows in
      do r <- take_groups V h d (map (fun k => positions k 0 rows) ks);
      Ok (fst r, snd r, ks)
    end) = Ok (h', subs, keys)) by (destruct pri, ext; try discriminate; exact H).
  clear H. destruct (rows_of V h p e (ds_frames d)) as [rows|] eqn:ER; cbn [bind] in H'; [|discriminate].
  destruct (p ++ e) as [|pe0 pe] eqn:Epe; [discriminate|]. cbv zeta in H'.
  destruct (take_groups V h d (map (fun k => positions k 0 rows) (group_keys leb rows))) as [[h1 ss]|] eqn:ET; cbn [bind fst snd] in H'; [|discriminate].
  injection H' as <- <- <-.
  destruct (rows_of_ok h p e (ds_frames d) rows ER) as [RL RK].
  assert (Rlen : forall x, In x rows -> List.length x = (List.length p + List.length e)%nat).
  { intros x Hx. apply In_nth_error in Hx. destruct Hx as [i Hi].
    destruct (nth_error (ds_frames d) i) as [k|] eqn:Ek.
    - destruct (RK i k Ek) as (r & Hr & HK). rewrite Hi in Hr. injection Hr as <-. apply HK.
    - apply nth_error_None in Ek. assert (i < List.length rows)%nat by (apply nth_error_Some; congruence). lia. }
  pose proof (group_keys_sorted leb TO _ rows Rlen) as Sk.
  pose proof (sorted_nodup leb _ Sk) as Nk.
  assert (ND : Forall (@NoDup nat) (map (fun k => positions k 0 rows) (group_keys leb rows))).
  { rewrite Forall_forall. intros g Hg. apply in_map_iff in Hg. destruct Hg as (key & <- & _).
    apply sorted_lt_nodup. apply positions_sorted. }
  assert (DJ : forall a b ga gb i, nth_error (map (fun k => positions k 0 rows) (group_keys leb rows)) a = Some ga ->
     nth_error (map (fun k => positions k 0 rows) (group_keys leb rows)) b = Some gb -> In i ga -> In i gb -> a = b).
  { intros a b ga gb i Ha Hb Hia Hib. rewrite nth_error_map in Ha, Hb.
    destruct (nth_error (group_keys leb rows) a) as [ka|] eqn:Ea; [|discriminate].
    destruct (nth_error (group_keys leb rows) b) as [kb|] eqn:Eb; [|discriminate].
    injection Ha as <-. injection Hb as <-. apply positions_in in Hia. apply positions_in in Hib.
    assert (ka = kb) by (destruct Hia, Hib; congruence). subst kb.
    apply (proj1 (NoDup_nth_error _) Nk); [apply nth_error_Some; congruence|congruence]. }
  destruct (take_groups_spec d _ h h1 ss (linked_sliceable h d L) ND DJ ET) as (A1 & A2 & A3 & A4 & A5 & A6 & A7).
  rewrite map_length in A1.
  split; [exact A1|]. split; [exact Sk|]. split; [exact Nk|]. split; [|split; [|split; [|exact A3]]].
  - intro key. rewrite group_keys_in. split.
    + intro Hx. apply In_nth_error in Hx. destruct Hx as [i Hi].
      destruct (nth_error (ds_frames d) i) as [k|] eqn:Ek.
      * destruct (RK i k Ek) as (r & Hr & HK). rewrite Hi in Hr. injection Hr as <-. exists k. split; [eapply nth_error_In; exact Ek|exact HK].
      * apply nth_error_None in Ek. assert (i < List.length rows)%nat by (apply nth_error_Some; congruence). lia.
    + intros (k & Hk & HK). apply In_nth_error in Hk. destruct Hk as [i Hi]. destruct (RK i k Hi) as (r & Hr & HK').
      rewrite (has_key_unique h p e k key r HK HK'). eapply nth_error_In. exact Hr.
  - intros j s key Hs Hkey.
    assert (Hg : nth_error (map (fun k => positions k 0 rows) (group_keys leb rows)) j = Some (positions key 0 rows))
      by (rewrite nth_error_map, Hkey; reflexivity).
    destruct (A2 j s _ Hs Hg) as (C1 & C2 & C3 & C4). split; [exact C1|].
    assert (Kin : forall k, In k (ds_frames s) <-> In k (ds_frames d) /\ has_key V h p e k key).
    { intro k. split.
      - intro Hk. apply In_nth_error in Hk. destruct Hk as [a Ha].
        destruct (nth_error (positions key 0 rows) a) as [i|] eqn:Ei.
        + pose proof (C3 a i Ei) as Q. rewrite Ha in Q. symmetry in Q.
          assert (In i (positions key 0 rows)) as Hin by (eapply nth_error_In; exact Ei).
          apply positions_in in Hin. destruct Hin as [_ Hin]. rewrite Nat.sub_0_r in Hin.
          split; [eapply nth_error_In; exact Q|]. destruct (RK i k Q) as (r & Hr & HK). congruence.
        + apply nth_error_None in Ei. assert (a < List.length (ds_frames s))%nat by (apply nth_error_Some; congruence). lia.
      - intros [Hk HK]. apply In_nth_error in Hk. destruct Hk as [i Hi]. destruct (RK i k Hi) as (r & Hr & HK').
        assert (r = key) by (eapply has_key_unique; eassumption). subst r.
        assert (Hin : In i (positions key 0 rows)) by (apply positions_in; split; [lia|rewrite Nat.sub_0_r; exact Hr]).
        apply In_nth_error in Hin. destruct Hin as [a Ha]. apply nth_error_In with (n := a). rewrite (C3 a i Ha). exact Hi. }
    split; [|split; [exact Kin|]].
    + assert (In key rows) as Hr by (apply (group_keys_in leb); eapply nth_error_In; exact Hkey).
      apply In_nth_error in Hr. destruct Hr as [i Hi].
      assert (Hin : In i (positions key 0 rows)) by (apply positions_in; split; [lia|rewrite Nat.sub_0_r; exact Hi]).
      intro Q. rewrite Q in C2. cbn in C2. destruct (positions key 0 rows); [destruct Hin|discriminate].
    + exists (positions key 0 rows). split; [apply positions_sorted|]. split; [symmetry; exact C2|].
      intros a i Ha. split; [apply C3; exact Ha|]. intros f l px. unfold cube_pixel.
      pose proof (C3 a i Ha) as Q.
      assert (a < List.length (ds_frames s))%nat as Hlt by (rewrite C2; apply nth_error_Some; congruence).
      destruct (nth_error (ds_frames s) a) as [k|] eqn:Ek; [|apply nth_error_None in Ek; lia].
      rewrite (C4 a k Ek f). unfold fblock. destruct L as (_ & _ & _ & _ & Lv). rewrite (Lv i k (eq_sym Q) f). reflexivity.
  - intros f i l px. unfold cube_pixel. rewrite A6; [reflexivity|]. destruct L as (_ & _ & Lb & _). apply Lb.
Qed.

Lemma split_partition (h : heap) d pri ext h' subs keys :
  total_order leb -> Linked V h d ->
  split_dataset V leb h d pri ext = Ok (h', subs, keys) ->
  let p := match pri with Some l => l | None => [] end in
  let e := match ext with Some l => l | None => [] end in
  (forall k, In k (ds_frames d) -> exists! j, exists s, nth_error subs j = Some s /\ In k (ds_frames s))
  /\ (forall s k, In s subs -> In k (ds_frames s) -> In k (ds_frames d))
  /\ (forall j j' s s' k k', nth_error subs j = Some s -> nth_error subs j' = Some s' ->
        In k (ds_frames s) -> In k' (ds_frames s') -> (j = j' <-> agree V h p e k k')).
Proof.
  intros TO L H p e. destruct (split_dataset_spec h d pri ext h' subs keys TO L H) as (A1 & A2 & A3 & A4 & A5 & _).
  fold p e in A4, A5.
  assert (KS : forall j s, nth_error subs j = Some s -> exists key, nth_error keys j = Some key).
  { intros j s Hs. destruct (nth_error keys j) as [key|] eqn:E; [eauto|]. apply nth_error_None in E.
    assert (j < List.length subs)%nat by (apply nth_error_Some; congruence). lia. }
  assert (G : forall j j' s s' k k', nth_error subs j = Some s -> nth_error subs j' = Some s' ->
        In k (ds_frames s) -> In k' (ds_frames s') -> (j = j' <-> agree V h p e k k')).
  { intros j j' s s' k k' Hs Hs' Hk Hk'. destruct (KS j s Hs) as [key Hkey]. destruct (KS j' s' Hs') as [key' Hkey'].
    destruct (A5 j s key Hs Hkey) as (_ & _ & I1 & _). destruct (A5 j' s' key' Hs' Hkey') as (_ & _ & I2 & _).
    apply I1 in Hk. apply I2 in Hk'. destruct Hk as [_ Hk], Hk' as [_ Hk'].
    rewrite (agree_iff h p e k k' key key' Hk Hk'). split; [intros <-; congruence|].
    intros <-. apply (proj1 (NoDup_nth_error _) A3); [apply nth_error_Some; congruence|congruence]. }
  split; [|split; [|exact G]].
  - intros k Hk.
    assert (Hrow : exists key, In key keys /\ has_key V h p e k key).
    { unfold split_dataset in H. fold p e in H.
      destruct (rows_of V h p e (ds_frames d)) as [rows|] eqn:ER; cbn [bind] in H; [|destruct pri, ext; discriminate].
      destruct (rows_of_ok h p e (ds_frames d) rows ER) as [RL RK].
      pose proof Hk as Hk2. apply In_nth_error in Hk2. destruct Hk2 as [i Hi]. destruct (RK i k Hi) as (r & Hr & HK).
      exists r. split; [|exact HK]. apply A4. exists k. auto. }
    destruct Hrow as (key & Hin & HK). apply In_nth_error in Hin. destruct Hin as [j Hj].
    assert (j < List.length subs)%nat as Hlt by (rewrite A1; apply nth_error_Some; congruence).
    destruct (nth_error subs j) as [s|] eqn:Es; [|apply nth_error_None in Es; lia].
    destruct (A5 j s key Es Hj) as (_ & _ & I1 & _).
    exists j. split; [exists s; split; [exact Es|apply I1; auto]|].
    intros j' (s' & Hs' & Hk'). assert (Q : In k (ds_frames s)) by (apply I1; auto).
    apply (G j j' s s' k k Es Hs' Q Hk'). intros x _. reflexivity.
  - intros s k Hs Hk. apply In_nth_error in Hs. destruct Hs as [j Hj]. destruct (KS j s Hj) as [key Hkey].
    destruct (A5 j s key Hj Hkey) as (_ & _ & I1 & _). apply I1. exact Hk.
Qed.


(** ** Exactly when it succeeds *)
Definition Uniform (h : heap) (d : dataset) : Prop :=
  forall f, exists sh, forall k, In k (ds_frames d) -> exists b, fblock h f k = Some b /\ shape V b = sh.

Lemma gather_total (h : heap) f : forall frames, (forall k, In k frames -> fblock h f k <> None) ->
  exists bs, gather V h f frames = Ok bs /\ (forall b, In b bs -> exists k, In k frames /\ fblock h f k = Some b).
Proof.
  induction frames as [|k t IH]; intro H; cbn [gather].
  - exists []. split; [reflexivity|]. intros b [].
  - fold (fblock h f k). destruct (fblock h f k) as [b|] eqn:E; [|exfalso; apply (H k); [left; reflexivity|exact E]].
    destruct IH as (bs & -> & IH); [intros k' Hk'; apply H; right; exact Hk'|]. cbn [bind].
    exists (b :: bs). split; [reflexivity|]. intros b' [<-|Hb'].
    + exists k. split; [left; reflexivity|exact E].
    + destruct (IH b' Hb') as (k' & A & B). exists k'. split; [right; exact A|exact B].
Qed.

Lemma collect_total (h : heap) f frames sh :
  (forall k, In k frames -> exists b, fblock h f k = Some b /\ shape V b = sh) -> is_ok (collect V h f frames) = true.
Proof.
  intro H. unfold collect. destruct (gather_total h f frames) as (bs & -> & B).
  { intros k Hk. destruct (H k Hk) as (b & -> & _). discriminate. }
  cbn [bind]. assert (homogeneous V bs = true) as ->; [|reflexivity].
  assert (Sh : forall b, In b bs -> shape V b = sh).
  { intros b Hb. destruct (B b Hb) as (k & Hk & E). destruct (H k Hk) as (b' & E' & S'). congruence. }
  destruct bs as [|b t]; [reflexivity|]. cbn [homogeneous]. apply forallb_forall. intros b' Hb'. unfold list_nat_eqb.
  destruct (list_eq_dec Nat.eq_dec (shape V b') (shape V b)) as [|N]; [reflexivity|]. exfalso. apply N.
  rewrite (Sh b), (Sh b') by (cbn; auto). reflexivity.
Qed.

Lemma pick_frames_total : forall idx frames, (forall i, In i idx -> (i < List.length frames)%nat) ->
  exists ks, pick_frames frames idx = Ok ks /\ List.length ks = List.length idx /\ (forall k, In k ks -> In k frames).
Proof.
  induction idx as [|i t IH]; intros frames H; cbn [pick_frames].
  - exists []. split; [reflexivity|]. split; [reflexivity|]. intros k [].
  - destruct (nth_error frames i) as [k|] eqn:E.
    + destruct (IH frames) as (ks & -> & L & Q); [intros j Hj; apply H; right; exact Hj|]. cbn [bind].
      exists (k :: ks). split; [reflexivity|]. split; [cbn; congruence|]. intros k' [<-|Hk']; [eapply nth_error_In; exact E|apply Q; exact Hk'].
    + apply nth_error_None in E. specialize (H i (or_introl eq_refl)). lia.
Qed.

Lemma getitem_total (h : heap) d idx : Uniform h d -> idx <> [] -> (forall i, In i idx -> (i < List.length (ds_frames d))%nat) ->
  exists h' s, getitem V h d idx = Ok (h', s).
Proof.
  intros U Ni R. unfold getitem. destruct (pick_frames_total idx (ds_frames d) R) as (ks & -> & L & Q). cbn [bind].
  assert (C : forall f, exists bs, collect V h f ks = Ok bs).
  { intro f. destruct (U f) as [sh Hs].
    assert (is_ok (collect V h f ks) = true) as O by (apply (collect_total h f ks sh); intros k Hk; apply Hs; apply Q; exact Hk).
    destruct (collect V h f ks); [eauto|discriminate]. }
  unfold new_dataset. destruct ks as [|k ks]; [destruct idx; [congruence|discriminate]|].
  destruct (C FData) as [a ->], (C FErr) as [b ->], (C FDq) as [c ->]. cbn [bind]. eexists. eexists. reflexivity.
Qed.

Lemma take_groups_total d : forall gs (h : heap),
  Sliceable h d -> Uniform h d -> Forall (@NoDup nat) gs ->
  (forall g, In g gs -> g <> [] /\ forall i, In i g -> (i < List.length (ds_frames d))%nat) ->
  exists r, take_groups V h d gs = Ok r.
Proof.
  induction gs as [|g t IH]; intros h SL U ND H; cbn [take_groups]; [eauto|].
  destruct (H g (or_introl eq_refl)) as [Hn Hr].
  destruct (getitem_total h d g U Hn Hr) as (h1 & s1 & E). rewrite E. cbn [bind fst snd].
  inversion ND as [|g0 t0 Ng Nt]; subst g0 t0.
  destruct (getitem_step h d g h1 s1 SL Ng E) as (L1 & SL1 & F1 & Len1 & B1 & _).
  destruct (IH h1 SL1) as [r ->]; [|exact Nt|intros g' Hg'; apply H; right; exact Hg'|cbn [bind]; eauto].
  intro f. destruct (U f) as [sh Hs]. exists sh. intros k Hk. rewrite (B1 f k Hk). apply Hs. exact Hk.
Qed.

Lemma has_keywords_iff (h : heap) p e k r : has_key V h p e k r -> has_keywords V h p e k.
Proof.
  intros [L A] j Hj. rewrite (A j Hj). apply nth_error_Some. lia.
Qed.

Lemma split_outcome (h : heap) d pri ext :
  Linked V h d -> Uniform h d ->
  let p := match pri with Some l => l | None => [] end in
  let e := match ext with Some l => l | None => [] end in
  match split_dataset V leb h d pri ext with
  | Ok _ => p ++ e <> [] /\ forall k, In k (ds_frames d) -> has_keywords V h p e k
  | Raise x => (x = ValueError /\ p ++ e = []) \/
               (x = KeyError /\ exists k, In k (ds_frames d) /\ ~ has_keywords V h p e k)
  end.
Proof.
  intros L U p e. unfold split_dataset. fold p e.
  assert (K : (pri = None /\ ext = None) \/ forall T (a b : T), match pri, ext with None, None => a | _, _ => b end = b)
    by (destruct pri, ext; auto).
  destruct K as [[E1 E2]|K].
  { subst p e. rewrite E1, E2. left. auto. }
  rewrite K. destruct (rows_of V h p e (ds_frames d)) as [rows|x] eqn:ER; cbn [bind].
  2:{ right. apply rows_of_raise with (1 := ER). }
  destruct (p ++ e) as [|pe0 pe] eqn:Epe; [left; auto|]. cbv zeta.
  destruct (rows_of_ok h p e (ds_frames d) rows ER) as [RL RK].
  destruct (take_groups_total d (map (fun k => positions k 0 rows) (group_keys leb rows)) h) as [r ->].
  - apply linked_sliceable. exact L.
  - exact U.
  - rewrite Forall_forall. intros g Hg. apply in_map_iff in Hg. destruct Hg as (key & <- & _).
    apply sorted_lt_nodup. apply positions_sorted.
  - intros g Hg. apply in_map_iff in Hg. destruct Hg as (key & <- & Hkey). apply (proj1 (group_keys_in leb rows key)) in Hkey.
    apply In_nth_error in Hkey. destruct Hkey as [i Hi]. split.
    + intro Q. assert (In i (positions key 0 rows)) as Hin by (apply positions_in; rewrite Nat.sub_0_r; split; [lia|exact Hi]).
      rewrite Q in Hin. destruct Hin.
    + intros j Hj. apply positions_in in Hj. destruct Hj as [_ Hj]. rewrite Nat.sub_0_r in Hj. rewrite <- RL. apply nth_error_Some. congruence.
  - cbn [bind]. split; [discriminate|]. intros k Hk. apply In_nth_error in Hk. destruct Hk as [i Hi].
    destruct (RK i k Hi) as (r' & _ & HK). eapply has_keywords_iff. exact HK.
Qed.
End P.
