(** Contents of the cubes and headers after the methods of Dataset. *)
From Coq Require Import List Arith Bool Lia String.
From Verif Require Import Base DatasetModel DatasetSpec DatasetProofs DatasetCopyProofs.
Import ListNotations.
Local Open Scope string_scope.
Local Open Scope list_scope.

Section P.
Variable V : Type.
Variable quad mul : V -> V -> V.
Notation heap := (heap V).
Notation buf := (buf V). Notation nbuf := (nbuf V).
Notation hdr := (hdr V). Notation nhdr := (nhdr V).
Notation img := (img V). Notation nimg := (nimg V).

(** ** Construction gives a well formed dataset *)
Lemma new_dataset_wf (h : heap) frames h' d :
  Allocated V h frames -> NoDup frames -> new_dataset V h frames = Ok (h', d) -> WellFormed V h' d.
Proof.
  intros A N H. pose proof (new_dataset_linked V h frames h' d N H) as (L1 & L2 & L3 & L4 & L5).
  apply new_dataset_inv in H.
  destruct H as (_ & bd & be & bq & G1 & G2 & G3 & Ed & Hb & Hnb & Hh & Hnh & Hni & Him & Hids & Hv).
  split; [|exact L3]. intros k Hk. assert (In k frames) as Hk' by (rewrite Ed in Hk; exact Hk).
  destruct (A k Hk') as (A1 & A2 & A3). split; [lia|]. split.
  - intro f. apply In_nth_error in Hk. destruct Hk as [i Hi]. rewrite (L5 i k Hi f). apply L3.
  - intro f. rewrite Hids, Hnh. apply A3.
Qed.

(** ** One frame of an error method *)
Record StepSpec (F : block V -> layer V -> block V) (G : block V -> header -> header)
    (step : heap -> nat -> layer V -> heap * option exn) : Prop := {
  ss_ok : forall h k e h', step h k e = (h', None) ->
    exists b, view_block V h (im_err (img h k)) = Some b
    /\ view_block V h (im_data (img h k)) <> None
    /\ ((fst (im_err (img h k)) < nbuf h)%nat -> view_block V h' (im_err (img h' k)) = Some (F b e))
    /\ (im_err (img h' k) = im_err (img h k) \/ fst (im_err (img h' k)) = nbuf h)
    /\ ((fst (im_err (img h k)) < nbuf h)%nat -> (fst (im_err (img h' k)) < nbuf h')%nat)
    /\ (nbuf h <= nbuf h')%nat
    /\ (forall k', k' <> k -> img h' k' = img h k')
    /\ (forall f, f <> FErr -> im_view f (img h' k) = im_view f (img h k))
    /\ (forall f, im_hdr f (img h' k) = im_hdr f (img h k))
    /\ (forall v, (fst v < nbuf h)%nat -> v <> im_err (img h k) -> view_block V h' v = view_block V h v)
    /\ (forall a, hdr h' a = if Nat.eqb a (im_errh (img h k)) then G b (hdr h a) else hdr h a)
    /\ (forall b', (b' < nbuf h)%nat -> b' <> fst (im_err (img h k)) -> buf h' b' = buf h b')
}.

Definition add_term (track : bool) (b : block V) (e : layer V) : block V :=
  match b with
  | [] => []
  | l0 :: rest => (map2 quad l0 e :: rest) ++ (if track then [e] else [])
  end.

Definition add_cards (track : bool) (name : string) (b : block V) (hd : header) : header :=
  hset "HISTORY" (append "Added error term: " name)
    (if track then hset (layer_key (S (List.length b))) name (hset "Layer_1" "combined_error" hd)
     else hset "Layer_1" "combined_error" hd).

Definition scale_term (b : block V) (e : layer V) : block V := map (fun ly => map2 mul ly e) b.
Definition scale_cards (name : string) (b : block V) (hd : header) : header :=
  hset "HISTORY" (append "Errors rescaled by: " name) (hset "Layer_1" "combined_error" hd).

Lemma img_add_error_spec track name : StepSpec (add_term track) (add_cards track name) (img_add_error V quad track name).
Proof.
  constructor. intros h k e h' H. unfold img_add_error in H.
  destruct (view_block V h (im_data (img h k))) as [db|] eqn:Ed; [|discriminate].
  destruct (view_block V h (im_err (img h k))) as [[|l0 rest]|] eqn:Ee; try discriminate.
  destruct (list_nat_eqb (shape V db) [List.length e]); [|discriminate].
  exists (l0 :: rest). split; [reflexivity|]. split; [discriminate|].
  unfold view_block in Ee.
  assert (Hr : forall x, nth_error (set_nth (buf h (fst (im_err (img h k)))) (snd (im_err (img h k))) x) (snd (im_err (img h k))) = Some x).
  { intro x. rewrite nth_error_set_nth, Nat.eqb_refl.
    assert (snd (im_err (img h k)) < List.length (buf h (fst (im_err (img h k)))))%nat as Hl
      by (apply nth_error_Some; congruence).
    destruct (Nat.ltb_spec (snd (im_err (img h k))) (List.length (buf h (fst (im_err (img h k)))))); [reflexivity|lia]. }
  assert (Ho : forall x v, v <> im_err (img h k) ->
     nth_error (upd (buf h) (fst (im_err (img h k))) (set_nth (buf h (fst (im_err (img h k)))) (snd (im_err (img h k))) x) (fst v)) (snd v)
     = nth_error (buf h (fst v)) (snd v)).
  { intros x v Hv. unfold upd. destruct (Nat.eqb_spec (fst v) (fst (im_err (img h k)))) as [E|N]; [|reflexivity].
    rewrite nth_error_set_nth. destruct (Nat.eqb_spec (snd v) (snd (im_err (img h k)))) as [E2|N2].
    - exfalso. apply Hv. rewrite (surjective_pairing v), (surjective_pairing (im_err (img h k))). congruence.
    - rewrite E. reflexivity. }
  destruct track; cbn [alloc_buf] in H; injection H as <-; unfold view_block;
    cbn [DatasetModel.buf DatasetModel.nbuf DatasetModel.hdr DatasetModel.img set_buf set_hdr set_img].
  - rewrite !upd_same. cbn [im_err set_view fst snd add_term].
    split; [intros _; rewrite ?upd_same; reflexivity|].
    split; [right; reflexivity|]. split; [intros _; lia|]. split; [lia|].
    split; [intros k' Hk'; apply upd_other; exact Hk'|].
    split; [intros f Hf; destruct f; reflexivity || congruence|].
    split; [intros []; reflexivity|].
    split; [|split].
    + intros v Hv Hn. unfold upd at 1. destruct (Nat.eqb_spec (fst v) (nbuf h)); [lia|]. apply Ho. exact Hn.
    + intro a. unfold upd. destruct (Nat.eqb_spec a (im_errh (img h k))) as [->|]; [|reflexivity].
      rewrite ?Nat.eqb_refl. reflexivity.
    + intros b' Hb' Hn. rewrite upd_other by lia. apply upd_other. exact Hn.
  - split; [intros _; rewrite upd_same; cbn [add_term]; rewrite app_nil_r; apply Hr|].
    split; [left; reflexivity|]. split; [auto|]. split; [lia|].
    split; [reflexivity|]. split; [reflexivity|]. split; [reflexivity|].
    split; [|split].
    + intros v Hv Hn. apply Ho. exact Hn.
    + intro a. unfold upd. destruct (Nat.eqb_spec a (im_errh (img h k))) as [->|]; [|reflexivity].
      rewrite ?Nat.eqb_refl. reflexivity.
    + intros b' Hb' Hn. apply upd_other. exact Hn.
Qed.

Lemma img_rescale_spec name : StepSpec scale_term (scale_cards name) (img_rescale V mul name).
Proof.
  constructor. intros h k e h' H. unfold img_rescale in H.
  destruct (view_block V h (im_data (img h k))) as [db|] eqn:Ed; [|discriminate].
  destruct (view_block V h (im_err (img h k))) as [be|] eqn:Ee; try discriminate.
  destruct (list_nat_eqb (shape V db) [List.length e]); [|discriminate].
  exists be. split; [reflexivity|]. split; [discriminate|].
  cbn [alloc_buf] in H; injection H as <-; unfold view_block;
    cbn [DatasetModel.buf DatasetModel.nbuf DatasetModel.hdr DatasetModel.img set_buf set_hdr set_img].
  rewrite !upd_same. cbn [im_err set_view fst snd].
  split; [intros _; rewrite ?upd_same; reflexivity|].
  split; [right; reflexivity|]. split; [intros _; lia|]. split; [lia|].
  split; [intros k' Hk'; apply upd_other; exact Hk'|].
  split; [intros f Hf; destruct f; reflexivity || congruence|].
  split; [intros []; reflexivity|].
  split; [|split].
  - intros v Hv Hn. unfold upd at 1. destruct (Nat.eqb_spec (fst v) (nbuf h)); [lia|]. reflexivity.
  - intro a. unfold upd. destruct (Nat.eqb_spec a (im_errh (img h k))) as [->|]; reflexivity.
  - intros b' Hb' Hn. apply upd_other. lia.
Qed.

Definition Views (h : heap) (frames : list nat) : Prop :=
  (forall k, In k frames -> (fst (im_err (img h k)) < nbuf h)%nat) /\
  (forall k k', In k frames -> In k' frames -> im_err (img h k) = im_err (img h k') -> k = k').

Lemma views_step F G step h k e h' fr :
  StepSpec F G step -> step h k e = (h', None) -> In k fr -> Views h fr -> Views h' fr.
Proof.
  intros S H Hk [V1 V2]. destruct (ss_ok _ _ _ S h k e h' H) as (b & _ & _ & _ & Hv & Hf & Hn & Ho & _).
  split.
  - intros k' Hk'. destruct (Nat.eq_dec k' k) as [->|N].
    + apply Hf. apply V1. exact Hk.
    + rewrite (Ho k' N). specialize (V1 k' Hk'). lia.
  - intros k1 k2 H1 H2 E. destruct (Nat.eq_dec k1 k) as [->|N1], (Nat.eq_dec k2 k) as [->|N2]; try reflexivity.
    + rewrite (Ho k2 N2) in E. destruct Hv as [Hv|Hv].
      * rewrite Hv in E. apply V2; assumption.
      * specialize (V1 k2 H2). rewrite E in Hv. lia.
    + rewrite (Ho k1 N1) in E. destruct Hv as [Hv|Hv].
      * rewrite Hv in E. apply V2; assumption.
      * specialize (V1 k1 H1). rewrite <- E in Hv. lia.
    + rewrite (Ho k1 N1), (Ho k2 N2) in E. apply V2; assumption.
Qed.

Lemma loop_err_contents F G step (SS : StepSpec F G step) fr a :
  forall frames h i h',
  NoDup frames -> (forall k, In k frames -> In k fr) -> Views h fr ->
  loop_err V step h i frames a = (h', None) ->
  (forall j k, nth_error frames j = Some k ->
     exists b e, view_block V h (im_err (img h k)) = Some b /\ err_for V a (i + j) = Some e
              /\ view_block V h' (im_err (img h' k)) = Some (F b e))
  /\ (forall k, In k fr -> ~ In k frames ->
        img h' k = img h k /\ view_block V h' (im_err (img h k)) = view_block V h (im_err (img h k)))
  /\ (forall b', (b' < nbuf h)%nat -> (forall k, In k fr -> b' <> fst (im_err (img h k))) -> buf h' b' = buf h b')
  /\ (forall k f, f <> FErr -> im_view f (img h' k) = im_view f (img h k))
  /\ (forall k f, im_hdr f (img h' k) = im_hdr f (img h k))
  /\ (forall x, (forall k, In k frames -> x <> im_errh (img h k)) -> hdr h' x = hdr h x)
  /\ ((forall k k', In k frames -> In k' frames -> im_errh (img h k) = im_errh (img h k') -> k = k') ->
      forall k b, In k frames -> view_block V h (im_err (img h k)) = Some b ->
        hdr h' (im_errh (img h k)) = G b (hdr h (im_errh (img h k))))
  /\ (nbuf h <= nbuf h')%nat.
Proof.
  induction frames as [|k t IH]; intros h i h' N Hin VV H; cbn [loop_err] in H.
  - injection H as <-. repeat split; auto. intros [|j] k Hj; discriminate. intros _ k b [].
  - change (match a with EShared _ e => Some e | EPer _ es => nth_error es i | EBad _ => None end) with (err_for V a i) in H.
    destruct (err_for V a i) as [e|] eqn:Ea; [|discriminate].
    destruct (step h k e) as [h1 [x1|]] eqn:E; [discriminate|].
    inversion N as [|k0 t0 Hk Nt]; subst k0 t0.
    pose proof (views_step F G step h k e h1 fr SS E (Hin k (or_introl eq_refl)) VV) as VV1.
    destruct (ss_ok _ _ _ SS h k e h1 E) as (b & B1 & _ & B2 & B3 & B4 & B5 & B6 & B7 & B8 & B9 & B10 & B11).
    destruct (IH h1 (S i) h' Nt (fun k' Hk' => Hin k' (or_intror Hk')) VV1 H) as (C1 & C2 & C3 & C4 & C5 & C6 & C7 & C8).
    destruct VV as [V1 V2].
    assert (Other : forall k', In k' fr -> k' <> k -> view_block V h1 (im_err (img h1 k')) = view_block V h (im_err (img h k'))
                     /\ img h1 k' = img h k').
    { intros k' Hk' Nk. rewrite (B6 k' Nk). split; [|reflexivity]. apply B9; [apply V1; exact Hk'|].
      intro Q. apply Nk. apply V2; auto. apply Hin. left. reflexivity. }
    assert (Ids : forall k' f, im_hdr f (img h1 k') = im_hdr f (img h k')).
    { intros k' f. destruct (Nat.eq_dec k' k) as [->|Nk]; [apply B8|rewrite (B6 k' Nk); reflexivity]. }
    split; [|split; [|split; [|split; [|split; [|split; [|split]]]]]].
    + intros [|j] k' Hj; cbn in Hj.
      * injection Hj as <-. exists b, e. rewrite Nat.add_0_r. split; [exact B1|]. split; [exact Ea|].
        destruct (C2 k (Hin k (or_introl eq_refl)) Hk) as [D1 D2]. rewrite D1, D2. apply B2. apply V1. apply Hin. left. reflexivity.
      * destruct (C1 j k' Hj) as (b' & e' & D1 & D2 & D3).
        assert (In k' t) as Ht by (eapply nth_error_In; exact Hj).
        exists b', e'. replace (i + S j)%nat with (S i + j)%nat by lia. split; [|auto].
        destruct (Other k') as [O1 O2]; [apply Hin; right; exact Ht|intros ->; tauto|]. congruence.
    + intros k' Hk' Nk. assert (k' <> k) by (intros ->; apply Nk; left; reflexivity).
      destruct (C2 k' Hk') as [D1 D2]; [intro Q; apply Nk; right; exact Q|].
      destruct (Other k' Hk') as [O1 O2]; [assumption|]. split; [congruence|]. rewrite <- O2. rewrite D2. congruence.
    + intros b' Hb' Nb. rewrite C3.
      * apply B11; [exact Hb'|]. apply Nb. apply Hin. left. reflexivity.
      * lia.
      * intros k' Hk'. destruct (Nat.eq_dec k' k) as [->|Nk].
        -- destruct B3 as [B3|B3]; [rewrite B3; apply Nb; exact Hk'|rewrite B3; lia].
        -- rewrite (B6 k' Nk). apply Nb. exact Hk'.
    + intros k' f Hf. rewrite (C4 k' f Hf). destruct (Nat.eq_dec k' k) as [->|Nk]; [apply B7; exact Hf|rewrite (B6 k' Nk); reflexivity].
    + intros k' f. rewrite C5. apply Ids.
    + intros x Hx. rewrite C6.
      * rewrite B10. destruct (Nat.eqb_spec x (im_errh (img h k))) as [Q|]; [|reflexivity].
        exfalso. apply (Hx k); [left; reflexivity|exact Q].
      * intros k' Hk'. change (im_errh (img h1 k')) with (im_hdr HErr (img h1 k')). rewrite Ids.
        apply Hx. right. exact Hk'.
    + intros Inj k' b' [<-|Hk'] Hb'.
      * rewrite B1 in Hb'. injection Hb' as <-. rewrite C6.
        -- rewrite B10, Nat.eqb_refl. reflexivity.
        -- intros k' Hk' Q. change (im_errh (img h1 k')) with (im_hdr HErr (img h1 k')) in Q. rewrite Ids in Q.
           assert (k = k') by (apply Inj; [left; reflexivity|right; exact Hk'|exact Q]). subst k'. tauto.
      * assert (k' <> k) as Nk by (intros ->; tauto).
        destruct (Other k') as [O1 O2]; [apply Hin; right; exact Hk'|exact Nk|].
        assert (Inj' : forall k1 k2, In k1 t -> In k2 t -> im_errh (img h1 k1) = im_errh (img h1 k2) -> k1 = k2).
        { intros k1 k2 H1 H2 Q. change (im_hdr HErr (img h1 k1) = im_hdr HErr (img h1 k2)) in Q. rewrite !Ids in Q.
          apply Inj; [right|right|]; assumption. }
        specialize (C7 Inj' k' b' Hk'). rewrite O2 in C7. rewrite C7.
        -- rewrite B10. destruct (Nat.eqb_spec (im_errh (img h k')) (im_errh (img h k))) as [Q|]; [|reflexivity].
           exfalso. apply Nk. apply Inj; [right; exact Hk'|left; reflexivity|exact Q].
        -- rewrite <- O2. congruence.
    + lia.
Qed.

Lemma err_method_contents F G step (SS : StepSpec F G step) (h : heap) d a h' d' :
  Linked V h d -> err_method V step h d a = (h', d', None) ->
  ds_frames d' = ds_frames d
  /\ (forall i, match nth_error (buf h (cube FErr d)) i with
               | None => nth_error (buf h' (cube FErr d')) i = None
               | Some b => exists e, err_for V a i = Some e /\ nth_error (buf h' (cube FErr d')) i = Some (F b e)
               end)
  /\ (forall f, f <> FErr -> cube f d' = cube f d /\ buf h' (cube f d') = buf h (cube f d))
  /\ (forall k f, im_hdr f (img h' k) = im_hdr f (img h k))
  /\ (forall x, (forall k, In k (ds_frames d) -> x <> im_errh (img h k)) -> hdr h' x = hdr h x)
  /\ (OwnHeaders V h d -> forall i k b, nth_error (ds_frames d) i = Some k -> nth_error (buf h (cube FErr d)) i = Some b ->
        hdr h' (im_errh (img h k)) = G b (hdr h (im_errh (img h k)))).
Proof.
  intros L H. pose proof L as (M1 & M2 & M3 & M4 & M5). unfold err_method in H.
  assert (H' : match loop_err V step h 0 (ds_frames d) a with
         | (h1, Some x) => (h1, d, Some x)
         | (h1, None) => relink_err V h1 d end = (h', d', None)) by (destruct a; congruence).
  clear H. destruct (loop_err V step h 0 (ds_frames d) a) as [h1 [x|]] eqn:E; [discriminate|].
  assert (VV : Views h (ds_frames d)).
  { split.
    - intros k Hk. apply In_nth_error in Hk. destruct Hk as [i Hi]. change (im_err (img h k)) with (im_view FErr (img h k)).
      rewrite (M5 i k Hi). apply M3.
    - intros k k' Hk Hk' Q. apply In_nth_error in Hk. destruct Hk as [i Hi]. apply In_nth_error in Hk'. destruct Hk' as [j Hj].
      change (im_view FErr (img h k) = im_view FErr (img h k')) in Q. rewrite (M5 i k Hi), (M5 j k' Hj) in Q.
      injection Q as Q. congruence. }
  destruct (loop_err_contents F G step SS (ds_frames d) a (ds_frames d) h 0 h1 M1 (fun k Hk => Hk) VV E)
    as (C1 & _ & C3 & C4 & C5 & C6 & C7 & C8).
  unfold relink_err in H'. destruct (collect V h1 FErr (ds_frames d)) as [bs|] eqn:EC; [|discriminate].
  cbn [alloc_buf] in H'. injection H' as <- <-.
  apply collect_ok, gather_ok in EC. destruct EC as [EL EG].
  set (h2 := mkheap V _ _ _ _ _ _).
  destruct (repoint_frame V (ds_frames d) h2 FErr (nbuf h1) 0) as (R1 & R2 & R3 & R4 & R5 & _ & R6 & _).
  cbn [ds_frames cube ds_data ds_err ds_dq]. split; [reflexivity|].
  assert (BE : buf (repoint V h2 FErr (nbuf h1) 0 (ds_frames d)) (nbuf h1) = bs).
  { rewrite R1. unfold h2. cbn. apply upd_same. }
  rewrite BE. split; [|split; [|split; [|split]]].
  - intro i. destruct (nth_error (buf h (ds_err d)) i) as [b|] eqn:Eb.
    + assert (i < List.length (ds_frames d))%nat as Hi.
      { rewrite <- (M2 FErr). apply nth_error_Some. cbn [cube]. congruence. }
      destruct (nth_error (ds_frames d) i) as [k|] eqn:Ek; [|apply nth_error_None in Ek; lia].
      destruct (C1 i k Ek) as (b' & e & D1 & D2 & D3).
      change (im_err (img h k)) with (im_view FErr (img h k)) in D1. rewrite (M5 i k Ek) in D1.
      unfold view_block in D1. cbn [fst snd cube] in D1. rewrite Eb in D1. injection D1 as <-.
      exists e. split; [exact D2|]. destruct (EG i k Ek) as (b2 & G1 & G2). rewrite G2.
      change (im_view FErr (img h1 k)) with (im_err (img h1 k)) in G1. congruence.
    + apply nth_error_None. rewrite EL. apply nth_error_None in Eb. rewrite <- (M2 FErr). exact Eb.
  - intros f Hf. assert (Q : cube f (mkds (ds_frames d) (ds_data d) (nbuf h1) (ds_dq d)) = cube f d) by (destruct f; cbn; congruence).
    rewrite Q. split; [reflexivity|]. rewrite R1. unfold h2. cbn. rewrite upd_other; [|specialize (M3 f); lia].
    apply C3; [apply M3|]. intros k Hk Q2. apply In_nth_error in Hk. destruct Hk as [i Hi].
    change (im_err (img h k)) with (im_view FErr (img h k)) in Q2. rewrite (M5 i k Hi) in Q2. cbn [fst] in Q2.
    apply M4 in Q2. congruence.
  - intros k f. rewrite R6. unfold h2. cbn. apply C5.
  - intros x Hx. rewrite R3. unfold h2. cbn. apply C6. exact Hx.
  - intros Own i k b Hk Hb. rewrite R3. unfold h2. cbn. apply (C7 Own); [eapply nth_error_In; exact Hk|].
    change (im_err (img h k)) with (im_view FErr (img h k)). rewrite (M5 i k Hk). exact Hb.
Qed.

(** ** update_after_processing_step *)

Lemma stamp_headers hist en : forall frames (h : heap),
  NoDup frames ->
  (forall k k' f f', In k frames -> In k' frames -> im_hdr f (img h k) = im_hdr f' (img h k') -> k = k' /\ f = f') ->
  (forall k f, In k frames -> hdr (stamp V h hist en frames) (im_hdr f (img h k)) =
     match f with
     | HExt => set_keys en (hset "HISTORY" hist (hdr h (im_hdr f (img h k))))
     | HErr => set_keys en (hdr h (im_hdr f (img h k)))
     | _ => hdr h (im_hdr f (img h k)) end)
  /\ (forall x, (forall k, In k frames -> x <> im_ext (img h k) /\ x <> im_errh (img h k)) ->
        hdr (stamp V h hist en frames) x = hdr h x).
Proof.
  induction frames as [|k t IH]; intros h N Own; cbn [stamp].
  - split; [intros k f []|reflexivity].
  - inversion N as [|k0 t0 Hk Nt]; subst k0 t0.
    set (h2 := set_hdr V (set_hdr V h _ _) _ _).
    assert (I2 : img h2 = img h) by reflexivity.
    assert (Own' : forall k1 k2 f f', In k1 t -> In k2 t -> im_hdr f (img h2 k1) = im_hdr f' (img h2 k2) -> k1 = k2 /\ f = f').
    { intros k1 k2 f f' H1 H2 Q. rewrite I2 in Q. apply Own; [right|right|]; assumption. }
    destruct (IH h2 Nt Own') as [A B]. rewrite I2 in A, B.
    assert (NE : im_ext (img h k) <> im_errh (img h k)).
    { intro Q. destruct (Own k k HExt HErr (or_introl eq_refl) (or_introl eq_refl) Q) as [_ Q2]. discriminate. }
    split.
    + intros k' f [<-|Hk'].
      * rewrite B.
        2:{ intros k' Hk'. split; intro Q.
            - destruct (Own k k' f HExt (or_introl eq_refl) (or_intror Hk') Q) as [-> _]. tauto.
            - destruct (Own k k' f HErr (or_introl eq_refl) (or_intror Hk') Q) as [-> _]. tauto. }
        unfold h2. cbn [DatasetModel.hdr set_hdr]. unfold upd.
        assert (Q : forall f1 f2, im_hdr f1 (img h k) = im_hdr f2 (img h k) -> f1 = f2).
        { intros f1 f2 Q. apply (Own k k f1 f2 (or_introl eq_refl) (or_introl eq_refl) Q). }
        destruct f; cbn [im_hdr];
          repeat match goal with |- context [Nat.eqb ?a ?b] => destruct (Nat.eqb_spec a b) as [?EE|?NN] end;
          try reflexivity; try congruence.
        -- specialize (Q HPri HErr EE). discriminate.
        -- specialize (Q HPri HExt EE). discriminate.
        -- specialize (Q HDq HErr EE). discriminate.
        -- specialize (Q HDq HExt EE). discriminate.
      * rewrite (A k' f Hk').
        assert (Q : hdr h2 (im_hdr f (img h k')) = hdr h (im_hdr f (img h k'))).
        { unfold h2. cbn [DatasetModel.hdr set_hdr]. rewrite !upd_other; [reflexivity| |].
          - intro Q. destruct (Own k' k f HExt (or_intror Hk') (or_introl eq_refl) Q) as [-> _]. tauto.
          - intro Q. destruct (Own k' k f HErr (or_intror Hk') (or_introl eq_refl) Q) as [-> _]. tauto. }
        rewrite Q. reflexivity.
    + intros x Hx. rewrite B.
      * unfold h2. cbn [DatasetModel.hdr set_hdr]. destruct (Hx k (or_introl eq_refl)) as [X1 X2].
        rewrite !upd_other by assumption. reflexivity.
      * intros k' Hk'. apply Hx. right. exact Hk'.
Qed.

Lemma update_step_contents (h : heap) d hist nd ne nq en h' d' :
  Linked V h d -> OwnAll V h d ->
  (forall e, ne = Some e -> (e < nbuf h)%nat /\ e <> ds_data d /\ e <> ds_dq d) ->
  update_step V h d hist nd ne nq en = (h', d', None) ->
  ds_frames d' = ds_frames d
  /\ buf h' (cube FData d') = match nd with Some b => b | None => buf h (cube FData d) end
  /\ buf h' (cube FErr d') = match ne with Some e => buf h e | None => buf h (cube FErr d) end
  /\ buf h' (cube FDq d') = match nq with Some b => b | None => buf h (cube FDq d) end
  /\ (forall i f, frame_header V h' d' f i = match frame_header V h d f i with
        | None => None
        | Some x => Some (match f with HExt => set_keys en (hset "HISTORY" hist x)
                                     | HErr => set_keys en x | _ => x end) end).
Proof.
  intros HL Own Hne H. unfold update_step in H. pose proof HL as (M1 & M2 & M3 & M4 & M5).
  assert (NDE : ds_data d <> ds_err d) by (intro K; specialize (M4 FData FErr K); discriminate).
  assert (NDQ : ds_data d <> ds_dq d) by (intro K; specialize (M4 FData FDq K); discriminate).
  assert (NEQ : ds_err d <> ds_dq d) by (intro K; specialize (M4 FErr FDq K); discriminate).
  set (s1 := match nd with None => (h, None) | Some b => _ end) in H.
  assert (A : snd s1 = None ->
     buf (fst s1) (ds_data d) = match nd with Some b => b | None => buf h (ds_data d) end
     /\ (forall b, b <> ds_data d -> buf (fst s1) b = buf h b) /\ hdr (fst s1) = hdr h /\ img (fst s1) = img h).
  { unfold s1. destruct nd as [b|]; [|auto]. destruct (same_shapes V b (buf h (ds_data d))); [|discriminate].
    intros _. cbn. split; [apply upd_same|]. split; [intros b' Hb'; apply upd_other; exact Hb'|auto]. }
  destruct s1 as [h1 [x1|]]; [discriminate|]. destruct (A eq_refl) as (A1 & A2 & A3 & A4). cbn [fst] in A1, A2, A3, A4. clear A.
  set (s2 := match ne with None => (h1, d, None) | Some e => _ end) in H.
  assert (B : snd s2 = None ->
     buf (fst (fst s2)) = buf h1 /\ hdr (fst (fst s2)) = hdr h1
     /\ (forall k f, im_hdr f (img (fst (fst s2)) k) = im_hdr f (img h1 k))
     /\ ds_frames (snd (fst s2)) = ds_frames d /\ ds_data (snd (fst s2)) = ds_data d /\ ds_dq (snd (fst s2)) = ds_dq d
     /\ ds_err (snd (fst s2)) = match ne with Some e => e | None => ds_err d end).
  { unfold s2. destruct ne as [e|]; [|cbn; auto 10]. destruct (err_shapes V (buf h1 e) (buf h1 (ds_err d))); [|discriminate].
    intros _. cbn [fst snd]. destruct (repoint_frame V (ds_frames d) h1 FErr e 0) as (R1 & R2 & R3 & R4 & R5 & _ & R6 & _).
    auto 10. }
  destruct s2 as [[h2 d2] [x2|]]; [discriminate|]. destruct (B eq_refl) as (B1 & B2 & B3 & B4 & B5 & B6 & B7).
  cbn [fst snd] in B1, B2, B3, B4, B5, B6, B7. clear B.
  set (s3 := match nq with None => (h2, None) | Some b => _ end) in H.
  assert (C : snd s3 = None ->
     buf (fst s3) (ds_dq d) = match nq with Some b => b | None => buf h2 (ds_dq d) end
     /\ (forall b, b <> ds_dq d -> buf (fst s3) b = buf h2 b) /\ hdr (fst s3) = hdr h2 /\ img (fst s3) = img h2).
  { unfold s3. destruct nq as [b|]; [|auto]. destruct (same_shapes V b (buf h2 (ds_dq d2))); [|discriminate].
    intros _. cbn. rewrite B6. split; [apply upd_same|]. split; [intros b' Hb'; apply upd_other; exact Hb'|auto]. }
  destruct s3 as [h3 [x3|]]; [discriminate|]. destruct (C eq_refl) as (C1 & C2 & C3 & C4). cbn [fst] in C1, C2, C3, C4. clear C.
  injection H as <- <-.
  destruct (stamp_frame V (ds_frames d2) h3 hist en) as (S1 & S2 & S3 & S4 & S5).
  assert (E3 : forall k f, im_hdr f (img h3 k) = im_hdr f (img h k)) by (intros k f; rewrite C4, B3, A4; reflexivity).
  destruct (stamp_headers hist en (ds_frames d2) h3) as [SH _].
  { rewrite B4. exact M1. }
  { intros k k' f f' H1 H2. rewrite !E3. rewrite B4 in H1, H2. apply Own; assumption. }
  cbn [cube]. rewrite S1, B5, B6, B7. split; [exact B4|]. split; [|split; [|split]].
  - rewrite C2 by exact NDQ. rewrite B1. exact A1.
  - destruct ne as [e|].
    + destruct (Hne e eq_refl) as (_ & E1 & E2). rewrite C2 by exact E2. rewrite B1. apply A2. exact E1.
    + rewrite C2 by exact NEQ. rewrite B1. apply A2. congruence.
  - rewrite C1. destruct nq; [reflexivity|]. rewrite B1. apply A2. congruence.
  - intros i f. unfold frame_header. rewrite S4. replace (nth_error (ds_frames d2) i) with (nth_error (ds_frames d) i) by (rewrite B4; reflexivity).
    destruct (nth_error (ds_frames d) i) as [k|] eqn:Ek; [|reflexivity].
    rewrite SH by (rewrite B4; eapply nth_error_In; exact Ek).
    rewrite C3, B2, A3, E3. reflexivity.
Qed.
End P.
