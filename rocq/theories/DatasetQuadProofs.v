(** Sequences of add_error_term calls (C16). *)
From Coq Require Import List Arith Bool Lia String Decimal DecimalString DecimalFacts DecimalNat Permutation Reals Lra.
From Verif Require Import Base DatasetModel DatasetSpec DatasetProofs DatasetCopyProofs DatasetErrProofs.
Import ListNotations.
Local Open Scope string_scope.
Local Open Scope list_scope.

(** ** Headers *)
Lemma hget_cons k c h : hget k (c :: h) = if String.eqb (fst c) k then Some (snd c) else hget k h.
Proof. unfold hget. cbn. destruct (String.eqb (fst c) k); reflexivity. Qed.

Lemma hget_app_other k k' v h : k' <> k -> hget k (h ++ [(k', v)]) = hget k h.
Proof.
  intro N. induction h as [|c h IH]; cbn [List.app]; rewrite ?hget_cons.
  - cbn [fst snd]. destruct (String.eqb_spec k' k); [congruence|reflexivity].
  - rewrite IH. reflexivity.
Qed.

Lemma hget_app_new k v h : hget k h = None -> hget k (h ++ [(k, v)]) = Some v.
Proof.
  induction h as [|c h IH]; cbn [List.app]; rewrite ?hget_cons; cbn [fst snd].
  - rewrite String.eqb_refl. reflexivity.
  - destruct (String.eqb (fst c) k); [discriminate|exact IH].
Qed.

Lemma hreplace_spec k v : forall h, match hreplace k v h with
  | Some h' => hget k h' = Some v /\ (forall k', k' <> k -> hget k' h' = hget k' h)
  | None => hget k h = None end.
Proof.
  induction h as [|[k0 v0] h IH]; cbn [hreplace]; [reflexivity|].
  destruct (String.eqb_spec k0 k) as [->|N].
  - split; [rewrite hget_cons; cbn [fst snd]; rewrite String.eqb_refl; reflexivity|].
    intros k' Hk'. rewrite !hget_cons. cbn [fst snd]. destruct (String.eqb_spec k k'); [congruence|reflexivity].
  - destruct (hreplace k v h) as [h'|].
    + destruct IH as [A B]. split.
      * rewrite hget_cons. cbn [fst snd]. destruct (String.eqb_spec k0 k); [congruence|exact A].
      * intros k' Hk'. rewrite !hget_cons. rewrite B by exact Hk'. reflexivity.
    + rewrite hget_cons. cbn [fst snd]. destruct (String.eqb_spec k0 k); [congruence|exact IH].
Qed.

Lemma hget_hset_same k v h : k <> "HISTORY" -> hget k (hset k v h) = Some v.
Proof.
  intro N. unfold hset. destruct (String.eqb_spec k "HISTORY"); [congruence|].
  pose proof (hreplace_spec k v h) as S. destruct (hreplace k v h); [apply S|apply hget_app_new; exact S].
Qed.

Lemma hget_hset_other k k' v h : k' <> k -> hget k (hset k' v h) = hget k h.
Proof.
  intro N. unfold hset. destruct (String.eqb_spec k' "HISTORY") as [->|]; [apply hget_app_other; exact N|].
  pose proof (hreplace_spec k' v h) as S. destruct (hreplace k' v h); [apply S; congruence|apply hget_app_other; exact N].
Qed.

Lemma layer_key_inj n m : layer_key n = layer_key m -> n = m.
Proof.
  unfold layer_key. intro H. cbn in H. injection H as H.
  assert (E : NilEmpty.uint_of_string (NilEmpty.string_of_uint (Nat.to_uint n))
            = NilEmpty.uint_of_string (NilEmpty.string_of_uint (Nat.to_uint m))) by (rewrite H; reflexivity).
  rewrite !NilEmpty.usu in E. injection E as E.
  rewrite <- (DecimalNat.Unsigned.of_to n), <- (DecimalNat.Unsigned.of_to m). rewrite E. reflexivity.
Qed.

Lemma layer_key_history n : layer_key n <> "HISTORY".
Proof. unfold layer_key. cbn. discriminate. Qed.

Lemma layer_key_1 : layer_key 1 = "Layer_1".
Proof. reflexivity. Qed.

(** ** Sequences of calls *)
Section P.
Variable V : Type.
Variable quad : V -> V -> V.
Notation heap := (heap V).
Notation buf := (buf V). Notation nbuf := (nbuf V).
Notation hdr := (hdr V). Notation nhdr := (nhdr V).
Notation img := (img V). Notation nimg := (nimg V).

Lemma add_run_linked track : forall ts h d h' d', Linked V h d -> add_run V quad track h d ts = (h', d', None) -> Linked V h' d'.
Proof.
  induction ts as [|[n a] t IH]; intros h d h' d' L H; cbn [add_run] in H.
  - injection H as <- <-. exact L.
  - destruct (ds_add_error V quad track n h d a) as [[h1 d1] [x|]] eqn:E; [discriminate|].
    apply (IH h1 d1); [|exact H]. eapply err_method_linked; [|exact L|exact E].
    intros. eapply img_add_error_step. eassumption.
Qed.

Lemma add_run_contents track : forall ts h d h' d',
  Linked V h d -> add_run V quad track h d ts = (h', d', None) ->
  ds_frames d' = ds_frames d
  /\ (forall f, f <> FErr -> buf h' (cube f d') = buf h (cube f d))
  /\ (forall i l0 rest, nth_error (buf h (cube FErr d)) i = Some (l0 :: rest) ->
       exists es, Forall2 (fun t e => err_for V (snd t) i = Some e) ts es
         /\ nth_error (buf h' (cube FErr d')) i
            = Some ((fold_left (map2 quad) es l0 :: rest) ++ (if track then es else [])))
  /\ (forall k f, im_hdr f (img h' k) = im_hdr f (img h k)).
Proof.
  induction ts as [|[n a] t IH]; intros h d h' d' L H; cbn [add_run] in H.
  - injection H as <- <-. split; [reflexivity|]. split; [reflexivity|]. split; [|reflexivity].
    intros i l0 rest Hb. exists []. split; [constructor|]. rewrite Hb. destruct track; rewrite List.app_nil_r; reflexivity.
  - destruct (ds_add_error V quad track n h d a) as [[h1 d1] [x|]] eqn:E; [discriminate|].
    assert (L1 : Linked V h1 d1).
    { eapply err_method_linked; [|exact L|exact E]. intros. eapply img_add_error_step. eassumption. }
    destruct (err_method_contents V _ _ _ (img_add_error_spec V quad track n) h d a h1 d1 L E) as (A1 & A2 & A3 & A4 & _).
    destruct (IH h1 d1 h' d' L1 H) as (B1 & B2 & B3 & B4).
    split; [congruence|]. split; [|split].
    + intros f Hf. rewrite B2 by exact Hf. apply A3. exact Hf.
    + intros i l0 rest Hb. specialize (A2 i). rewrite Hb in A2. destruct A2 as (e & E1 & E2).
      cbn [add_term] in E2. cbn [List.app] in E2. destruct (B3 i _ _ E2) as (es & F1 & F2).
      exists (e :: es). split; [constructor; [exact E1|exact F1]|]. rewrite F2. cbn [fold_left].
      cbn [List.app]. rewrite <- List.app_assoc. destruct track; reflexivity.
    + intros k f. rewrite B4. apply A4.
Qed.

Lemma add_cards_get track name (b : block V) hd :
  hget "Layer_1" (add_cards V track name b hd) = if track && Nat.eqb (List.length b) 0 then Some name else Some "combined_error".
Proof.
  unfold add_cards. rewrite hget_hset_other by discriminate. destruct track; cbn [andb].
  - destruct (Nat.eqb_spec (List.length b) 0) as [->|N].
    + apply hget_hset_same. discriminate.
    + rewrite hget_hset_other; [apply hget_hset_same; discriminate|].
      rewrite <- layer_key_1. intro Q. apply layer_key_inj in Q. lia.
  - apply hget_hset_same. discriminate.
Qed.

Lemma add_cards_layer track name (b : block V) hd m :
  (1 < m)%nat -> b <> [] ->
  hget (layer_key m) (add_cards V track name b hd)
  = if track && Nat.eqb m (S (List.length b)) then Some name else hget (layer_key m) hd.
Proof.
  intros Hm Hb. unfold add_cards. rewrite hget_hset_other by (intro Q; symmetry in Q; revert Q; apply layer_key_history).
  assert (N1 : "Layer_1" <> layer_key m).
  { rewrite <- layer_key_1. intro Q. apply layer_key_inj in Q. lia. }
  destruct track; cbn [andb].
  - destruct (Nat.eqb_spec m (S (List.length b))) as [->|N].
    + apply hget_hset_same. apply layer_key_history.
    + rewrite hget_hset_other; [|intro Q; apply layer_key_inj in Q; congruence].
      apply hget_hset_other. exact N1.
  - apply hget_hset_other. exact N1.
Qed.

(** The name of the [j]-th call is the card of its layer; other layer cards stay. *)
Lemma add_run_names track : forall ts h d h' d',
  Linked V h d -> OwnHeaders V h d -> add_run V quad track h d ts = (h', d', None) ->
  forall i k b, nth_error (ds_frames d) i = Some k -> nth_error (buf h (cube FErr d)) i = Some b -> b <> [] ->
  forall m, (1 < m)%nat ->
    hget (layer_key m) (hdr h' (im_errh (img h' k))) =
      match (if track && Nat.ltb (List.length b) m then nth_error ts (m - 1 - List.length b) else None) with
      | Some t => Some (fst t)
      | None => hget (layer_key m) (hdr h (im_errh (img h k)))
      end.
Proof.
  induction ts as [|[n a] t IH]; intros h d h' d' L Own H i k b Hk Hb Hne m Hm; cbn [add_run] in H.
  - injection H as <- <-. destruct (track && Nat.ltb (List.length b) m); [|reflexivity].
    assert (forall n, nth_error (@nil (string * errarg V)) n = None) as -> by (intros []; reflexivity). reflexivity.
  - destruct (ds_add_error V quad track n h d a) as [[h1 d1] [x|]] eqn:E; [discriminate|].
    assert (L1 : Linked V h1 d1).
    { eapply err_method_linked; [|exact L|exact E]. intros. eapply img_add_error_step. eassumption. }
    destruct (err_method_contents V _ _ _ (img_add_error_spec V quad track n) h d a h1 d1 L E) as (A1 & A2 & A3 & A4 & A5 & A6).
    assert (Own1 : OwnHeaders V h1 d1).
    { intros k1 k2 H1 H2 Q. change (im_hdr HErr (img h1 k1) = im_hdr HErr (img h1 k2)) in Q. rewrite !A4 in Q.
      rewrite A1 in H1, H2. apply Own; assumption. }
    specialize (A2 i). rewrite Hb in A2. destruct A2 as (e & E1 & E2).
    destruct b as [|l0 rest]; [congruence|]. cbn [add_term] in E2.
    assert (Hk1 : nth_error (ds_frames d1) i = Some k) by (rewrite A1; exact Hk).
    rewrite (IH h1 d1 h' d' L1 Own1 H i k _ Hk1 E2 ltac:(discriminate) m Hm).
    change (im_errh (img h1 k)) with (im_hdr HErr (img h1 k)). rewrite A4. cbn [im_hdr].
    rewrite (A6 Own i k (l0 :: rest) Hk Hb).
    rewrite (add_cards_layer track n (l0 :: rest) _ m Hm ltac:(discriminate)).
    rewrite List.app_length. cbn [List.length].
    destruct track; cbn [andb List.length].
    + assert (Q : forall n, (S n + 1 = S (S n))%nat) by (intros; lia). rewrite !Q. unfold layer in *.
      destruct (Nat.ltb_spec (S (S (List.length rest))) m) as [Hlt|Hge].
      * assert (Nat.ltb (S (List.length rest)) m = true) as -> by (apply Nat.ltb_lt; lia).
        destruct (Nat.eqb_spec m (S (S (List.length rest)))); [lia|].
        replace (m - 1 - S (List.length rest))%nat with (S (m - 1 - S (S (List.length rest)))) by lia.
        cbn [nth_error]. reflexivity.
      * destruct (Nat.eqb_spec m (S (S (List.length rest)))) as [->|N].
        -- replace (Nat.ltb (S (List.length rest)) (S (S (List.length rest)))) with true by (symmetry; apply Nat.ltb_lt; lia).
           replace (S (S (List.length rest)) - 1 - S (List.length rest))%nat with 0%nat by lia. reflexivity.
        -- assert (Nat.ltb (S (List.length rest)) m = false) as -> by (apply Nat.ltb_ge; lia). reflexivity.
    + reflexivity.
Qed.

(** ** Order independence for a commuting [quad] *)
Hypothesis quad_swap : forall a b c, quad (quad a b) c = quad (quad a c) b.

Lemma map2_swap : forall (l a b : list V), map2 quad (map2 quad l a) b = map2 quad (map2 quad l b) a.
Proof.
  unfold map2. induction l as [|x l IH]; intros [|y a] [|z b]; cbn; try reflexivity.
  rewrite quad_swap, IH. reflexivity.
Qed.

Lemma fold_map2_perm : forall es es', Permutation es es' -> forall l, fold_left (map2 quad) es l = fold_left (map2 quad) es' l.
Proof.
  induction 1; intro l0; cbn [fold_left].
  - reflexivity.
  - apply IHPermutation.
  - rewrite map2_swap. reflexivity.
  - rewrite IHPermutation1. apply IHPermutation2.
Qed.

Lemma Forall2_perm {A B} (P : A -> B -> Prop) : (forall a b b', P a b -> P a b' -> b = b') ->
  forall ts ts', Permutation ts ts' -> forall es es', Forall2 P ts es -> Forall2 P ts' es' -> Permutation es es'.
Proof.
  intros Fun ts ts' Hp. assert (G : forall es, Forall2 P ts es -> exists es', Forall2 P ts' es' /\ Permutation es es').
  { induction Hp as [|x l l' Hp IH|x y l|l l' l'' Hp1 IH1 Hp2 IH2]; intros es Hf.
    - inversion Hf. exists []. auto.
    - inversion Hf as [|? e ? es0 H1 H2]; subst. destruct (IH _ H2) as (es' & H3 & H4). exists (e :: es'). split; constructor; assumption.
    - inversion Hf as [|? e ? es0 H1 H2]; subst. inversion H2 as [|? e2 ? es2 H3 H4]; subst.
      exists (e2 :: e :: es2). split; [repeat constructor; assumption|apply perm_swap].
    - destruct (IH1 _ Hf) as (e1 & H1 & H2). destruct (IH2 _ H1) as (e2 & H3 & H4). exists e2. split; [exact H3|]. eapply perm_trans; eassumption. }
  intros es es' H1 H2. destruct (G es H1) as (es2 & H3 & H4).
  assert (es2 = es') as ->; [|exact H4]. clear - Fun H2 H3. revert es2 H3.
  induction H2 as [|t e ts es Ht Hts IH]; intros es2 H3; inversion H3 as [|? e' ? es3 Q1 Q2]; subst; [reflexivity|].
  rewrite (Fun _ _ _ Ht Q1). f_equal. apply IH. exact Q2.
Qed.

Lemma add_run_order track h d ts ts' h1 d1 h2 d2 :
  Linked V h d -> Permutation ts ts' ->
  add_run V quad track h d ts = (h1, d1, None) -> add_run V quad track h d ts' = (h2, d2, None) ->
  forall i p, nth_error (buf h (cube FErr d)) i <> Some [] ->
    cube_pixel V h1 d1 FErr i 0 p = cube_pixel V h2 d2 FErr i 0 p.
Proof.
  intros L Hp H1 H2 i p Hne. unfold cube_pixel.
  pose proof (add_run_linked track ts h d h1 d1 L H1) as (_ & N1 & _).
  pose proof (add_run_linked track ts' h d h2 d2 L H2) as (_ & N2 & _).
  destruct (add_run_contents track ts h d h1 d1 L H1) as (F1 & _ & C1 & _).
  destruct (add_run_contents track ts' h d h2 d2 L H2) as (F2 & _ & C2 & _).
  destruct (nth_error (buf h (cube FErr d)) i) as [[|l0 rest]|] eqn:E.
  - exfalso. apply Hne. reflexivity.
  - destruct (C1 i l0 rest E) as (es & A1 & A2). destruct (C2 i l0 rest E) as (es' & B1 & B2).
    rewrite A2, B2. cbn [List.app nth_error].
    rewrite (fold_map2_perm es es'); [reflexivity|].
    eapply Forall2_perm; [|exact Hp|exact A1|exact B1]. cbn. intros. congruence.
  - destruct L as (_ & N & _). apply nth_error_None in E. rewrite N in E.
    assert (nth_error (buf h1 (cube FErr d1)) i = None) as -> by (apply nth_error_None; rewrite N1, F1; exact E).
    assert (nth_error (buf h2 (cube FErr d2)) i = None) as -> by (apply nth_error_None; rewrite N2, F2; exact E).
    reflexivity.
Qed.
End P.

(** ** Real errors *)
Lemma quadR_sq a b : (quadR a b ^ 2 = a ^ 2 + b ^ 2)%R.
Proof. unfold quadR. rewrite pow2_sqrt; [reflexivity|]. pose proof (pow2_ge_0 a). pose proof (pow2_ge_0 b). lra. Qed.

Lemma quadR_swap a b c : quadR (quadR a b) c = quadR (quadR a c) b.
Proof. unfold quadR at 1 3. rewrite !quadR_sq. f_equal. lra. Qed.

Lemma quadR_nonneg a b : (0 <= quadR a b)%R.
Proof. apply sqrt_pos. Qed.

Lemma fold_quadR : forall xs x, (fold_left quadR xs x ^ 2 = x ^ 2 + sumsq xs)%R.
Proof.
  induction xs as [|y xs IH]; intro x; cbn [fold_left sumsq fold_right]; [lra|].
  fold (sumsq xs). rewrite IH, quadR_sq. lra.
Qed.

Lemma fold_quadR_nonneg : forall xs x, (0 <= x)%R -> (0 <= fold_left quadR xs x)%R.
Proof. induction xs as [|y xs IH]; intros x Hx; cbn; [exact Hx|]. apply IH. apply quadR_nonneg. Qed.

Lemma nth_map2 {A B C} (f : A -> B -> C) : forall a b p,
  nth_error (map2 f a b) p = match nth_error a p, nth_error b p with Some x, Some y => Some (f x y) | _, _ => None end.
Proof.
  unfold map2. induction a as [|x a IH]; intros [|y b] [|p]; cbn; try reflexivity.
  - destruct (nth_error a p); reflexivity.
  - apply IH.
Qed.

Lemma fold_map2_pixel : forall es l p x xs,
  nth_error l p = Some x -> Forall2 (fun e y => nth_error e p = Some y) es xs ->
  nth_error (fold_left (map2 quadR) es l) p = Some (fold_left quadR xs x).
Proof.
  induction es as [|e es IH]; intros l p x xs Hl H; inversion H as [|? y ? ys H1 H2]; subst; cbn [fold_left]; [exact Hl|].
  apply IH; [|exact H2]. rewrite nth_map2, Hl, H1. reflexivity.
Qed.

(** The total error after any sequence of calls. *)
Lemma add_run_quadrature track ts (h : heap R) d h' d' :
  Linked R h d -> add_run R quadR track h d ts = (h', d', None) ->
  forall i p x xs, cube_pixel R h d FErr i 0 p = Some x ->
    Forall2 (fun t y => exists e, err_for R (snd t) i = Some e /\ nth_error e p = Some y) ts xs ->
    exists x', cube_pixel R h' d' FErr i 0 p = Some x' /\ (x' ^ 2 = x ^ 2 + sumsq xs)%R
               /\ ((0 <= x)%R -> (0 <= x')%R).
Proof.
  intros L H i p x xs Hx Hts. destruct (add_run_contents R quadR track ts h d h' d' L H) as (_ & _ & C & _).
  unfold cube_pixel in Hx. destruct (nth_error (buf R h (cube FErr d)) i) as [[|l0 rest]|] eqn:E; try discriminate.
  cbn [nth_error] in Hx. destruct (C i l0 rest E) as (es & A1 & A2).
  assert (F : Forall2 (fun e y => nth_error e p = Some y) es xs).
  { clear - A1 Hts. revert xs Hts. induction A1 as [|t e ts es Q Qs IH]; intros xs Hts; inversion Hts as [|? y ? ys W1 W2]; subst; constructor.
    - destruct W1 as (e' & W & W'). congruence.
    - apply IH. exact W2. }
  exists (fold_left quadR xs x). unfold cube_pixel. rewrite A2. cbn [List.app nth_error].
  split; [apply fold_map2_pixel; assumption|]. split; [apply fold_quadR|]. apply fold_quadR_nonneg.
Qed.

(** With tracking the added terms follow unchanged; without, the layers keep their number. *)
Lemma Forall2_len {A B} (P : A -> B -> Prop) l l' : Forall2 P l l' -> List.length l = List.length l'.
Proof. induction 1; cbn; congruence. Qed.

Lemma add_run_layers (V : Type) (quad : V -> V -> V) track ts (h : heap V) d h' d' :
  Linked V h d -> add_run V quad track h d ts = (h', d', None) ->
  forall i b, nth_error (buf V h (cube FErr d)) i = Some b -> b <> [] ->
  exists b', nth_error (buf V h' (cube FErr d')) i = Some b'
    /\ List.length b' = (List.length b + (if track then List.length ts else 0))%nat
    /\ (forall j, (0 < j < List.length b)%nat -> nth_error b' j = nth_error b j)
    /\ (track = true -> forall j t, nth_error ts j = Some t -> nth_error b' (List.length b + j) = err_for V (snd t) i).
Proof.
  intros L H i b Hb Hne. destruct (add_run_contents V quad track ts h d h' d' L H) as (_ & _ & C & _).
  destruct b as [|l0 rest]; [congruence|]. destruct (C i l0 rest Hb) as (es & A1 & A2). unfold block, layer in *.
  eexists. split; [exact A2|].
  assert (Hl : List.length es = List.length ts) by (symmetry; eapply Forall2_len; exact A1).
  split; [|split].
  - rewrite List.app_length. destruct track; cbn; lia.
  - intros [|j] Hj; [lia|]. cbn [List.length] in Hj. rewrite nth_error_app1 by (cbn; lia). reflexivity.
  - intros -> j t Ht. rewrite nth_error_app2 by (cbn; lia). cbn [List.length].
    replace (S (List.length rest) + j - S (List.length rest))%nat with j by lia.
    clear - A1 Ht. revert j Ht. induction A1 as [|t0 e ts es Q Qs IH]; intros [|j] Ht; cbn in *; try discriminate.
    + congruence.
    + apply IH. exact Ht.
Qed.
