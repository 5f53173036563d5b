From Coq Require Import List Arith Bool String Ascii NArith ZArith Reals Sorted Permutation Lia Lra.
From Verif Require Import Base BaseProofs DatasetModel DatasetSpec DatasetProofs DatasetSliceProofs SplitModel SplitProofs
  CombineModel CombineSpec.
Import ListNotations.
Local Open Scope list_scope.

(** ** Parent records *)
Lemma parents_from_spec file : forall n j,
  match parents_from file j n with
  | Ok l => List.length l = n /\ forall k, (k < n)%nat -> file (j + k)%nat = nth_error l k
  | Raise x => x = KeyError /\ exists k, (k < n)%nat /\ file (j + k)%nat = None
  end.
Proof.
  induction n as [|n IH]; intro j; cbn [parents_from].
  - split; [reflexivity|]. intros k Hk. lia.
  - destruct (file j) as [s|] eqn:E.
    + specialize (IH (S j)). destruct (parents_from file (S j) n) as [t|x]; cbn [bind].
      * destruct IH as [L F]. split; [cbn; lia|]. intros [|k] Hk; cbn [nth_error].
        -- rewrite Nat.add_0_r. exact E.
        -- rewrite <- F by lia. f_equal. lia.
      * destruct IH as (-> & k & Hk & F). split; [reflexivity|]. exists (S k). split; [lia|]. rewrite <- F. f_equal. lia.
    + split; [reflexivity|]. exists 0%nat. rewrite Nat.add_0_r. split; [lia|exact E].
Qed.

Lemma all_parents_spec : forall imgs,
  match all_parents imgs with
  | Ok l => (forall m, In m imgs -> complete m)
            /\ forall s, In s l <-> exists m, In m imgs /\ (s = p_name m \/ recorded m s)
  | Raise x => x = KeyError /\ exists m, In m imgs /\ ~ complete m
  end.
Proof.
  induction imgs as [|m t IH]; cbn [all_parents].
  - split; [intros m []|]. intro s. split; [intros []|]. intros (m & [] & _).
  - set (P := match p_nfile m with None => Ok [] | Some n => parents_from (p_file m) 0 n end).
    assert (HP : match P with
                 | Ok l => complete m /\ forall s, In s l <-> recorded m s
                 | Raise x => x = KeyError /\ ~ complete m end).
    { unfold P. destruct (p_nfile m) as [n|] eqn:E.
      - pose proof (parents_from_spec (p_file m) n 0) as Q. destruct (parents_from (p_file m) 0 n) as [l|x].
        + destruct Q as [L F]. cbn [Nat.add] in F. split.
          * intros n' j Hn Hj. rewrite E in Hn. injection Hn as <-. rewrite (F j Hj). apply nth_error_Some. lia.
          * intro s. split.
            -- intro Hs. apply In_nth_error in Hs. destruct Hs as [j Hj].
               assert (j < n)%nat by (rewrite <- L; apply nth_error_Some; congruence).
               exists n, j. split; [exact E|]. split; [assumption|]. rewrite F by assumption. exact Hj.
            -- intros (n' & j & Hn & Hj & Hf). rewrite E in Hn. injection Hn as <-. rewrite (F j Hj) in Hf. eapply nth_error_In. exact Hf.
        + destruct Q as (-> & k & Hk & F). split; [reflexivity|]. intro Q. apply (Q n k E Hk). exact F.
      - split; [intros n' j Hn; congruence|]. intro s. split; [intros []|]. intros (n' & j & Hn & _). congruence. }
    destruct P as [ps|x]; cbn [bind].
    + destruct HP as [C R]. destruct (all_parents t) as [r|x]; cbn [bind].
      * destruct IH as [IC IR]. split.
        -- intros m' [<-|Hm']; [exact C|apply IC; exact Hm'].
        -- intro s. cbn [In]. rewrite in_app_iff, R, IR. split.
           ++ intros [<-|[Q|(m' & Hm' & Q)]].
              ** exists m. auto.
              ** exists m. auto.
              ** exists m'. auto.
           ++ intros (m' & [<-|Hm'] & Q).
              ** destruct Q as [->|Q]; auto.
              ** right. right. exists m'. auto.
      * destruct IH as (-> & m' & Hm' & Q). split; [reflexivity|]. exists m'. split; [right; exact Hm'|exact Q].
    + destruct HP as [-> Q]. split; [reflexivity|]. exists m. split; [left; reflexivity|exact Q].
Qed.

Lemma record_parents_spec order m imgs : lists_set order ->
  match record_parents order m imgs with
  | Ok m' => (forall x, In x imgs -> complete x)
             /\ complete m' /\ no_repeat m'
             /\ (forall s, recorded m' s <-> exists x, In x imgs /\ (s = p_name x \/ recorded x s))
             /\ p_name m' = p_name m /\ p_numfr m' = p_numfr m /\ p_pri m' = p_pri m /\ p_ext m' = p_ext m
             /\ p_errh m' = p_errh m /\ p_dqh m' = p_dqh m
  | Raise x => x = KeyError /\ exists y, In y imgs /\ ~ complete y
  end.
Proof.
  intro LS. unfold record_parents. pose proof (all_parents_spec imgs) as A.
  destruct (all_parents imgs) as [names|x]; cbn [bind]; [|exact A]. destruct A as [A1 A2].
  destruct (LS names) as [N E]. set (l := order names) in *.
  assert (F : forall j, (j < List.length l)%nat -> (match nth_error l j with Some s => Some s | None => p_file m j end) = nth_error l j).
  { intros j Hj. destruct (nth_error l j) eqn:Q; [reflexivity|]. apply nth_error_None in Q. lia. }
  split; [exact A1|]. split; [|split; [|split; [|repeat split]]].
  - intros n j Hn Hj. cbn in *. injection Hn as <-. rewrite (F j Hj). apply nth_error_Some. exact Hj.
  - intros n j k Hn Hj Hk Q. cbn in *. injection Hn as <-. rewrite (F j Hj), (F k Hk) in Q.
    apply (proj1 (NoDup_nth_error l) N); assumption.
  - intro s. rewrite <- A2, <- E. split.
    + intros (n & j & Hn & Hj & Hf). cbn in *. injection Hn as <-. rewrite (F j Hj) in Hf. eapply nth_error_In. exact Hf.
    + intro Hs. apply In_nth_error in Hs. destruct Hs as [j Hj].
      assert (j < List.length l)%nat by (apply nth_error_Some; congruence).
      exists (List.length l), j. cbn. split; [reflexivity|]. split; [assumption|]. rewrite F by assumption. exact Hj.
Qed.

(** *** Trees *)
Section TreeInd.
Variable P : tree -> Prop.
Hypothesis HR : forall m, P (Raw m).
Hypothesis HN : forall self ts, Forall P ts -> P (Product self ts).
Fixpoint tree_ind' (t : tree) : P t :=
  match t with
  | Raw m => HR m
  | Product self ts => HN self ts ((fix go l : Forall P l := match l with [] => Forall_nil P | x :: r => Forall_cons x (tree_ind' x) (go r) end) ts)
  end.
End TreeInd.

Lemma make_product order self ts : make order (Product self ts) =
  do ms <- (fix go l := match l with [] => Ok [] | x :: r => do a <- make order x; do b <- go r; Ok (a :: b) end) ts;
  record_parents order self ms.
Proof. reflexivity. Qed.

Lemma make_list order : forall ts ms,
  (fix go l := match l with [] => Ok [] | x :: r => do a <- make order x; do b <- go r; Ok (a :: b) end) ts = Ok ms ->
  List.length ms = List.length ts /\ forall i t, nth_error ts i = Some t -> exists m, nth_error ms i = Some m /\ make order t = Ok m.
Proof.
  induction ts as [|t ts IH]; intros ms H.
  - injection H as <-. split; [reflexivity|]. intros [|i] t Q; discriminate.
  - destruct (make order t) as [a|] eqn:E; cbn [bind] in H; [|discriminate].
    destruct ((fix go l := match l with [] => Ok [] | x :: r => do a <- make order x; do b <- go r; Ok (a :: b) end) ts) as [b|] eqn:E2; cbn [bind] in H; [|discriminate].
    injection H as <-. destruct (IH b eq_refl) as [L F]. split; [cbn; congruence|].
    intros [|i] t' Q; cbn in Q |- *; [injection Q as <-; eauto|apply F; exact Q].
Qed.

Lemma make_name order t m : lists_set order -> make order t = Ok m -> p_name m = root_name t.
Proof.
  intros LS H. destruct t as [m0|self ts]; [injection H as <-; reflexivity|].
  rewrite make_product in H. destruct (_ ts) as [ms|]; cbn [bind] in H; [|discriminate].
  pose proof (record_parents_spec order self ms LS) as Q. rewrite H in Q. apply Q.
Qed.

Lemma make_records order : lists_set order -> forall t m, make order t = Ok m ->
  (forall s, recorded m s <-> below t s) /\ (match t with Raw _ => True | Product _ _ => complete m /\ no_repeat m end).
Proof.
  intro LS. apply (tree_ind' (fun t => forall m, make order t = Ok m -> (forall s, recorded m s <-> below t s) /\ (match t with Raw _ => True | Product _ _ => complete m /\ no_repeat m end))).
  - intros m0 m H. injection H as <-. split; [|exact I]. intro s. split; [apply below_raw|]. intro B. inversion B. assumption.
  - intros self ts IH m H. rewrite make_product in H.
    destruct ((fix go l := match l with [] => Ok [] | x :: r => do a <- make order x; do b <- go r; Ok (a :: b) end) ts) as [ms|] eqn:E; cbn [bind] in H; [|discriminate].
    destruct (make_list order ts ms E) as [L F].
    pose proof (record_parents_spec order self ms LS) as Q. rewrite H in Q. destruct Q as (Q1 & Q2 & Q3 & Q4 & _).
    split; [|split; assumption]. rewrite Forall_forall in IH. intro s. rewrite Q4. split.
    + intros (x & Hx & D). apply In_nth_error in Hx. destruct Hx as [i Hi].
      destruct (nth_error ts i) as [t|] eqn:Et.
      * destruct (F i t Et) as (m' & Hm' & Mk). rewrite Hi in Hm'. injection Hm' as <-.
        assert (In t ts) as Hin by (eapply nth_error_In; exact Et). destruct D as [->|D].
        -- rewrite (make_name order t x LS Mk). apply below_child. exact Hin.
        -- apply (below_deeper self ts t); [exact Hin|]. apply (proj1 (IH t Hin x Mk)). exact D.
      * apply nth_error_None in Et. assert (i < List.length ms)%nat by (apply nth_error_Some; congruence). lia.
    + intro B. inversion B as [self0 ts0 t Hin|self0 ts0 t s0 Hin Bt|]; subst.
      * pose proof Hin as Hin2. apply In_nth_error in Hin2. destruct Hin2 as [i Hi]. destruct (F i t Hi) as (m' & Hm' & Mk).
        exists m'. split; [eapply nth_error_In; exact Hm'|]. left. symmetry. apply (make_name order t m' LS Mk).
      * pose proof Hin as Hin2. apply In_nth_error in Hin2. destruct Hin2 as [i Hi]. destruct (F i t Hi) as (m' & Hm' & Mk).
        exists m'. split; [eapply nth_error_In; exact Hm'|]. right. apply (proj1 (IH t Hin m' Mk)). exact Bt.
Qed.

(** Making a tree fails only because a raw frame announces a FILE card it does
    not have. *)
Lemma make_total order : lists_set order -> forall t, raw_complete t ->
  exists m, make order t = Ok m /\ complete m.
Proof.
  intro LS. apply (tree_ind' (fun t => raw_complete t -> exists m, make order t = Ok m /\ complete m)).
  - intros m C. exists m. split; [reflexivity|exact C].
  - intros self ts IH C. cbn [raw_complete] in C.
    assert (Q : exists ms, (fix go l := match l with [] => Ok [] | x :: r => do a <- make order x; do b <- go r; Ok (a :: b) end) ts = Ok ms
                 /\ forall m, In m ms -> complete m).
    { clear self. induction ts as [|t ts IHl].
      - exists []. split; [reflexivity|intros m []].
      - inversion IH as [|t0 ts0 Ht Hts]; subst. destruct C as [C1 C2].
        destruct (Ht C1) as (a & -> & Ca). cbn [bind]. destruct (IHl Hts C2) as (b & -> & Cb). cbn [bind].
        exists (a :: b). split; [reflexivity|]. intros m [<-|Hm]; auto. }
    destruct Q as (ms & E & Cm). rewrite make_product, E. cbn [bind].
    pose proof (record_parents_spec order self ms LS) as R. destruct (record_parents order self ms) as [m|x].
    + exists m. split; [reflexivity|apply R].
    + destruct R as (_ & y & Hy & Ny). exfalso. apply Ny. apply Cm. exact Hy.
Qed.

(** ** Combining images *)
Local Open Scope R_scope.

Lemma rinsert_perm x l : Permutation (rinsert x l) (x :: l).
Proof.
  induction l as [|y t IH]; cbn; [constructor; constructor|].
  destruct (Rle_dec x y); [reflexivity|]. rewrite IH. apply perm_swap.
Qed.
Lemma rsort_perm l : Permutation (rsort l) l.
Proof. induction l as [|x t IH]; cbn; [constructor|]. rewrite rinsert_perm. constructor. exact IH. Qed.

Lemma rinsert_sorted x l : StronglySorted Rle l -> StronglySorted Rle (rinsert x l).
Proof.
  induction 1 as [|y t S IH F]; cbn; [repeat constructor|].
  destruct (Rle_dec x y) as [H|H].
  - constructor; [constructor; assumption|]. constructor; [exact H|].
    rewrite Forall_forall in *. intros z Hz. specialize (F z Hz). lra.
  - constructor; [exact IH|]. rewrite Forall_forall in *. intros z Hz.
    apply (Permutation_in z (rinsert_perm x t)) in Hz. destruct Hz as [<-|Hz]; [lra|apply F; exact Hz].
Qed.
Lemma rsort_sorted l : StronglySorted Rle (rsort l).
Proof. induction l as [|x t IH]; cbn; [constructor|]. apply rinsert_sorted. exact IH. Qed.

Lemma nanmean_spec l : match nanmean l with Some m => is_mean (somes l) m | None => somes l = [] end.
Proof.
  unfold nanmean. destruct (somes l) as [|x g] eqn:E; [reflexivity|].
  split; [discriminate|]. unfold rsum. field. apply not_0_INR. discriminate.
Qed.

Lemma nanmedian_spec l : match nanmedian l with Some m => is_median (somes l) m | None => somes l = [] end.
Proof.
  unfold nanmedian. set (s := rsort (somes l)). pose proof (rsort_perm (somes l)) as P. pose proof (rsort_sorted (somes l)) as St.
  fold s in P, St. pose proof (Permutation_length P) as L. cbv zeta.
  set (n := List.length s) in *.
  destruct (Nat.eq_dec n 0) as [Z|NZ].
  { rewrite Z. cbn. assert (s = []) as -> by (destruct s; [reflexivity|discriminate]). cbn.
    apply Permutation_nil in P. exact P. }
  destruct (nth_error s (n / 2)) as [hi|] eqn:E1.
  2:{ apply nth_error_None in E1. fold n in E1. pose proof (Nat.div_lt n 2 ltac:(lia) ltac:(lia)). lia. }
  destruct (nth_error s (n / 2 - 1)) as [lo|] eqn:E2.
  2:{ apply nth_error_None in E2. fold n in E2. pose proof (Nat.div_lt n 2 ltac:(lia) ltac:(lia)). lia. }
  exists s. split; [exact St|]. split; [exact P|].
  destruct (Nat.even n) eqn:Ev.
  - left. apply Nat.even_spec in Ev. destruct Ev as [c Hc]. assert (D : (n / 2 = c)%nat) by (rewrite Hc, Nat.mul_comm; apply Nat.div_mul; lia).
    rewrite D in *. exists (c - 1)%nat, lo, hi. split; [lia|]. split; [exact E2|]. split; [|reflexivity].
    replace (S (c - 1)) with c by lia. exact E1.
  - right. assert (Nat.odd n = true) as Od by (rewrite <- Nat.negb_even, Ev; reflexivity).
    apply Nat.odd_spec in Od. destruct Od as [c Hc].
    assert (D : (n / 2 = c)%nat) by (rewrite Hc; replace (2 * c + 1)%nat with (1 + c * 2)%nat by lia; rewrite Nat.div_add by lia; reflexivity).
    rewrite D in *. exists c. split; [lia|exact E1].
Qed.

(** The sorted permutation, hence the median, is unique. *)
Lemma sorted_perm_unique : forall a b, StronglySorted Rle a -> StronglySorted Rle b -> Permutation a b -> a = b.
Proof.
  induction a as [|x a IH]; intros b Sa Sb P.
  - apply Permutation_nil in P. congruence.
  - destruct b as [|y b]; [apply Permutation_sym, Permutation_nil in P; discriminate|].
    inversion Sa as [|x0 a0 Sa' Fa]; subst. inversion Sb as [|y0 b0 Sb' Fb]; subst.
    rewrite Forall_forall in Fa, Fb.
    assert (x = y).
    { assert (In y (x :: a)) as Hy by (apply (Permutation_in y (Permutation_sym P)); left; reflexivity).
      assert (In x (y :: b)) as Hx by (apply (Permutation_in x P); left; reflexivity).
      destruct Hy as [->|Hy]; [reflexivity|]. destruct Hx as [->|Hx]; [reflexivity|].
      specialize (Fa y Hy). specialize (Fb x Hx). lra. }
    subst y. f_equal. apply IH; [assumption|assumption|]. apply Permutation_cons_inv in P. exact P.
Qed.

Lemma is_median_unique l m m' : is_median l m -> is_median l m' -> m = m'.
Proof.
  intros (s & S & P & D) (s' & S' & P' & D').
  assert (s = s') as <- by (apply sorted_perm_unique; [assumption|assumption|]; rewrite P; symmetry; exact P').
  destruct D as [(k & a & b & L & A & B & ->)|(k & L & A)]; destruct D' as [(k' & a' & b' & L' & A' & B' & ->)|(k' & L' & A')];
    try lia; assert (k = k') by lia; subst k'; congruence.
Qed.

Lemma finite_somes l : finite l = somes l.
Proof. induction l as [|[x|] t IH]; cbn; [reflexivity|f_equal; exact IH|exact IH]. Qed.

Section Img.
Variable n : nat.
Variable data : nat -> nat -> val.
Variable err : nat -> nat -> nat -> val.
Variable dq : nat -> nat -> N.

Notation good_data := (good_data n data dq).
Notation good_err := (good_err n err dq).

Lemma ltb_eqb d : N.ltb 0 d = negb (N.eqb d 0).
Proof. destruct d; reflexivity. Qed.

Lemma masked_somes (x : nat -> val) p : forall idx,
  somes (map (fun i => if N.ltb 0 (dq i p) then None else x i) idx) = somes (map x (filter (fun i => N.eqb (dq i p) 0) idx)).
Proof.
  induction idx as [|i t IH]; cbn [map filter somes]; [reflexivity|]. rewrite ltb_eqb.
  destruct (N.eqb (dq i p) 0); cbn [negb map somes]; [|exact IH]. destruct (x i); [rewrite IH; reflexivity|exact IH].
Qed.

Lemma n_samples_good p : n_samples n dq p = List.length (good_idx n dq p).
Proof.
  unfold n_samples, good_idx, frames_idx. induction (seq 0 n) as [|i t IH]; cbn [fold_right filter]; [reflexivity|].
  rewrite IH, ltb_eqb. destruct (N.eqb (dq i p) 0); cbn; lia.
Qed.

Lemma somes_sq (x : nat -> val) : forall idx, somes (map (fun i => vmap (fun r => r * r) (x i)) idx) = map (fun r => r * r) (somes (map x idx)).
Proof. induction idx as [|i t IH]; cbn [map somes]; [reflexivity|]. destruct (x i); cbn [vmap somes map]; rewrite IH; reflexivity. Qed.

Lemma somes_vmap_masked l p : somes (map (fun i => vmap (fun x => x * x) (merr err dq i l p)) (frames_idx n)) = map (fun r => r * r) (good_err l p).
Proof.
  rewrite somes_sq. f_equal. unfold merr, CombineSpec.good_err, good_idx. rewrite finite_somes. apply (masked_somes (fun i => err i l p) p).
Qed.

Lemma collapse_lemma md l : match match md with Mean => nanmean l | Median => nanmedian l end with
  | Some m => collapsed md (somes l) m | None => somes l = [] end.
Proof. destruct md; [apply nanmean_spec|apply nanmedian_spec]. Qed.

(** General form (any NaN pattern). *)
Lemma data_collapse_spec md sc p :
  match data_collapse n data dq md sc p with
  | Some x => exists m, collapsed md (good_data p) m /\ x = m * scale_factor sc n
  | None => good_data p = []
  end.
Proof.
  unfold data_collapse.
  assert (E : somes (map (fun i => mdata data dq i p) (frames_idx n)) = good_data p).
  { unfold mdata, CombineSpec.good_data, good_idx. rewrite finite_somes. apply (masked_somes (fun i => data i p) p). }
  pose proof (collapse_lemma md (map (fun i => mdata data dq i p) (frames_idx n))) as C. rewrite E in C.
  set (v := match md with Mean => _ | Median => _ end) in *.
  destruct v as [m|].
  - unfold scale_by, scale_factor. destruct sc; cbn [vmap].
    + exists m. auto.
    + exists m. split; [exact C|ring].
  - unfold scale_by. destruct sc; exact C.
Qed.

Lemma rsum_sq_nonneg g : 0 <= rsum (map (fun r => r * r) g).
Proof. induction g as [|x g IH]; cbn; [lra|]. fold (rsum (map (fun r => r * r) g)). pose proof (Rle_0_sqr x). unfold Rsqr in *. lra. Qed.

Lemma err_collapse_spec md sc l p :
  match err_collapse n err dq md sc l p with
  | Some e => good_err l p <> [] /\ 0 <= e /\
      e * e * (INR (List.length (good_err l p)) * INR (List.length (good_idx n dq p)))
      = rsum (map (fun r => r * r) (good_err l p)) * (median_factor md * (scale_factor sc n * scale_factor sc n))
  | None => good_err l p = []
  end.
Proof.
  assert (EM : match err_mean n err dq l p with
    | Some e => good_err l p <> [] /\ 0 <= e /\
        e * e * (INR (List.length (good_err l p)) * INR (List.length (good_idx n dq p))) = rsum (map (fun r => r * r) (good_err l p))
    | None => good_err l p = [] end).
  { unfold err_mean. set (L := map (fun i => vmap (fun x => x * x) (merr err dq i l p)) (frames_idx n)).
    pose proof (nanmean_spec L) as NM. unfold L in NM at 2 3. rewrite somes_vmap_masked in NM.
    destruct (nanmean L) as [m|]; cbn [vmap].
    - destruct NM as [NE M]. rewrite map_length in M. set (g := good_err l p) in *.
      assert (NEg : g <> []) by (intro Q; apply NE; rewrite Q; reflexivity).
      rewrite n_samples_good. set (ng := List.length (good_idx n dq p)).
      assert (Hg : (0 < List.length g)%nat) by (destruct g; [congruence|cbn; lia]).
      assert (Hng : (0 < ng)%nat).
      { unfold ng. destruct (good_idx n dq p) eqn:E; [|cbn; lia]. exfalso. apply NEg. unfold g, good_err. rewrite E. reflexivity. }
      apply lt_INR in Hg, Hng. cbn [INR] in Hg, Hng.
      assert (Hm : 0 <= m).
      { pose proof (rsum_sq_nonneg g) as Q. unfold rsum in Q. rewrite <- M in Q.
        apply (Rmult_le_reg_r (INR (List.length g))); [exact Hg|]. lra. }
      pose proof (sqrt_pos m) as S1. pose proof (sqrt_lt_R0 (INR ng) Hng) as S2.
      split; [exact NEg|]. split.
      + apply Rmult_le_pos; [exact S1|]. left. apply Rinv_0_lt_compat. exact S2.
      + replace (sqrt m / sqrt (INR ng) * (sqrt m / sqrt (INR ng)) * (INR (List.length g) * INR ng))
          with ((sqrt m * sqrt m) * INR (List.length g) * (INR ng / (sqrt (INR ng) * sqrt (INR ng)))) by (field; lra).
        rewrite !sqrt_sqrt by lra. unfold rsum. rewrite <- M. field. lra.
    - destruct (good_err l p); [reflexivity|discriminate]. }
  unfold err_collapse.
  set (v := match md with Mean => _ | Median => _ end).
  assert (EV : match v with
    | Some e => good_err l p <> [] /\ 0 <= e /\
        e * e * (INR (List.length (good_err l p)) * INR (List.length (good_idx n dq p))) = rsum (map (fun r => r * r) (good_err l p)) * median_factor md
    | None => good_err l p = [] end).
  { unfold v. destruct md.
    - destruct (err_mean n err dq l p) as [e|]; [|exact EM]. destruct EM as (A & B & C). split; [exact A|]. split; [exact B|]. rewrite C. cbn. ring.
    - destruct (err_mean n err dq l p) as [e|]; cbn [vmap]; [|exact EM]. destruct EM as (A & B & C). split; [exact A|].
      assert (0 <= PI / 2) by (pose proof PI_RGT_0; lra).
      split; [apply Rmult_le_pos; [exact B|apply sqrt_pos]|].
      cbn [median_factor]. rewrite <- C.
      replace (e * sqrt (PI / 2) * (e * sqrt (PI / 2))) with (e * e * (sqrt (PI / 2) * sqrt (PI / 2))) by ring.
      rewrite sqrt_sqrt by assumption. ring. }
  clear EM. destruct v as [e|]; [|unfold scale_by; destruct sc; exact EV].
  destruct EV as (A & B & C). unfold scale_by, scale_factor. destruct sc; cbn [vmap].
  - split; [exact A|]. split; [apply Rmult_le_pos; [exact B|apply pos_INR]|].
    replace (e * INR n * (e * INR n) * (INR (List.length (good_err l p)) * INR (List.length (good_idx n dq p))))
      with (e * e * (INR (List.length (good_err l p)) * INR (List.length (good_idx n dq p))) * (INR n * INR n)) by ring.
    rewrite C. ring.
  - split; [exact A|]. split; [exact B|]. rewrite C. ring.
Qed.

(** *** DQ *)
Lemma dq_or_acc p : forall idx a b, N.testbit (fold_left (fun a i => N.lor a (dq i p)) idx a) b
  = (N.testbit a b || existsb (fun i => N.testbit (dq i p) b) idx)%bool.
Proof.
  induction idx as [|i t IH]; intros a b; cbn [fold_left existsb]; [rewrite orb_false_r; reflexivity|].
  rewrite IH, N.lor_spec, orb_assoc. reflexivity.
Qed.

Lemma dq_or_bits p b : N.testbit (dq_or n dq p) b = existsb (fun i => N.testbit (dq i p) b) (seq 0 n).
Proof. unfold dq_or, frames_idx. rewrite dq_or_acc. rewrite N.bits_0. reflexivity. Qed.

Lemma dq_or_zero p : dq_or n dq p = 0%N <-> forall i, (i < n)%nat -> dq i p = 0%N.
Proof.
  split.
  - intros H i Hi. apply N.bits_inj. intro b. rewrite N.bits_0.
    assert (Q : N.testbit (dq_or n dq p) b = false) by (rewrite H; apply N.bits_0).
    rewrite dq_or_bits in Q. destruct (N.testbit (dq i p) b) eqn:E; [|reflexivity].
    rewrite <- Q. symmetry. apply existsb_exists. exists i. split; [apply in_seq; lia|exact E].
  - intro H. apply N.bits_inj. intro b. rewrite N.bits_0, dq_or_bits.
    destruct (existsb (fun i => N.testbit (dq i p) b) (seq 0 n)) eqn:E; [|reflexivity].
    apply existsb_exists in E. destruct E as (i & Hi & Q). apply in_seq in Hi. rewrite H in Q by lia. rewrite N.bits_0 in Q. discriminate.
Qed.

Lemma dq_collapse_spec md sc p :
  dq_collapse n data dq md sc p = (if data_collapse n data dq md sc p then 0%N else dq_or n dq p).
Proof.
  unfold dq_collapse. destruct (data_collapse n data dq md sc p); [|reflexivity].
  rewrite ltb_eqb. destruct (N.eqb_spec (dq_or n dq p) 0) as [->|]; reflexivity.
Qed.

Lemma good_data_finite p : (forall i, (i < n)%nat -> dq i p = 0%N -> data i p <> None) ->
  exists vs, good_data p = vs /\ map Some vs = map (fun i => data i p) (good_idx n dq p).
Proof.
  intro F. unfold good_data. rewrite finite_somes. assert (G : forall i, In i (good_idx n dq p) -> data i p <> None).
  { intros i Hi. unfold good_idx in Hi. apply filter_In in Hi. destruct Hi as [Hs Hd]. apply in_seq in Hs. apply N.eqb_eq in Hd. apply F; [lia|exact Hd]. }
  eexists. split; [reflexivity|]. induction (good_idx n dq p) as [|i t IH]; cbn [map somes]; [reflexivity|].
  destruct (data i p) as [x|] eqn:E; [|exfalso; apply (G i (or_introl eq_refl) E)].
  cbn [map]. f_equal. apply IH. intros j Hj. apply G. right. exact Hj.
Qed.
End Img.

(** The combined image depends only on the DQ maps and the good samples. *)
Lemma collapse_congr n data data' err err' dq md sc p :
  (forall i, (i < n)%nat -> dq i p = 0%N -> data i p = data' i p /\ forall l, err i l p = err' i l p) ->
  data_collapse n data dq md sc p = data_collapse n data' dq md sc p
  /\ (forall l, err_collapse n err dq md sc l p = err_collapse n err' dq md sc l p)
  /\ dq_collapse n data dq md sc p = dq_collapse n data' dq md sc p.
Proof.
  intro H.
  assert (A : map (fun i => mdata data dq i p) (frames_idx n) = map (fun i => mdata data' dq i p) (frames_idx n)).
  { apply map_ext_in. intros i Hi. apply in_seq in Hi. unfold mdata. rewrite ltb_eqb.
    destruct (N.eqb_spec (dq i p) 0) as [E|E]; cbn [negb]; [|reflexivity]. apply (H i); [lia|exact E]. }
  assert (D : data_collapse n data dq md sc p = data_collapse n data' dq md sc p) by (unfold data_collapse; rewrite A; reflexivity).
  split; [exact D|]. split.
  - intro l. unfold err_collapse, err_mean.
    assert (B : map (fun i => vmap (fun x => x * x) (merr err dq i l p)) (frames_idx n) = map (fun i => vmap (fun x => x * x) (merr err' dq i l p)) (frames_idx n)).
    { apply map_ext_in. intros i Hi. apply in_seq in Hi. unfold merr. rewrite ltb_eqb.
      destruct (N.eqb_spec (dq i p) 0) as [E|E]; cbn [negb]; [|reflexivity]. f_equal. apply (H i); [lia|exact E]. }
    rewrite B. reflexivity.
  - rewrite !dq_collapse_spec, D. reflexivity.
Qed.

(** The statement used for the property: finite values at the good samples. *)
Lemma combine_pixel n data err dq md sc p :
  (forall i, (i < n)%nat -> dq i p = 0%N -> data i p <> None /\ forall l, err i l p <> None) ->
  match good_idx n dq p with
  | [] => data_collapse n data dq md sc p = None
          /\ (forall l, err_collapse n err dq md sc l p = None)
          /\ dq_collapse n data dq md sc p = dq_or n dq p
          /\ ((0 < n)%nat -> dq_collapse n data dq md sc p <> 0%N)
  | _ :: _ =>
      (exists vs m, map Some vs = map (fun i => data i p) (good_idx n dq p)
          /\ collapsed md vs m /\ data_collapse n data dq md sc p = Some (m * scale_factor sc n))
      /\ (forall l, exists es e, map Some es = map (fun i => err i l p) (good_idx n dq p)
          /\ err_collapse n err dq md sc l p = Some e /\ 0 <= e
          /\ e * e = rsum (map (fun r => r * r) es) / (INR (List.length es) * INR (List.length es)) * median_factor md * (scale_factor sc n * scale_factor sc n))
      /\ dq_collapse n data dq md sc p = 0%N
  end.
Proof.
  intro F.
  destruct (good_data_finite n data dq p) as (vs & Ev & Mv); [intros i Hi Hd; apply F; assumption|].
  pose proof (data_collapse_spec n data dq md sc p) as D. rewrite Ev in D.
  pose proof (dq_collapse_spec n data dq md sc p) as DQ.
  assert (Lv : List.length vs = List.length (good_idx n dq p)) by (rewrite <- (map_length Some vs), Mv, map_length; reflexivity).
  destruct (good_idx n dq p) as [|i0 t] eqn:G.
  - assert (Vn : vs = []) by (destruct vs; [reflexivity|discriminate]). rewrite Vn in *.
    destruct (data_collapse n data dq md sc p) as [x|] eqn:E.
    + destruct D as (m & C & _). exfalso. destruct md.
      * destruct C as [C _]. congruence.
      * destruct C as (s & _ & _ & [(k & a & b & L & _)|(k & L & _)]); cbn in L; lia.
    + split; [reflexivity|]. split; [|split; [exact DQ|]].
      * intro l. pose proof (err_collapse_spec n err dq md sc l p) as EC.
        destruct (err_collapse n err dq md sc l p); [|reflexivity]. destruct EC as [EC _]. exfalso. apply EC. unfold good_err. rewrite G. reflexivity.
      * intros Hn Q. rewrite DQ in Q. apply dq_or_zero with (i := 0%nat) in Q; [|exact Hn].
        assert (In 0%nat (good_idx n dq p)) as Hin by (unfold good_idx; apply filter_In; split; [apply in_seq; lia|rewrite Q; reflexivity]).
        rewrite G in Hin. destruct Hin.
  - rewrite <- G in *. destruct (data_collapse n data dq md sc p) as [x|] eqn:E.
    + destruct D as (m & C & ->). split; [exists vs, m; auto|]. split; [|exact DQ].
      intro l. destruct (good_data_finite n (fun i p => err i l p) dq p) as (es & Ee & Me).
      { intros i Hi Hd. apply F; assumption. }
      pose proof (err_collapse_spec n err dq md sc l p) as EC.
      assert (GE : good_err n err dq l p = es) by exact Ee. rewrite GE in EC.
      assert (Le : List.length es = List.length (good_idx n dq p)) by (rewrite <- (map_length Some es), Me, map_length; reflexivity).
      destruct (err_collapse n err dq md sc l p) as [e|] eqn:E2.
      * destruct EC as (NE & P & Q). exists es, e. split; [exact Me|]. split; [reflexivity|]. split; [exact P|].
        rewrite <- Le in Q. assert (0 < INR (List.length es)) by (apply (lt_INR 0); destruct es; [congruence|cbn; lia]).
        replace (e * e) with (e * e * (INR (List.length es) * INR (List.length es)) / (INR (List.length es) * INR (List.length es))) by (field; lra).
        rewrite Q. field. lra.
      * rewrite EC in Le. rewrite G in Le. discriminate.
    + rewrite D in Lv. rewrite G in Lv. discriminate.
Qed.

(** ** combine_subexposures *)
Lemma combine_groups_spec order g md sc frames : forall k i r,
  combine_groups order g md sc k i frames = Ok r ->
  List.length r = k /\ forall j, (j < k)%nat -> exists c,
    nth_error r j = Some c /\ combine_group order (Z.of_nat g) md sc (group g (i + j) frames) = Ok c.
Proof.
  induction k as [|k IH]; intros i r H; cbn [combine_groups] in H.
  - injection H as <-. split; [reflexivity|]. intros j Hj. lia.
  - assert (SG : slice (g * i) (g * (i + 1)) frames = group g i frames).
    { unfold slice, group. f_equal. rewrite Nat.mul_add_distr_l. lia. }
    rewrite SG in H. destruct (combine_group order (Z.of_nat g) md sc (group g i frames)) as [c|] eqn:E; cbn [bind] in H; [|discriminate].
    destruct (combine_groups order g md sc k (S i) frames) as [r'|] eqn:E2; cbn [bind] in H; [|discriminate]. injection H as <-.
    destruct (IH (S i) r' E2) as [L F]. split; [cbn; lia|]. intros [|j] Hj.
    + exists c. rewrite Nat.add_0_r. auto.
    + cbn [nth_error]. destruct (F j ltac:(lia)) as (c' & A & B). exists c'. split; [exact A|]. replace (i + S j)%nat with (S i + j)%nat by lia. exact B.
Qed.

Lemma nth_error_group {A} g k j (l : list A) : (j < g)%nat -> nth_error (group g k l) j = nth_error l (g * k + j).
Proof.
  intro Hj. unfold group. pose proof (nth_error_slice (g * k) (g * k + g) j l) as Q. unfold slice in Q.
  replace (g * k + g - g * k)%nat with g in Q by lia. apply Q. exact Hj.
Qed.

Lemma length_group {A} g k (l : list A) : (g * k + g <= List.length l)%nat -> List.length (group g k l) = g.
Proof. intro H. unfold group. rewrite firstn_length, skipn_length. lia. Qed.

Lemma last_some {A} (l : list A) : l <> [] -> last (map Some l) None = nth_error l (List.length l - 1).
Proof.
  induction l as [|x t IH]; intro H; [congruence|]. destruct t as [|y t]; [reflexivity|].
  change (last (map Some (x :: y :: t)) None) with (last (map Some (y :: t)) None). rewrite IH by discriminate.
  cbn [List.length]. replace (S (S (List.length t)) - 1)%nat with (S (List.length t)) by lia.
  replace (S (List.length t) - 1)%nat with (List.length t) by lia. reflexivity.
Qed.

Lemma collapse_ext n data data' err err' dq dq' md sc :
  (forall i, (i < n)%nat -> forall p, data i p = data' i p /\ dq i p = dq' i p /\ forall l, err i l p = err' i l p) ->
  (forall p, data_collapse n data dq md sc p = data_collapse n data' dq' md sc p)
  /\ (forall l p, err_collapse n err dq md sc l p = err_collapse n err' dq' md sc l p)
  /\ (forall p, dq_collapse n data dq md sc p = dq_collapse n data' dq' md sc p).
Proof.
  intro H.
  assert (A : forall p, map (fun i => mdata data dq i p) (frames_idx n) = map (fun i => mdata data' dq' i p) (frames_idx n)).
  { intro p. apply map_ext_in. intros i Hi. apply in_seq in Hi. unfold mdata. destruct (H i ltac:(lia) p) as (-> & -> & _). reflexivity. }
  assert (B : forall l p, map (fun i => vmap (fun x => x * x) (merr err dq i l p)) (frames_idx n) = map (fun i => vmap (fun x => x * x) (merr err' dq' i l p)) (frames_idx n)).
  { intros l p. apply map_ext_in. intros i Hi. apply in_seq in Hi. unfold merr. destruct (H i ltac:(lia) p) as (_ & -> & Q). rewrite Q. reflexivity. }
  assert (D : forall p, data_collapse n data dq md sc p = data_collapse n data' dq' md sc p) by (intro p; unfold data_collapse; rewrite A; reflexivity).
  assert (NS : forall p, n_samples n dq p = n_samples n dq' p).
  { intro p. rewrite !n_samples_good. unfold good_idx. f_equal. apply filter_ext_in. intros i Hi. apply in_seq in Hi.
    destruct (H i ltac:(lia) p) as (_ & -> & _). reflexivity. }
  split; [exact D|]. split.
  - intros l p. unfold err_collapse, err_mean. rewrite B, NS. reflexivity.
  - intro p. rewrite !dq_collapse_spec, D. destruct (data_collapse n data' dq' md sc p); [reflexivity|].
    apply N.bits_inj. intro b. rewrite !dq_or_bits.
    assert (E : forall idx, (forall i, In i idx -> (i < n)%nat) -> existsb (fun i => N.testbit (dq i p) b) idx = existsb (fun i => N.testbit (dq' i p) b) idx).
    { induction idx as [|i t IH]; intro Q; cbn; [reflexivity|]. destruct (H i (Q i (or_introl eq_refl)) p) as (_ & -> & _).
      rewrite IH by (intros j Hj; apply Q; right; exact Hj). reflexivity. }
    apply E. intros i Hi. apply in_seq in Hi. lia.
Qed.

Lemma hget_history_other key msg hd : key <> "HISTORY"%string -> hget key (hset "HISTORY" msg hd) = hget key hd.
Proof.
  intro N. unfold hset. rewrite String.eqb_refl. unfold hget. induction hd as [|c t IH]; cbn [List.app find].
  - cbn [fst]. destruct (String.eqb_spec "HISTORY" key); [congruence|reflexivity].
  - destruct (String.eqb (fst c) key); [reflexivity|exact IH].
Qed.

Lemma combine_group_spec order md sc g grp c history :
  lists_set order -> (0 < g)%nat -> List.length grp = g ->
  combine_group order (Z.of_nat g) md sc grp = Ok c ->
  combined_from order md sc g grp (add_history history c).
Proof.
  intros LS Hg L H. unfold combine_group in H. destruct grp as [|first t] eqn:Eg; [cbn in L; lia|]. rewrite <- Eg in *.
  rewrite last_some in H by congruence. rewrite L in H.
  destruct (nth_error grp (g - 1)) as [lst|] eqn:El; [|discriminate].
  set (data := fun i => match nth_error grp i with Some fr => c_data fr | None => (fun _ => None) end) in H.
  set (err := fun i => match nth_error grp i with Some fr => c_err fr | None => (fun _ _ => None) end) in H.
  set (dq := fun i => match nth_error grp i with Some fr => c_dq fr | None => (fun _ => 0%N) end) in H.
  pose proof (record_parents_spec order (set_numfr (Z.of_nat g) (p_name (c_hdr lst)) (c_hdr first)) (map c_hdr grp) LS) as R.
  cbv zeta in H.
  destruct (record_parents order (set_numfr (Z.of_nat g) (p_name (c_hdr lst)) (c_hdr first)) (map c_hdr grp)) as [hh|]; cbn [bind] in H; [|discriminate].
  injection H as <-. destruct R as (R1 & R2 & R3 & R4 & R5 & R6 & R7 & R8 & R9 & R10).
  exists first, lst. split; [rewrite Eg; reflexivity|]. split; [exact El|]. unfold add_history. cbn [c_hdr c_data c_err c_dq p_name p_numfr p_pri p_errh p_dqh p_ext p_nfile p_file].
  split; [|split; [|split; [|split; [|split; [|split; [|split; [|split]]]]]]].
  - intros data' err' dq' Hall.
    assert (Q : forall i, (i < g)%nat -> forall p, data i p = data' i p /\ dq i p = dq' i p /\ forall l, err i l p = err' i l p).
    { intros i Hi p. destruct (nth_error grp i) as [fr|] eqn:Ei; [|apply nth_error_None in Ei; lia].
      destruct (Hall i fr Ei) as (A & B & C). unfold data, err, dq. rewrite Ei, A, B, C. auto. }
    destruct (collapse_ext g data data' err err' dq dq' md sc Q) as (X & Y & Z).
    split; [exact X|]. split; [exact Y|exact Z].
  - exact R5.
  - exact R6.
  - exact R7.
  - exact R9.
  - exact R10.
  - intros key Hk. rewrite hget_history_other by exact Hk. rewrite R8. reflexivity.
  - exact R3.
  - intro s. split.
    + intros Hs. assert (recorded hh s) as Hs' by exact Hs. apply R4 in Hs'. destruct Hs' as (x & Hx & D). apply in_map_iff in Hx. destruct Hx as (fr & <- & Hf). exists fr. auto.
    + intros (fr & Hf & D). assert (recorded hh s) as Hs' by (apply R4; exists (c_hdr fr); split; [apply in_map; exact Hf|exact D]). exact Hs'.
Qed.

Lemma combine_groups_raises order g md sc frames : (0 < g)%nat -> lists_set order -> forall k i,
  (g * (i + k) <= List.length frames)%nat ->
  match combine_groups order g md sc k i frames with
  | Ok _ => True
  | Raise x => x = KeyError /\ exists fr, In fr frames /\ ~ complete (c_hdr fr)
  end.
Proof.
  intros Hg LS. induction k as [|k IH]; intros i Hl; cbn [combine_groups]; [exact I|].
  assert (SG : slice (g * i) (g * (i + 1)) frames = group g i frames).
  { unfold slice, group. f_equal. rewrite Nat.mul_add_distr_l. lia. }
  rewrite SG. assert (Lg : List.length (group g i frames) = g) by (apply length_group; rewrite Nat.mul_add_distr_l, Nat.mul_succ_r in Hl; lia).
  unfold combine_group. set (grp := group g i frames) in *. destruct grp as [|f0 t] eqn:Eg; [cbn in Lg; lia|]. rewrite <- Eg in *.
  rewrite last_some by congruence. destruct (nth_error grp (List.length grp - 1)) as [lst|] eqn:El; [|apply nth_error_None in El; lia].
  cbv zeta. pose proof (record_parents_spec order (set_numfr (Z.of_nat g) (p_name (c_hdr lst)) (c_hdr f0)) (map c_hdr grp) LS) as R.
  destruct (record_parents order (set_numfr (Z.of_nat g) (p_name (c_hdr lst)) (c_hdr f0)) (map c_hdr grp)) as [hh|x]; cbn [bind].
  - specialize (IH (S i)). destruct (combine_groups order g md sc k (S i) frames); cbn [bind]; [exact I|]. apply IH. replace (S i + k)%nat with (i + S k)%nat by lia. exact Hl.
  - destruct R as (-> & y & Hy & Ny). split; [reflexivity|]. apply in_map_iff in Hy. destruct Hy as (fr & <- & Hf). exists fr. split; [|exact Ny].
    unfold grp, group in Hf. rewrite <- (firstn_skipn (g * i) frames). apply in_or_app. right.
    rewrite <- (firstn_skipn g (skipn (g * i) frames)). apply in_or_app. left. exact Hf.
Qed.

Lemma combine_subexposures_spec order history frames num collapse sc :
  lists_set order -> frames <> [] ->
  let n := List.length frames in
  let g := match num with None => Z.of_nat n | Some z => z end in
  match combine_subexposures order history frames num collapse sc with
  | Ok r => exists k md, (0 < Z.to_nat g)%nat /\ (0 < g)%Z /\ n = (k * Z.to_nat g)%nat /\ mode_of collapse = Some md
      /\ List.length r = k
      /\ forall j, (j < k)%nat -> exists c, nth_error r j = Some c /\ combined_from order md sc (Z.to_nat g) (group (Z.to_nat g) j frames) c
  | Raise x =>
      (x = PyException /\ g = 0%Z) \/
      (x = ValueError /\ (Z.modulo (Z.of_nat n) g <> 0%Z \/ mode_of collapse = None \/ (g < 0)%Z)) \/
      (x = KeyError /\ exists fr, In fr frames /\ ~ complete (c_hdr fr))
  end.
Proof.
  intros LS NE n g. unfold combine_subexposures. fold n g.
  destruct (Z.eqb_spec g 0) as [E0|N0]; [left; auto|].
  destruct (Z.eqb_spec (Z.of_nat n mod g) 0) as [Em|Nm]; cbn [negb]; [|right; left; auto].
  destruct (mode_of collapse) as [md|] eqn:EM; [|right; left; auto].
  assert (Hn : (0 < n)%nat) by (unfold n; destruct frames; [congruence|cbn; lia]).
  destruct (Z_lt_ge_dec g 0) as [Neg|Pos].
  { assert (Z.to_nat (Z.of_nat n / g) = 0)%nat as ->.
    { assert (Z.of_nat n / g < 0)%Z; [|lia]. apply Z.mod_divide in Em; [|exact N0]. destruct Em as [q Hq].
      rewrite Hq. rewrite Z.div_mul by exact N0. nia. }
    cbn. right. left. auto. }
  assert (Gp : (0 < g)%Z) by lia.
  assert (Hk : n = (Z.to_nat (Z.of_nat n / g) * Z.to_nat g)%nat).
  { apply Nat2Z.inj. rewrite Nat2Z.inj_mul. rewrite !Z2Nat.id by (try apply Z.div_pos; lia).
    rewrite Z.mul_comm. pose proof (Z.div_mod (Z.of_nat n) g N0). lia. }
  set (k := Z.to_nat (Z.of_nat n / g)) in *.
  assert (Hg : (0 < Z.to_nat g)%nat) by lia.
  assert (Kp : (0 < k)%nat) by (destruct k; lia).
  pose proof (combine_groups_raises order (Z.to_nat g) md sc frames Hg LS k 0) as CR.
  destruct (combine_groups order (Z.to_nat g) md sc k 0 frames) as [r|x] eqn:ER; cbn [bind].
  - destruct (combine_groups_spec order (Z.to_nat g) md sc frames k 0 r ER) as [L F].
    destruct r as [|c0 r0] eqn:Er; [cbn in L; lia|]. rewrite <- Er in *.
    exists k, md. split; [exact Hg|]. split; [exact Gp|]. split; [exact Hk|]. split; [reflexivity|]. rewrite map_length. split; [exact L|].
    intros j Hj. destruct (F j Hj) as (c & Hc & Cg). cbn [Nat.add] in Cg. exists (add_history history c). split.
    + rewrite nth_error_map, Hc. reflexivity.
    + apply combine_group_spec; [exact LS|exact Hg| |exact Cg]. apply length_group. fold n. nia.
  - right. right. apply CR. fold n. cbn [Nat.add]. lia.
Qed.

(** ** The input dataset *)
Lemma take_groups_same V d : forall gs (h : heap V) h' subs,
  Sliceable V h d -> (forall f, (cube f d < nbuf V h)%nat) -> Forall (@NoDup nat) gs ->
  take_groups V h d gs = Ok (h', subs) -> same_observations V h d h' d.
Proof.
  induction gs as [|g t IH]; intros h h' subs SL Cb ND H; cbn [take_groups] in H.
  - injection H as <- <-. repeat split.
  - destruct (getitem V h d g) as [[h1 s1]|] eqn:E; cbn [bind fst snd] in H; [|discriminate].
    destruct (take_groups V h1 d t) as [[h2 ss]|] eqn:E2; cbn [bind fst snd] in H; [|discriminate]. injection H as <- <-.
    inversion ND as [|g0 t0 Ng Nt]; subst g0 t0.
    destruct (getitem_step V h d g h1 s1 SL Ng E) as (L1 & SL1 & F1 & Len1 & B1 & Hh1 & I1 & Nb1 & Bf1).
    destruct (IH h1 h2 ss SL1) as (O1 & O2 & O3); [intro f; specialize (Cb f); lia|exact Nt|exact E2|].
    split; [|split].
    + intros f i l p. rewrite O1. unfold cube_pixel. rewrite Bf1 by apply Cb. reflexivity.
    + intros f i l p. rewrite O2. unfold frame_pixel. destruct (nth_error (ds_frames d) i) as [k|] eqn:Ek; [|reflexivity].
      pose proof (B1 f k (nth_error_In _ _ Ek)) as Q. unfold fblock, view_block in Q. cbv zeta. rewrite Q. reflexivity.
    + intros f i. rewrite O3. unfold frame_header. destruct (nth_error (ds_frames d) i) as [k|]; [|reflexivity].
      rewrite Hh1, I1. reflexivity.
Qed.

Lemma combine_input_same V d g k (h : heap V) h' subs :
  Linked V h d -> take_groups V h d (group_slices g k) = Ok (h', subs) -> same_observations V h d h' d.
Proof.
  intros L H. apply (take_groups_same V d (group_slices g k) h h' subs); [apply linked_sliceable; exact L|apply L| |exact H].
  unfold group_slices. rewrite Forall_forall. intros x Hx. apply in_map_iff in Hx. destruct Hx as (i & <- & _). apply seq_NoDup.
Qed.

(** ** The collapse keyword *)
Lemma lower_spells : forall s t, no_upper t -> (lower s = t <-> spells s t).
Proof.
  induction s as [|c s IH]; intros [|d t] N; cbn [lower].
  - split; [constructor|reflexivity].
  - split; [discriminate|intro H; inversion H].
  - split; [discriminate|intro H; inversion H].
  - destruct N as [Nd Nt]. unfold lower_ascii. cbv zeta.
    destruct (Nat.leb_spec 65 (nat_of_ascii c)) as [H1|H1]; destruct (Nat.leb_spec (nat_of_ascii c) 90) as [H2|H2]; cbn [andb].
    + split.
      * intro H. injection H as <- <-. apply spells_upper; [lia| |apply IH; [exact Nt|reflexivity]].
        apply nat_ascii_embedding. lia.
      * intro H. inversion H as [|c' s' t' S|c' d' s' t' U E S]; subst.
        -- exfalso. apply Nd. lia.
        -- f_equal; [|apply IH; assumption]. rewrite <- E. apply ascii_nat_embedding.
    + split.
      * intro H. injection H as <- <-. apply spells_same. apply IH; [exact Nt|reflexivity].
      * intro H. inversion H as [|c' s' t' S|c' d' s' t' U E S]; subst; [f_equal; apply IH; assumption|lia].
    + split.
      * intro H. injection H as <- <-. apply spells_same. apply IH; [exact Nt|reflexivity].
      * intro H. inversion H as [|c' s' t' S|c' d' s' t' U E S]; subst; [f_equal; apply IH; assumption|lia].
    + lia.
Qed.

Lemma mode_of_spells s : (mode_of s = Some Mean <-> spells s "mean") /\ (mode_of s = Some Median <-> spells s "median").
Proof.
  assert (N1 : no_upper "mean") by (cbn; lia). assert (N2 : no_upper "median") by (cbn; lia).
  rewrite <- (lower_spells s "mean" N1), <- (lower_spells s "median" N2). unfold mode_of.
  destruct (String.eqb_spec (lower s) "mean") as [E|E]; [split; split; congruence|].
  destruct (String.eqb_spec (lower s) "median") as [E2|E2]; split; split; congruence.
Qed.
