(** The non-linearity selection and the whole sorting. *)
From Coq Require Import List Arith Bool QArith ZArith String Sorted Permutation Lia Lqa.
From Verif Require Import Base DqModel SortModel SortSpec SortNameProofs SortRunProofs SortGroupProofs SortSeqProofs.
Import ListNotations.
Local Open Scope Z_scope.
Local Open Scope list_scope.
Notation row := (Z * Q * string)%type (only parsing).

Lemma nth_firstn' : forall A n (l : list A) k, nth_error (firstn n l) k = if (k <? n)%nat then nth_error l k else None.
Proof.
  intros A. induction n as [|n IH]; intros l k.
  - cbn [firstn]. destruct k; reflexivity.
  - destruct l as [|x l]; [cbn [firstn]; destruct k; destruct (_ <? S n)%nat; reflexivity|]. destruct k as [|k]; [reflexivity|]. cbn [firstn nth_error]. rewrite IH. reflexivity.
Qed.
Lemma nth_skipn' : forall A n (l : list A) k, nth_error (skipn n l) k = nth_error l (n + k).
Proof. intros A. induction n as [|n IH]; intros [|x l] k; try reflexivity; [destruct k; reflexivity|]. cbn. apply IH. Qed.
Lemma nslice_nth : forall A (l : list A) i j k, nth_error (nslice l i j) k = if (k <? j - i)%nat then nth_error l (i + k) else None.
Proof. intros. unfold nslice. rewrite nth_firstn', nth_skipn'. reflexivity. Qed.
Lemma nslice_len : forall A (l : list A) i j, (j <= List.length l)%nat -> List.length (nslice l i j) = (j - i)%nat.
Proof. intros. unfold nslice. rewrite firstn_length, skipn_length. lia. Qed.
Lemma nslice_snoc : forall A (l : list A) i j x, (i <= j)%nat -> nth_error l j = Some x -> nslice l i (S j) = nslice l i j ++ [x].
Proof.
  intros A l i j x L H. unfold nslice. replace (S j - i)%nat with (S (j - i)) by lia.
  assert (E : nth_error (skipn i l) (j - i) = Some x) by (rewrite nth_skipn'; replace (i + (j - i))%nat with j by lia; exact H).
  clear - E. set (m := skipn i l) in *. clearbody m. revert m E. induction (j - i)%nat as [|n IH]; intros [|y m] E; try discriminate E; cbn in E.
  - injection E as ->. reflexivity.
  - change (firstn (S (S n)) (y :: m)) with (y :: firstn (S n) m). rewrite (IH m E). reflexivity.
Qed.

Lemma drops_in : forall l i d, In d (drops i l) <-> exists k a b, d = (i + k)%nat /\ nth_error l k = Some a /\ nth_error l (S k) = Some b /\ (b < a)%Q.
Proof.
  induction l as [|a l IH]; intros i d.
  - split; [intros []|]. intros (k & a & b & _ & H & _). destruct k; discriminate H.
  - destruct l as [|b l].
    + split; [intros []|]. intros (k & x & y & _ & _ & H & _). destruct k; discriminate H.
    + change (drops i (a :: b :: l)) with (if qlt b a then i :: drops (S i) (b :: l) else drops (S i) (b :: l)).
      assert (X : In d (drops (S i) (b :: l)) <-> exists k x y, d = (i + S k)%nat /\ nth_error (a :: b :: l) (S k) = Some x /\ nth_error (a :: b :: l) (S (S k)) = Some y /\ (y < x)%Q).
      { rewrite IH. split; intros (k & x & y & E & H); exists k, x, y; (split; [lia|exact H]). }
      destruct (qlt b a) eqn:E.
      * apply qlt_iff in E. cbn [In]. rewrite X. split.
        -- intros [<-|(k & x & y & H)]; [exists 0%nat, a, b; repeat split; [lia|exact E]|exists (S k), x, y; exact H].
        -- intros ([|k] & x & y & H); [left; lia|right; exists k, x, y; exact H].
      * rewrite X. split; [intros (k & x & y & H); exists (S k), x, y; exact H|].
        intros ([|k] & x & y & D & H1 & H2 & H3); [|exists k, x, y; auto]. exfalso. cbn in H1, H2. injection H1 as <-. injection H2 as <-. apply qlt_iff in H3. congruence.
Qed.
Lemma drops_sorted : forall l i, StronglySorted lt (drops i l).
Proof.
  induction l as [|a l IH]; intros i; [constructor|]. destruct l as [|b l]; [constructor|].
  change (drops i (a :: b :: l)) with (if qlt b a then i :: drops (S i) (b :: l) else drops (S i) (b :: l)). destruct (qlt b a); [|apply IH].
  constructor; [apply IH|]. rewrite Forall_forall. intros d I. apply drops_in in I. destruct I as (k & _ & _ & -> & _). lia.
Qed.
Definition start (ds : list nat) (k : nat) : nat := match k with O => 0%nat | S k' => (nth k' ds 0 + 1)%nat end.
Lemma cand_nth : forall arr ds a k, nth_error (cand_lens arr a ds) k = option_map (candidate arr (match k with O => a | S k' => (nth k' ds 0 + 1)%nat end)) (nth_error ds k).
Proof.
  intros arr. induction ds as [|d ds IH]; intros a k; [destruct k; reflexivity|]. destruct k as [|k]; [reflexivity|]. cbn [cand_lens nth_error]. rewrite IH.
  destruct k; reflexivity.
Qed.

Section NL.
Variable s : list row.
Let arr := map rexp s.
Let ds := drops 0 arr.
Lemma arr_nth : forall i a, nth_error arr i = Some a <-> exists r, nth_error s i = Some r /\ rexp r = a.
Proof.
  intros i a. unfold arr. rewrite nth_error_map. destruct (nth_error s i) as [r|]; cbn; split.
  - intros H. injection H as <-. exists r. auto.
  - intros (r' & E & H). injection E as <-. congruence.
  - discriminate.
  - intros (r & E & _). discriminate E.
Qed.
Definition drop_at (d : nat) : Prop := exists a b, nth_error s d = Some a /\ nth_error s (S d) = Some b /\ (rexp b < rexp a)%Q.
Lemma ds_in : forall d, In d ds <-> drop_at d.
Proof.
  intros d. unfold ds. rewrite drops_in. split.
  - intros (k & a & b & -> & A & B & L). apply arr_nth in A, B. destruct A as (r & A & <-), B as (r' & B & <-). exists r, r'. auto.
  - intros (a & b & A & B & L). exists d, (rexp a), (rexp b). split; [reflexivity|]. split; [apply arr_nth; exists a; auto|]. split; [apply arr_nth; exists b; auto|exact L].
Qed.
Lemma ds_lt : forall i j a b, nth_error ds i = Some a -> nth_error ds j = Some b -> ((i < j)%nat <-> (a < b)%nat).
Proof.
  intros i j a b A B. pose proof (proj1 (SS_nth _ _ _) (drops_sorted arr 0)) as S. fold ds in S. split.
  - intros L. exact (S i j a b L A B).
  - intros L. destruct (Nat.lt_trichotomy i j) as [Q|[Q|Q]]; [exact Q|subst; assert (a = b) by congruence; lia|pose proof (S j i b a Q B A); lia].
Qed.
Lemma start_le : forall k d, nth_error ds k = Some d -> (start ds k <= d)%nat.
Proof.
  intros [|k] d H; cbn [start]; [lia|]. destruct (nth_error ds k) as [d'|] eqn:E.
  - rewrite (nth_error_nth _ _ _ E). assert (d' < d)%nat by (apply (ds_lt k (S k) d' d E H); lia). lia.
  - apply nth_error_None in E. assert (S k < List.length ds)%nat by (apply nth_error_Some; congruence). lia.
Qed.
Lemma start_drop : forall k d, nth_error ds k = Some d -> start ds k = 0%nat \/ exists i, start ds k = S i /\ drop_at i.
Proof.
  intros [|k] d H; cbn [start]; [left; reflexivity|]. right. destruct (nth_error ds k) as [d'|] eqn:E.
  - rewrite (nth_error_nth _ _ _ E). exists d'. split; [lia|]. apply ds_in. exact (nth_error_In _ _ E).
  - apply nth_error_None in E. assert (S k < List.length ds)%nat by (apply nth_error_Some; congruence). lia.
Qed.
Lemma start_no_drop : forall k d i, nth_error ds k = Some d -> (start ds k <= i < d)%nat -> ~ drop_at i.
Proof.
  intros k d i H R D. apply ds_in in D. apply In_nth_error in D. destruct D as (j & D).
  assert (J : (j < k)%nat) by (apply (ds_lt j k i d D H); lia). destruct k as [|k]; [lia|]. cbn [start] in R.
  destruct (nth_error ds k) as [d'|] eqn:E.
  - rewrite (nth_error_nth _ _ _ E) in R. destruct (Nat.eq_dec j k) as [->|Q]; [assert (i = d') by congruence; lia|].
    assert (i < d')%nat by (apply (ds_lt j k i d' D E); lia). lia.
  - apply nth_error_None in E. assert (j < List.length ds)%nat by (apply nth_error_Some; congruence). assert (S k < List.length ds)%nat by (apply nth_error_Some; congruence). lia.
Qed.
Lemma rf_index : forall p q, rises_falls s p q -> exists k d, nth_error ds k = Some d /\ q = S d /\ p = start ds k.
Proof.
  intros p q (L & P0 & INC & (d & a & b & -> & A & B & LT) & _).
  assert (Dd : drop_at d) by (exists a, b; auto). assert (Id := proj2 (ds_in d) Dd). apply In_nth_error in Id. destruct Id as (k & K).
  exists k, d. split; [exact K|]. split; [reflexivity|].
  assert (ND : forall i, (p <= i < d)%nat -> ~ drop_at i).
  { intros i R (x & y & X & Y & Z). pose proof (INC i x y (proj1 R) ltac:(lia) X Y). lra. }
  assert (PD : p = 0%nat \/ exists i, p = S i /\ drop_at i).
  { destruct P0 as [->|(i & x & y & -> & X & Y & Z)]; [left; reflexivity|right; exists i; split; [reflexivity|exists x, y; auto]]. }
  pose proof (start_le k d K) as SL. destruct (Nat.lt_trichotomy p (start ds k)) as [Q|[Q|Q]]; [exfalso|exact Q|exfalso].
  - destruct (start_drop k d K) as [Z|(i & E & D)]; [lia|]. apply (ND i); [lia|exact D].
  - destruct PD as [->|(i & -> & D)]; [lia|]. apply (start_no_drop k d i K); [lia|exact D].
Qed.
Lemma cand_value : forall k d, nth_error ds k = Some d ->
  let a := start ds k in
  (rises_falls s a (S d) /\ candidate arr a d = Z.of_nat (S (S d) - a)) \/ (~ rises_falls s a (S d) /\ candidate arr a d = -1).
Proof.
  intros k d K a. pose proof (start_le k d K) as SL. fold a in SL.
  destruct (proj1 (ds_in d) (nth_error_In _ _ K)) as (r & r' & R & R' & LT).
  assert (LEN : (S d < List.length arr)%nat) by (unfold arr; rewrite map_length; apply nth_error_Some; congruence).
  assert (X : nth_error arr (S d) = Some (rexp r')) by (apply arr_nth; exists r'; auto).
  assert (SN : nslice arr a (S (S d)) = nslice arr a (S d) ++ [rexp r']) by (apply nslice_snoc; [lia|exact X]).
  unfold candidate. replace (d + 2)%nat with (S (S d)) by lia. rewrite SN, rev_app_distr. cbn [rev app].
  set (u := nslice arr a (S d)) in *.
  assert (LU : List.length u = (S d - a)%nat) by (apply nslice_len; lia).
  assert (UN : forall i q, nth_error u i = Some q <-> ((i < S d - a)%nat /\ exists x, nth_error s (a + i) = Some x /\ rexp x = q)).
  { intros i q. unfold u. rewrite nslice_nth. destruct (i <? S d - a)%nat eqn:E; [apply Nat.ltb_lt in E|apply Nat.ltb_ge in E].
    - rewrite arr_nth. split; [intros H; split; [exact E|exact H]|tauto].
    - split; [discriminate|]. intros [H _]. lia. }
  assert (MR : memQ (rexp r') (rev u) = memQ (rexp r') u).
  { apply eq_true_iff_eq. rewrite !memQ_iff. split; intros (x & I & E); exists x; (split; [|exact E]); [apply in_rev; exact I|apply -> in_rev; exact I]. }
  rewrite MR, app_length. cbn [List.length]. rewrite LU. replace (S d - a + 1 - 1)%nat with (List.length u) by lia.
  rewrite dedup_snoc. destruct (memQ (rexp r') u) eqn:M; cbn [andb].
  2:{ right. split; [|reflexivity]. intros (_ & _ & _ & _ & (i & x & y & Ri & Hx & Hy & E)).
      assert (y = r') by congruence. subst y. assert (Z : memQ (rexp r') u = true); [|congruence].
      apply memQ_iff. exists (rexp x). split; [|exact E]. apply nth_error_In with (n := (i - a)%nat). apply UN. split; [lia|]. exists x. replace (a + (i - a))%nat with i by lia. auto. }
  assert (NDR : forall i, (a <= i < d)%nat -> ~ drop_at i) by (intros i Ri; exact (start_no_drop k d i K Ri)).
  destruct (Nat.eqb (List.length u) (List.length (dedupQ u))) eqn:EQ.
  - left. split; [|f_equal; lia]. apply Nat.eqb_eq in EQ. apply dedup_len in EQ. unfold nodupQ in EQ. rewrite SS_nth in EQ.
    split; [lia|]. split; [|split; [|split]].
    + destruct (start_drop k d K) as [Z|(i & E & (x & y & Hx & Hy & Hl))]; [left; exact Z|right]. fold a in E. exists i, x, y. rewrite E. auto.
    + intros i x y Li Ls Hx Hy. 
      assert (NE : ~ (rexp x == rexp y)%Q).
      { apply (EQ (i - a)%nat (S i - a)%nat); [lia| |].
        - apply UN. split; [lia|]. exists x. replace (a + (i - a))%nat with i by lia. auto.
        - apply UN. split; [lia|]. exists y. replace (a + (S i - a))%nat with (S i) by lia. auto. }
      assert (NL : ~ (rexp y < rexp x)%Q) by (intros Z; apply (NDR i); [lia|]; exists x, y; auto).
      destruct (Qlt_le_dec (rexp x) (rexp y)) as [Z|Z]; [exact Z|]. exfalso. apply Qle_lteq in Z. destruct Z as [Z|Z]; [exact (NL Z)|apply NE; symmetry; exact Z].
    + exists d, r, r'. auto.
    + apply memQ_iff in M. destruct M as (q & I & E). apply In_nth_error in I. destruct I as (i & I). apply UN in I. destruct I as [Li (x & Hx & <-)].
      exists (a + i)%nat, x, r'. split; [lia|]. auto.
  - right. split; [|reflexivity]. intros (_ & _ & INC & _). apply Nat.eqb_neq in EQ. apply EQ. apply dedup_len. unfold nodupQ. rewrite SS_nth.
    intros i j x y L Hx Hy. apply UN in Hx, Hy. destruct Hx as [Lx (rx & Hx & <-)], Hy as [Ly (ry & Hy & <-)].
    assert (MONO : forall n i x y, nth_error s (a + i) = Some x -> nth_error s (a + i + S n) = Some y -> (i + S n < S d - a)%nat -> (rexp x < rexp y)%Q).
    { induction n as [|n IHn]; intros i0 x0 y0 H1 H2 H3.
      - apply (INC (a + i0)%nat); [lia|lia|exact H1|]. rewrite <- H2. f_equal. lia.
      - destruct (nth_error s (a + i0 + S n)) as [z|] eqn:Z.
        + pose proof (IHn i0 x0 z H1 Z ltac:(lia)) as L1. assert (L2 : (rexp z < rexp y0)%Q); [|lra].
          apply (INC (a + i0 + S n)%nat); [lia|lia|exact Z|]. rewrite <- H2. f_equal. lia.
        + apply nth_error_None in Z. assert (a + i0 + S (S n) < List.length s)%nat by (apply nth_error_Some; congruence). lia. }
    pose proof (MONO (j - i - 1)%nat i rx ry Hx) as Z. replace (a + i + S (j - i - 1))%nat with (a + j)%nat in Z by lia. specialize (Z Hy ltac:(lia)). lra.
Qed.

Definition nonlin_of : result (list string) :=
  match ds with
  | [] => Ok []
  | _ =>
    let lens := cand_lens arr 0 ds in
    match argmax lens with
    | None => Raise ValueError
    | Some k =>
      if nth k lens 0 <=? 0 then Ok []
      else
      let a := match k with O => 0%nat | S k' => (nth k' ds 0 + 1)%nat end in
      Ok (nslice (map snd s) a (nth k ds 0 + 2)%nat)
    end
  end.

Lemma nslice_map : forall A B (g : A -> B) (l : list A) i j, nslice (map g l) i j = map g (nslice l i j).
Proof. intros. unfold nslice. rewrite skipn_map, firstn_map. reflexivity. Qed.
Lemma nonlin_of_total : exists sel, nonlin_rows s sel /\ nonlin_of = Ok (map snd sel).
Proof.
  unfold nonlin_of. destruct ds as [|d0 ds0] eqn:EDS.
  - exists []. split; [|reflexivity]. left. split; [reflexivity|]. intros p q H. destruct (rf_index p q H) as (k & d & K & _). rewrite EDS in K. destruct k; discriminate K.
  - rewrite <- EDS. cbv zeta. destruct (argmax (cand_lens arr 0 ds)) as [k|] eqn:AM.
    2:{ apply argmax_none in AM. rewrite EDS in AM. discriminate AM. }
    apply argmax_ok in AM. destruct AM as (x & X & MX & FX). rewrite cand_nth in X. destruct (nth_error ds k) as [d|] eqn:K; [|discriminate X]. cbn in X. injection X as X.
    assert (NL : nth k (cand_lens arr 0 ds) 0 = x) by (apply nth_error_nth; rewrite cand_nth, K; cbn; rewrite X; reflexivity).
    rewrite NL. change (candidate arr (start ds k) d = x) in X.
    assert (CV : forall k' d', nth_error ds k' = Some d' -> nth_error (cand_lens arr 0 ds) k' = Some (candidate arr (start ds k') d')) by (intros k' d' K'; rewrite cand_nth, K'; reflexivity).
    destruct (cand_value k d K) as [[RF CE]|[NRF CE]]; rewrite CE in X; subst x.
    + replace (Z.of_nat (S (S d) - start ds k) <=? 0) with false by (symmetry; apply Z.leb_gt; pose proof (start_le k d K); lia).
      exists (firstn (S (S d) - start ds k) (skipn (start ds k) s)). split.
      * right. exists (start ds k), (S d). split; [exact RF|]. split; [reflexivity|]. intros p q H. destruct (rf_index p q H) as (k' & d' & K' & -> & ->).
        destruct (cand_value k' d' K') as [[_ CE']|[N _]]; [|destruct (N H)]. pose proof (MX _ _ (CV _ _ K')) as L. rewrite CE' in L. pose proof (start_le k' d' K'). pose proof (start_le k d K).
        split; [lia|]. intros LT.
        assert (KK : (k' < k)%nat).
        { destruct (lt_dec k' k) as [Q|Q]; [exact Q|]. exfalso. assert (start ds k <= start ds k')%nat; [|lia]. destruct (Nat.eq_dec k' k) as [->|Q2]; [lia|].
          assert (dd : (d < start ds k')%nat); [|lia]. destruct k' as [|k']; [lia|]. cbn [start]. destruct (nth_error ds k') as [e|] eqn:Ee.
          - rewrite (nth_error_nth _ _ _ Ee). destruct (Nat.eq_dec k' k) as [->|Q3]; [assert (e = d) by congruence; lia|]. assert (d < e)%nat by (apply (ds_lt k k' d e K Ee); lia). lia.
          - apply nth_error_None in Ee. assert (S k' < List.length ds)%nat by (apply nth_error_Some; congruence). lia. }
        pose proof (FX _ _ KK (CV _ _ K')) as L'. rewrite CE' in L'. lia.
      * fold (start ds k). rewrite nslice_map. rewrite (nth_error_nth _ _ _ K). replace (d + 2)%nat with (S (S d)) by lia. reflexivity.
    + exists []. split; [|reflexivity]. left. split; [reflexivity|]. intros p q H. destruct (rf_index p q H) as (k' & d' & K' & -> & ->).
      destruct (cand_value k' d' K') as [[_ CE']|[N _]]; [|exact (N H)]. pose proof (MX _ _ (CV _ _ K')) as L. rewrite CE' in L. pose proof (start_le k' d' K'). lia.
Qed.
Lemma rf_len : forall p q, rises_falls s p q -> (3 <= List.length s)%nat.
Proof.
  intros p q (L & _ & _ & (i & a & b & -> & A & B & LT) & (j & x & y & R & X & Y & E)).
  assert (S i < List.length s)%nat by (apply nth_error_Some; congruence). destruct (Nat.eq_dec j i) as [->|N]; [|lia].
  assert (x = a) by congruence. assert (y = b) by congruence. subst. lra.
Qed.
End NL.

Lemma nonlin_rows_fun : forall s a b, nonlin_rows s a -> nonlin_rows s b -> a = b.
Proof.
  intros s a b [[-> H]|(p & q & R & -> & M)] [[-> H']|(p' & q' & R' & -> & M')]; [reflexivity|destruct (H _ _ R')|destruct (H' _ _ R)|].
  destruct (M _ _ R') as [A1 A2]. destruct (M' _ _ R) as [B1 B2].
  assert (p = p') by (destruct (Nat.lt_trichotomy p p') as [Q|[Q|Q]]; [specialize (B2 Q); lia|exact Q|specialize (A2 Q); lia]). subst p'.
  assert (q = q') by (destruct R as [? _], R' as [? _]; lia). subst. reflexivity.
Qed.
Lemma nonlin_paths_iff : forall set rows p, mapR to_row set = Ok rows -> (nonlin_paths set = Ok p <-> exists sel, nonlin_rows (sortR rows) sel /\ p = map snd sel).
Proof.
  intros set rows p H. unfold nonlin_paths. rewrite H. cbn [bind]. assert (LS : List.length (sortR rows) = List.length rows) by (symmetry; apply Permutation_length; apply sortR_perm).
  destruct (List.length rows <? 3)%nat eqn:L.
  - apply Nat.ltb_lt in L. assert (N : nonlin_rows (sortR rows) []) by (left; split; [reflexivity|]; intros a b R; apply rf_len in R; lia). split.
    + intros E. injection E as <-. exists []. split; [exact N|reflexivity].
    + intros (sel & S & ->). rewrite (nonlin_rows_fun _ _ _ S N). reflexivity.
  - destruct (nonlin_of_total (sortR rows)) as (sel & S & E). unfold nonlin_of in E. rewrite E. split.
    + intros X. injection X as <-. exists sel. split; [exact S|reflexivity].
    + intros (sel' & S' & ->). rewrite (nonlin_rows_fun _ _ _ S' S). reflexivity.
Qed.

(** ** Rows of a set of frames *)
Definition in_fs (fs : list sfr) (f : nat * sfr) : Prop := nth_error fs (fst f) = Some (snd f).
Lemma describes_rows : forall fs L rows, (forall f, In f L -> in_fs fs f) -> (Forall2 (describes fs) (map fst L) rows <-> Forall2 row_ok L rows).
Proof.
  intros fs L rows H. rewrite Forall2_mapl. split; apply Forall2_impl; intros f r I X.
  - destruct X as (g & G & X). rewrite (H f I) in G. injection G as <-. exact X.
  - exists (snd f). split; [exact (H f I)|exact X].
Qed.
Lemma rows_iff : forall L rows, mapR to_row L = Ok rows <-> Forall2 row_ok L rows.
Proof. intros L rows. rewrite mapR_iff. split; apply Forall2_impl; intros a b _; apply to_row_iff. Qed.
Lemma sorted_map_nodup : forall (L : list (nat * sfr)), StronglySorted lt (map fst L) -> NoDup (map fst L).
Proof.
  intros L S. induction S as [|x m S IH F]; constructor; [|exact IH]. intros I. rewrite Forall_forall in F. specialize (F x I). lia.
Qed.

Lemma order_ok : forall fs P p L rows g, distinct_ids fs -> (forall i f, In f fs -> (p (i, f) = true <-> P f)) -> (forall f, P f -> has_gain g f) ->
  Permutation L (filter p (number 0 fs)) -> mapR to_row L = Ok rows -> in_order fs P (sortR rows).
Proof.
  intros fs P p L rows g D HP HG PL M. apply rows_iff in M. destruct (Forall2_perm _ _ _ _ _ _ PL M) as (rows' & M' & PR).
  assert (INF : forall f, In f (filter p (number 0 fs)) -> in_fs fs f) by (intros (i & f) I; apply filter_In in I; destruct I as [I _]; apply number_in in I; exact I).
  assert (POS := filter_positions fs p P HP).
  exists (map fst (filter p (number 0 fs))), rows'. split; [exact POS|]. split; [apply describes_rows; assumption|]. split; [rewrite <- PR; apply sortR_perm|].
  apply sortR_strict. apply (Permutation_NoDup (Permutation_map rid (Permutation_sym PR))).
  assert (ND : NoDup (map fst (filter p (number 0 fs)))) by (apply sorted_map_nodup; exact (proj1 POS)).
  rewrite NoDup_nth_error. intros i j Li E. rewrite map_length in Li.
  destruct (nth_error rows' i) as [r|] eqn:R; [|apply nth_error_None in R; lia]. rewrite !nth_error_map, R in E. cbn in E.
  destruct (nth_error rows' j) as [r'|] eqn:R'; [|discriminate E]. cbn in E. injection E as E.
  destruct (Forall2_nth' _ _ _ _ _ _ _ M' R) as (f & F & (A & _)). destruct (Forall2_nth' _ _ _ _ _ _ _ M' R') as (f' & F' & (A' & _)).
  assert (If := INF _ (nth_error_In _ _ F)). assert (If' := INF _ (nth_error_In _ _ F')).
  assert (Gf : forall f, In f (filter p (number 0 fs)) -> has_gain g (snd f)).
  { intros (n & h) I. pose proof (INF _ I) as Q. apply filter_In in I. destruct I as [_ I]. apply HG. apply (HP n); [exact (nth_error_In _ _ Q)|exact I]. }
  destruct (Gf _ (nth_error_In _ _ F)) as (q & Q1 & Q2). destruct (Gf _ (nth_error_In _ _ F')) as (q' & Q1' & Q2').
  assert (EF : fst f = fst f').
  { apply (D (fst f) (fst f') (snd f) (snd f') q q' (rid r) If If' Q1 Q1'); [rewrite Q2; symmetry; exact Q2'|exact A|rewrite E; exact A']. }
  rewrite NoDup_nth_error in ND. apply ND; [rewrite map_length; apply nth_error_Some; congruence|]. rewrite !nth_error_map, F, F'. cbn. congruence.
Qed.
Lemma order_complete : forall fs P p L s, (forall i f, In f fs -> (p (i, f) = true <-> P f)) -> Permutation L (filter p (number 0 fs)) -> in_order fs P s ->
  exists rows, mapR to_row L = Ok rows /\ sortR rows = s.
Proof.
  intros fs P p L s HP PL (l & rows & POS & F & PS & S).
  assert (INF : forall f, In f (filter p (number 0 fs)) -> in_fs fs f) by (intros (i & f) I; apply filter_In in I; destruct I as [I _]; apply number_in in I; exact I).
  rewrite (positions_fun fs P P l _ POS (filter_positions fs p P HP)) in F by reflexivity. apply describes_rows in F; [|exact INF].
  destruct (Forall2_perm _ _ _ _ _ _ (Permutation_sym PL) F) as (rows' & F' & PR). exists rows'. split; [apply rows_iff; exact F'|].
  symmetry. apply sortR_unique; [|exact S]. rewrite <- PR. exact PS.
Qed.

(** ** Picking frames by path *)
Lemma mems_iff : forall s l, mems s l = true <-> In s l.
Proof. intros s l. unfold mems. rewrite existsb_exists. split; [intros (x & I & E); apply String.eqb_eq in E; subst; exact I|intros I; exists s; split; [exact I|apply String.eqb_refl]]. Qed.
Lemma pick_iff : forall fs sel l, pick (number 0 fs) (map snd sel) = Ok l <-> picked fs sel l.
Proof.
  intros fs sel l. unfold pick. set (p := fun f : nat * sfr => mems (s_path (snd f)) (map snd sel)).
  assert (HP : forall i f, In f fs -> (p (i, f) = true <-> exists r, In r sel /\ snd r = s_path f)).
  { intros i f _. unfold p. cbn [snd]. rewrite mems_iff, in_map_iff. split; intros (r & A & B); exists r; auto. }
  assert (POS := filter_positions fs p _ HP).
  assert (INF : forall f, In f (filter p (number 0 fs)) -> in_fs fs f) by (intros (i & f) I; apply filter_In in I; destruct I as [I _]; apply number_in in I; exact I).
  rewrite mapR_iff. split.
  - intros F. assert (E : l = map fst (filter p (number 0 fs))).
    { clear - F. induction F as [|f i L l H F IH]; [reflexivity|]. cbn [map]. rewrite IH. f_equal. destruct (s_vis (snd f)); cbn in H; [injection H as <-; reflexivity|discriminate H]. }
    rewrite E. split; [exact POS|]. intros i f I Hf. apply in_map_iff in I. destruct I as (f' & Ef & I). pose proof (INF _ I) as Q. unfold in_fs in Q. rewrite Ef, Hf in Q. injection Q as Q.
    destruct (Forall2_in _ _ _ _ _ _ F I) as (j & _ & H). rewrite <- Q in H. intros Z. rewrite Z in H. discriminate H.
  - intros [PP V]. rewrite (positions_fun fs _ _ _ _ PP POS) in * by reflexivity. clear PP POS l. 
    assert (G : forall L : list (nat * sfr), (forall f, In f L -> s_vis (snd f) <> None) -> Forall2 (fun (f : nat * sfr) (b : nat) => (do _ <- getkey (s_vis (snd f)); Ok (fst f)) = Ok b) L (map fst L)).
    { induction L as [|f L IH]; intros H; constructor; [|apply IH; intros g I; apply H; right; exact I]. pose proof (H f (or_introl eq_refl)) as N. destruct (s_vis (snd f)); [reflexivity|congruence]. }
    apply G. intros f I. apply (V (fst f) (snd f)); [apply in_map; exact I|exact (INF f I)].
Qed.

(** ** Gains *)
Lemma find_unity_some : forall l i u, find_unity i l = Some u -> exists g, (i <= u)%nat /\ nth_error l (u - i) = Some g /\ (fst g == 1)%Q.
Proof.
  induction l as [|g l IH]; intros i u H; [discriminate H|]. cbn [find_unity] in H. destruct (Qeq_bool (fst g) 1) eqn:E.
  - injection H as <-. exists g. split; [lia|]. rewrite Nat.sub_diag. split; [reflexivity|apply Qeq_bool_iff; exact E].
  - destruct (IH _ _ H) as (g' & L & N & G). exists g'. split; [lia|]. replace (u - i)%nat with (S (u - S i)) by lia. auto.
Qed.
Lemma find_unity_none : forall l i, find_unity i l = None -> forall g, In g l -> ~ (fst g == 1)%Q.
Proof.
  induction l as [|g l IH]; intros i H h I; [destruct I|]. cbn [find_unity] in H. destruct (Qeq_bool (fst g) 1) eqn:E; [discriminate H|].
  destruct I as [<-|I]; [apply Qeq_bool_neq; exact E|exact (IH _ H h I)].
Qed.
Lemma sorted_keys_eq : forall a b, StronglySorted Qlt a -> StronglySorted Qlt b -> (forall x, In x a -> exists y, In y b /\ (y == x)%Q) -> (forall y, In y b -> exists x, In x a /\ (x == y)%Q) -> Forall2 Qeq a b.
Proof.
  induction a as [|x a IH]; intros b SA SB AB BA.
  - destruct b as [|y b]; [constructor|]. destruct (BA y (or_introl eq_refl)) as (x & [] & _).
  - destruct b as [|y b]; [destruct (AB x (or_introl eq_refl)) as (y & [] & _)|].
    inversion SA as [|? ? SA' FA]; inversion SB as [|? ? SB' FB]; subst. rewrite Forall_forall in FA, FB.
    assert (E : (x == y)%Q).
    { destruct (AB x (or_introl eq_refl)) as (y' & [<-|I] & E); [symmetry; exact E|]. destruct (BA y (or_introl eq_refl)) as (x' & [<-|I'] & E'); [exact E'|].
      pose proof (FB _ I). pose proof (FA _ I'). lra. }
    constructor; [exact E|]. apply IH; [exact SA'|exact SB'| |].
    + intros z I. destruct (AB z (or_intror I)) as (w & [<-|J] & W); [pose proof (FA z I); lra|exists w; auto].
    + intros z I. destruct (BA z (or_intror I)) as (w & [<-|J] & W); [pose proof (FB z I); lra|exists w; auto].
Qed.
Lemma has_gain_ext : forall g g' f, (g == g')%Q -> has_gain g f -> has_gain g' f.
Proof. intros g g' f E (q & A & B). exists q. split; [exact A|]. rewrite B. exact E. Qed.
Lemma in_order_ext : forall fs P P' s, (forall f, In f fs -> (P f <-> P' f)) -> in_order fs P s -> in_order fs P' s.
Proof. intros fs P P' s H (l & rows & A & B). exists l, rows. split; [exact (positions_ext fs P P' l H A)|exact B]. Qed.

Definition gain_spec (fs : list sfr) (g : Q) (x : list nat) : Prop := exists s sel, in_order fs (has_gain g) s /\ nonlin_rows s sel /\ picked fs sel x.
Lemma gaink_iff : forall fs g i f, In f fs -> (gaink g (i, f) = true <-> has_gain g f).
Proof. intros fs g i f _. unfold gaink. rewrite keyed_iff. reflexivity. Qed.
Lemma gain_iff : forall fs g x, distinct_ids fs ->
  ((do p <- nonlin_paths (filter (gaink g) (number 0 fs)); pick (number 0 fs) p) = Ok x <-> gain_spec fs g x).
Proof.
  intros fs g x D. unfold gain_spec. split.
  - intros H. destruct (nonlin_paths _) as [p|] eqn:NP; cbn [bind] in H; [|discriminate H].
    destruct (mapR to_row (filter (gaink g) (number 0 fs))) as [rows|] eqn:M; [|unfold nonlin_paths in NP; rewrite M in NP; discriminate NP].
    apply (nonlin_paths_iff _ _ _ M) in NP. destruct NP as (sel & NR & ->). apply pick_iff in H. exists (sortR rows), sel. split; [|auto].
    apply (order_ok fs (has_gain g) (gaink g) (filter (gaink g) (number 0 fs)) rows g D (gaink_iff fs g)); auto.
  - intros (s & sel & O & NR & P). destruct (order_complete fs (has_gain g) (gaink g) (filter (gaink g) (number 0 fs)) s (gaink_iff fs g) (Permutation_refl _) O) as (rows & M & <-).
    assert (NP : nonlin_paths (filter (gaink g) (number 0 fs)) = Ok (map snd sel)) by (apply (nonlin_paths_iff _ _ _ M); exists sel; auto).
    rewrite NP. cbn [bind]. apply pick_iff. exact P.
Qed.
Lemma nonlin_all_iff : forall fs gs ns, distinct_ids fs ->
  (nonlin_all (number 0 fs) (map (fun k => (k, filter (keyed s_gain k) (number 0 fs))) gs) = Ok ns <-> exists xs, ns = List.concat xs /\ Forall2 (gain_spec fs) gs xs).
Proof.
  intros fs gs ns D. revert ns. induction gs as [|g gs IH]; intros ns; cbn [map nonlin_all snd].
  - split; [intros H; injection H as <-; exists []; split; [reflexivity|constructor]|intros (xs & -> & F); inversion F; reflexivity].
  - split.
    + intros H. destruct (nonlin_paths _) as [p|] eqn:NP; cbn [bind] in H; [|discriminate H]. destruct (pick (number 0 fs) p) as [x|] eqn:P; cbn [bind] in H; [|discriminate H].
      destruct (nonlin_all _ _) as [y|] eqn:N; cbn [bind] in H; [|discriminate H]. injection H as <-. destruct (proj1 (IH y) eq_refl) as (xs & -> & F). exists (x :: xs). split; [reflexivity|].
      constructor; [|exact F]. apply (gain_iff fs g x D). unfold gaink. rewrite NP. exact P.
    + intros (xs & -> & F). inversion F as [|? x ? xs' G F']; subst. apply (gain_iff fs g x D) in G. unfold gaink in G.
      destruct (nonlin_paths _) as [p|] eqn:NP; cbn [bind] in G; [|discriminate G]. cbn [bind]. rewrite G. cbn [bind].
      rewrite (proj2 (IH (List.concat xs')) (ex_intro _ xs' (conj eq_refl F'))). reflexivity.
Qed.

Lemma kgain_stage_iff : forall fs u e rest ks, distinct_ids fs -> (u == 1)%Q -> Permutation rest (rest_of fs u e) ->
  ((do kp <- kgain_paths rest; pick (number 0 fs) kp) = Ok ks <-> kgain_picks fs e ks).
Proof.
  intros fs u e rest ks D U1 PR. unfold rest_of in PR. rewrite filter_filter in PR.
  assert (HP : forall i f, In f fs -> (gaink u (i, f) && negb (expk e (i, f)) = true <-> has_gain 1 f /\ ~ has_exp e f)).
  { intros i f _. rewrite andb_true_iff, negb_true_iff, <- not_true_iff_false. unfold gaink, expk. rewrite !keyed_iff. fold (has_exp e f) (has_gain u f).
    split; intros [A B]; (split; [|exact B]); [exact (has_gain_ext u 1 f U1 A)|exact (has_gain_ext 1 u f (Qeq_sym _ _ U1) A)]. }
  unfold kgain_picks. split.
  - intros H. destruct (kgain_paths rest) as [kp|] eqn:KP; cbn [bind] in H; [|discriminate H]. rewrite kgain_paths_of in KP.
    destruct (mapR to_row rest) as [rows|] eqn:M; cbn [bind] in KP; [|discriminate KP]. apply kgain_of_iff in KP. destruct KP as (sel & KR & ->). apply pick_iff in H.
    exists (sortR rows), sel. split; [|auto]. apply (order_ok fs _ (fun x => gaink u x && negb (expk e x)) rest rows 1 D HP); [tauto|exact PR|exact M].
  - intros (s & sel & O & KR & P). destruct (order_complete fs _ (fun x => gaink u x && negb (expk e x)) rest s HP PR O) as (rows & M & <-).
    rewrite kgain_paths_of, M. cbn [bind]. rewrite (proj2 (kgain_of_iff (sortR rows) (map snd sel)) (ex_intro _ sel (conj KR eq_refl))). cbn [bind]. apply pick_iff. exact P.
Qed.

Lemma gains_other : forall fs ks u k1, good_keys s_gain (number 0 fs) ks -> nth_error ks u = Some k1 -> (k1 == 1)%Q -> other_gains fs (nth_del u ks).
Proof.
  intros fs ks u k1 (S & W & C) K E. split; [apply nth_del_sorted; exact S|]. split.
  - intros g I. apply nth_del_in in I. destruct I as (i & N & I). split.
    + intros G. apply N. apply (keys_inj ks i u g k1 S I K). rewrite G. symmetry. exact E.
    + destruct (W g (nth_error_In _ _ I)) as ((j & f) & J & G). apply number_in in J. exists f. split; [exact (nth_error_In _ _ J)|]. apply keyed_iff in G. exact G.
  - intros f q I Q N. apply In_nth_error in I. destruct I as (i & I). destruct (C (i, f) q (proj2 (number_in _ _ _ _) I) Q) as (k & J & KQ).
    exists k. split; [|exact KQ]. apply nth_del_in. apply In_nth_error in J. destruct J as (j & J). exists j. split; [|exact J]. intros ->. assert (k = k1) by congruence. subst k.
    apply N. rewrite <- KQ. exact E.
Qed.
Lemma other_gains_eq : forall fs a b, (forall f, In f fs -> s_gain f <> None) -> other_gains fs a -> other_gains fs b -> Forall2 Qeq a b.
Proof.
  intros fs a b T (SA & WA & CA) (SB & WB & CB). apply sorted_keys_eq; [exact SA|exact SB| |].
  - intros x I. destruct (WA x I) as (N & f & J & (q & Q & E)). destruct (CB f q J Q) as (g & G & GQ); [rewrite E; exact N|]. exists g. split; [exact G|]. rewrite GQ. exact E.
  - intros x I. destruct (WB x I) as (N & f & J & (q & Q & E)). destruct (CA f q J Q) as (g & G & GQ); [rewrite E; exact N|]. exists g. split; [exact G|]. rewrite GQ. exact E.
Qed.
Lemma gain_spec_ext : forall fs g g' x, (g == g')%Q -> gain_spec fs g x -> gain_spec fs g' x.
Proof.
  intros fs g g' x E (s & sel & O & R). exists s, sel. split; [|exact R]. eapply in_order_ext; [|exact O]. intros f _. cbn.
  split; [apply has_gain_ext; exact E|apply has_gain_ext; symmetry; exact E].
Qed.

Theorem sort_iff : forall ty fs m ks ns, distinct_ids fs -> (sort_pupilimg_frames ty fs = Ok (m, ks, ns) <-> sorted_frames ty fs m ks ns).
Proof.
  intros ty fs m ks ns D. unfold sort_pupilimg_frames, sorted_frames. cbv zeta. split.
  - intros H. destruct (split_by s_gain (number 0 fs)) as [gs|] eqn:SB; cbn [bind] in H; [|discriminate H].
    destruct (split_by_ok _ _ _ SB) as (TOT & kk & -> & KS). destruct (find_unity 0 _) as [u|] eqn:FU; [|discriminate H].
    destruct (find_unity_some _ _ _ FU) as ((k1 & g1) & _ & N & E1). cbn [fst] in E1. rewrite Nat.sub_0_r in N. rewrite (nth_error_nth _ _ _ N) in H. cbn [snd] in H.
    rewrite nth_error_map in N. destruct (nth_error kk u) as [k1'|] eqn:K; [|discriminate N]. cbn in N. injection N as -> <-.
    destruct (mean_stage _) as [[m' rest]|] eqn:MS; cbn [bind] in H; [|discriminate H]. cbn [snd fst] in H.
    destruct (mean_stage_ok fs k1 m' rest E1 MS) as (TE & e & MF & PR).
    destruct (cal_type ty) as [t|] eqn:CT; [|discriminate H].
    destruct (kgain_paths rest) as [kp|] eqn:KP; cbn [bind] in H; [|discriminate H]. destruct (pick (number 0 fs) kp) as [ks'|] eqn:PK; cbn [bind] in H; [|discriminate H].
    destruct (match t with KGain => Ok [] | NonLin => _ end) as [ns'|] eqn:NL; cbn [bind] in H; [|discriminate H]. injection H as -> -> ->.
    split; [|split; [exact TE|]].
    + intros f I. apply In_nth_error in I. destruct I as (i & I). apply (TOT (i, f)). apply number_in. exact I.
    + exists t, e. split; [apply cal_type_spec; exact CT|]. split; [exact MF|]. split; [apply (kgain_stage_iff fs k1 e rest ks D E1 PR); rewrite KP; exact PK|].
      destruct t; [injection NL as <-; reflexivity|]. rewrite nth_del_map in NL. apply (nonlin_all_iff fs _ _ D) in NL. destruct NL as (xs & -> & F).
      exists (nth_del u kk), xs. split; [exact (gains_other fs kk u k1 KS K E1)|]. split; [reflexivity|exact F].
  - intros (TG & TE & t & e & CT & MF & KP & NL).
    destruct (split_by_total s_gain (number 0 fs)) as (gs & SB); [intros (i & f) I; apply TG; apply number_in in I; exact (nth_error_In _ _ I)|].
    rewrite SB. cbn [bind]. destruct (split_by_ok _ _ _ SB) as (_ & kk & -> & KS).
    assert (HU : exists k, In k kk /\ (k == 1)%Q).
    { destruct MF as (l & ids & run & (G & N & _) & _). destruct l as [|i l]; [congruence|]. destruct G as [_ G]. destruct (proj1 (G i) (or_introl eq_refl)) as (f & F & (q & Q & E) & _).
      destruct KS as (_ & _ & C). destruct (C (i, f) q (proj2 (number_in _ _ _ _) F) Q) as (k & I & KQ). exists k. split; [exact I|]. rewrite KQ. exact E. }
    destruct (find_unity 0 _) as [u|] eqn:FU.
    2:{ exfalso. destruct HU as (k & I & E). refine (find_unity_none _ _ FU (k, _) (in_map (fun k => (k, filter (keyed s_gain k) (number 0 fs))) _ _ I) E). }
    destruct (find_unity_some _ _ _ FU) as ((k1 & g1) & _ & N & E1). cbn [fst] in E1. rewrite Nat.sub_0_r in N. rewrite (nth_error_nth _ _ _ N). cbn [snd].
    rewrite nth_error_map in N. destruct (nth_error kk u) as [k1'|] eqn:K; [|discriminate N]. cbn in N. injection N as -> <-.
    destruct (mean_stage_complete fs k1 e m E1 TE MF) as (rest & MS & PR). unfold gaink in MS. rewrite MS. cbn [bind snd fst].
    rewrite (proj2 (cal_type_spec ty t) CT). apply (kgain_stage_iff fs k1 e rest ks D E1 PR) in KP. destruct (kgain_paths rest) as [kp|]; cbn [bind] in KP; [|discriminate KP].
    cbn [bind]. rewrite KP. cbn [bind]. destruct t; [subst ns; reflexivity|]. destruct NL as (gs & xs & OG & -> & F). rewrite nth_del_map.
    assert (FE := other_gains_eq fs _ _ TG OG (gains_other fs kk u k1 KS K E1)).
    assert (F' : Forall2 (gain_spec fs) (nth_del u kk) xs).
    { revert F. generalize xs. revert FE. generalize (nth_del u kk). clear. intros b FE. induction FE as [|x y a b E FE IH]; intros xs F; inversion F; subst; constructor; [|apply IH; assumption].
      apply (gain_spec_ext fs x y _ E). assumption. }
    rewrite (proj2 (nonlin_all_iff fs _ _ D) (ex_intro _ xs (conj eq_refl F'))). reflexivity.
Qed.
