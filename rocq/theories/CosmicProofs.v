From Coq Require Import List Arith Bool QArith NArith String Sorted Lia.
From Verif Require Import Base BaseProofs CosmicModel CosmicSpec.
Import ListNotations.
Local Open Scope nat_scope.
Local Open Scope list_scope.

Lemma Qle_bool_total a b : Qle_bool a b = true \/ Qle_bool b a = true.
Proof. destruct (Qle_bool a b) eqn:E; [auto|]. right. apply Qle_bool_iff. apply Qlt_le_weak. apply Qle_bool_false. exact E. Qed.

(** ** Rank filter *)
Lemma qinsert_count f x : forall l, List.length (filter f (qinsert x l)) = List.length (filter f (x :: l)).
Proof.
  induction l as [|y t IH]; cbn [qinsert]; [reflexivity|]. destruct (Qle_bool x y); [reflexivity|].
  cbn [filter] in *. destruct (f y); cbn [List.length]; rewrite IH; destruct (f x); reflexivity.
Qed.
Lemma qsort_count f : forall l, List.length (filter f (qsort l)) = List.length (filter f l).
Proof.
  induction l as [|x t IH]; [reflexivity|]. cbn [qsort fold_right]. change (fold_right qinsert [] t) with (qsort t).
  rewrite qinsert_count. cbn [filter]. destruct (f x); cbn [List.length]; rewrite IH; reflexivity.
Qed.
Lemma qsort_length l : List.length (qsort l) = List.length l.
Proof.
  pose proof (qsort_count (fun _ => true) l) as QC.
  assert (F : forall l0 : list QArith_base.Q, filter (fun _ => true) l0 = l0) by (induction l0 as [|a t IH]; cbn; congruence).
  rewrite !F in QC. exact QC.
Qed.
Lemma qinsert_in x y : forall l, In y (qinsert x l) -> y = x \/ In y l.
Proof.
  induction l as [|z t IH]; cbn [qinsert]; [intros [<-|[]]; auto|]. destruct (Qle_bool x z).
  - intros [<-|H]; auto.
  - intros [<-|H]; [right; left; reflexivity|]. destruct (IH H) as [->|Q]; [auto|right; right; exact Q].
Qed.
Lemma qinsert_sorted x l : StronglySorted Qle l -> StronglySorted Qle (qinsert x l).
Proof.
  induction 1 as [|y t S IH F]; cbn [qinsert]; [repeat constructor|].
  destruct (Qle_bool x y) eqn:E.
  - apply Qle_bool_iff in E. constructor; [constructor; assumption|]. constructor; [exact E|].
    rewrite Forall_forall in *. intros z Hz. apply (Qle_trans _ y); [exact E|apply F; exact Hz].
  - constructor; [exact IH|]. rewrite Forall_forall in *. intros z Hz. apply qinsert_in in Hz. destruct Hz as [->|Hz]; [|apply F; exact Hz].
    apply Qlt_le_weak. apply Qle_bool_false. exact E.
Qed.
Lemma qsort_sorted l : StronglySorted Qle (qsort l).
Proof. induction l as [|x t IH]; cbn; [constructor|]. apply qinsert_sorted. exact IH. Qed.

Lemma sorted_rank t : forall s m x, StronglySorted Qle s -> nth_error s m = Some x ->
  ((t <= x)%Q <-> List.length s - m <= List.length (filter (Qle_bool t) s)).
Proof.
  assert (All : forall s, (forall z, In z s -> (t <= z)%Q) -> List.length (filter (Qle_bool t) s) = List.length s).
  { induction s as [|y s IH]; intro H; [reflexivity|]. cbn [filter]. rewrite (proj2 (Qle_bool_iff t y)) by (apply H; left; reflexivity).
    cbn. f_equal. apply IH. intros z Hz. apply H. right. exact Hz. }
  assert (Up : forall (s : list Q), List.length (filter (Qle_bool t) s) <= List.length s).
  { induction s as [|y s IH]; cbn; [lia|]. destruct (Qle_bool t y); cbn; lia. }
  induction s as [|y s IH]; intros m x S H; [destruct m; discriminate|].
  inversion S as [|y0 s0 S' F]; subst. rewrite Forall_forall in F.
  destruct (Qle_bool t y) eqn:E.
  - assert (A : forall z, In z (y :: s) -> (t <= z)%Q).
    { apply Qle_bool_iff in E. intros z [<-|Hz]; [exact E|]. apply (Qle_trans _ y); [exact E|apply F; exact Hz]. }
    rewrite (All _ A). split; [lia|]. intros _. apply A. eapply nth_error_In. exact H.
  - cbn [filter]. rewrite E. destruct m as [|m].
    + cbn in H. injection H as <-. rewrite <- (Qle_bool_iff t y), E. cbn [List.length]. specialize (Up s). split; [discriminate|lia].
    + cbn [nth_error] in H. cbn [List.length]. apply (IH m x S' H).
Qed.

Lemma window_length k row i : row <> [] -> List.length (window k row i) = k.
Proof.
  intro NE. unfold window. rewrite <- (seq_length k 0) at 2. generalize (seq 0 k) as idx.
  induction idx as [|j t IH]; cbn [flat_map]; [reflexivity|].
  assert (min (List.length row - 1) (i + j - k / 2) < List.length row) by (destruct row; [congruence|cbn; lia]).
  destruct (nth_error row (min (List.length row - 1) (i + j - k / 2))) eqn:E; [|apply nth_error_None in E; lia].
  cbn [app List.length]. rewrite IH. reflexivity.
Qed.

Lemma window_bright k row t i : List.length (filter (Qle_bool t) (window k row i)) = bright_around k row t i.
Proof.
  unfold window, bright_around. induction (seq 0 k) as [|j l IH]; [reflexivity|]. cbn [flat_map filter]. rewrite filter_app, app_length, IH.
  destruct (nth_error row (min (List.length row - 1) (i + j - k / 2))) as [x|]; cbn [filter]; [|reflexivity].
  destruct (Qle_bool t x); reflexivity.
Qed.

Lemma saturated_spec row sat cf i : In i (saturated row sat cf) <-> sat_col row sat cf i.
Proof.
  unfold saturated, sat_col. rewrite filter_In, in_seq. unfold medfilt. set (k := cf + 1).
  split.
  - intros [H1 H2]. split; [lia|]. destruct (nth_error (qsort (window k row i)) (k / 2)) as [x|] eqn:E; [|discriminate].
    apply Qle_bool_iff in H2. apply (proj1 (sorted_rank sat _ _ _ (qsort_sorted _) E)) in H2.
    rewrite qsort_length, qsort_count, window_bright, window_length in H2; [exact H2|destruct row; [cbn in H1; lia|discriminate]].
  - intros [H1 H2]. split; [lia|]. assert (NE : row <> []) by (destruct row; [cbn in H1; lia|discriminate]).
    assert (K : k / 2 < k) by (apply Nat.div_lt; unfold k; lia).
    destruct (nth_error (qsort (window k row i)) (k / 2)) as [x|] eqn:E.
    + apply Qle_bool_iff. apply (proj2 (sorted_rank sat _ _ _ (qsort_sorted _) E)).
      rewrite qsort_length, qsort_count, window_bright, window_length by exact NE. exact H2.
    + apply nth_error_None in E. rewrite qsort_length, window_length in E by exact NE. lia.
Qed.

(** A saturated column has a saturated pixel in its row. *)
Lemma saturated_bright row sat cf i : sat_col row sat cf i -> existsb (fun x => Qle_bool sat x) row = true.
Proof.
  intros [_ H]. assert (K : (cf + 1) / 2 < cf + 1) by (apply Nat.div_lt; lia).
  unfold bright_around in H. set (f := fun j => _) in H.
  destruct (filter f (seq 0 (cf + 1))) as [|j t] eqn:E; [cbn [List.length] in H; lia|].
  assert (In j (filter f (seq 0 (cf + 1)))) as Hj by (rewrite E; left; reflexivity).
  apply filter_In in Hj. destruct Hj as [_ Hj]. unfold f in Hj.
  destruct (nth_error row (min (List.length row - 1) (i + j - (cf + 1) / 2))) as [x|] eqn:Ex; [|discriminate].
  apply existsb_exists. exists x. split; [eapply nth_error_In; exact Ex|exact Hj].
Qed.

(** ** Plateau starts *)
Lemma ge_at_above row t i : ge_at row t i = true <-> above row t i.
Proof.
  unfold ge_at, above, value. destruct (nth_error row i) as [x|]; split.
  - intro H. exists x. split; [reflexivity|apply Qle_bool_iff; exact H].
  - intros (y & Hy & H). injection Hy as <-. apply Qle_bool_iff. exact H.
  - discriminate.
  - intros (y & Hy & _). discriminate.
Qed.
Lemma lt_at_below row t i : lt_at row t i = true <-> below_t row t i.
Proof.
  unfold lt_at, below_t, value. destruct (nth_error row i) as [x|]; split.
  - intro H. exists x. split; [reflexivity|]. apply Qle_bool_false. destruct (Qle_bool t x); [discriminate|reflexivity].
  - intros (y & Hy & H). injection Hy as <-. rewrite (Qlt_Qle_bool_false _ _ H). reflexivity.
  - discriminate.
  - intros (y & Hy & _). discriminate.
Qed.

Lemma above_below row t i : above row t i -> below_t row t i -> False.
Proof. intros (x & Hx & H) (y & Hy & H'). unfold value in *. assert (x = y) by congruence. subst. apply (Qlt_not_le _ _ H'). exact H. Qed.

Lemma above_or_below row t i : i < List.length row -> above row t i \/ below_t row t i.
Proof.
  intro Hi. destruct (nth_error row i) as [x|] eqn:E; [|apply nth_error_None in E; lia].
  destruct (Qlt_le_dec x t) as [H|H]; [right|left]; exists x; split; assumption.
Qed.

Lemma walk_back_spec row t : forall i, i < List.length row ->
  walk_back row t i <= i
  /\ (forall j, walk_back row t i < j <= i -> above row t j)
  /\ (walk_back row t i = 0 \/ below_t row t (walk_back row t i)).
Proof.
  induction i as [|i IH]; intro Hi; cbn [walk_back].
  - split; [lia|]. split; [intros j Hj; lia|auto].
  - destruct (ge_at row t (S i)) eqn:E.
    + destruct IH as (A & B & C); [lia|]. split; [lia|]. split; [|exact C].
      intros j Hj. destruct (Nat.eq_dec j (S i)) as [->|]; [apply ge_at_above; exact E|apply B; lia].
    + split; [lia|]. split; [intros j Hj; lia|]. right.
      destruct (above_or_below row t (S i) Hi) as [H|H]; [|exact H]. apply ge_at_above in H. congruence.
Qed.

Lemma plateau_beg_spec row t i : i < List.length row -> run_start row t i (plateau_beg row t i).
Proof.
  intro Hi. unfold plateau_beg. destruct (walk_back_spec row t i Hi) as (A & B & C). set (b := walk_back row t i) in *.
  destruct (lt_at row t b) eqn:E.
  - apply lt_at_below in E. split; [lia|]. split; [intros j Hj; apply B; lia|]. right. replace (b + 1 - 1) with b by lia. exact E.
  - assert (Bb : above row t b).
    { destruct (above_or_below row t b) as [H|H]; [lia|exact H|]. apply lt_at_below in H. congruence. }
    split; [lia|]. split.
    + intros j Hj. destruct (Nat.eq_dec j b) as [->|]; [exact Bb|apply B; lia].
    + destruct C as [->|C]; [auto|]. exfalso. eapply above_below; eassumption.
Qed.

Lemma run_start_unique row t i s s' : run_start row t i s -> run_start row t i s' -> s = s'.
Proof.
  intros (A & B & C) (A' & B' & C').
  destruct (Nat.lt_trichotomy s s') as [H|[H|H]]; [exfalso|exact H|exfalso].
  - destruct C' as [->|C']; [lia|]. apply (above_below row t (s' - 1)); [apply B; lia|exact C'].
  - destruct C as [->|C]; [lia|]. apply (above_below row t (s - 1)); [apply B'; lia|exact C].
Qed.

Lemma ninsert_in x y : forall l, In y (ninsert x l) <-> y = x \/ In y l.
Proof.
  induction l as [|z t IH]; cbn [ninsert]; [cbn; intuition|].
  destruct (Nat.ltb_spec x z); [cbn; intuition|]. destruct (Nat.eqb_spec x z) as [->|]; [cbn; intuition|].
  cbn [In]. rewrite IH. intuition.
Qed.
Lemma ninsert_sorted x l : StronglySorted lt l -> StronglySorted lt (ninsert x l).
Proof.
  induction 1 as [|y t S IH F]; cbn [ninsert]; [repeat constructor|]. rewrite Forall_forall in F.
  destruct (Nat.ltb_spec x y).
  - constructor; [constructor; [assumption|rewrite Forall_forall; exact F]|]. rewrite Forall_forall. intros z [<-|Hz]; [assumption|]. specialize (F z Hz). lia.
  - destruct (Nat.eqb_spec x y).
    + constructor; [assumption|rewrite Forall_forall; exact F].
    + constructor; [exact IH|]. rewrite Forall_forall. intros z Hz. apply ninsert_in in Hz. destruct Hz as [->|Hz]; [lia|apply F; exact Hz].
Qed.
Lemma unique_in y : forall l, In y (unique l) <-> In y l.
Proof. induction l as [|x t IH]; cbn; [tauto|]. fold (unique t). rewrite ninsert_in, IH. intuition. Qed.
Lemma unique_sorted l : StronglySorted lt (unique l).
Proof. induction l as [|x t IH]; cbn; [constructor|]. apply ninsert_sorted. exact IH. Qed.

Lemma find_plateaus_spec row fwc st pt cf :
  match find_plateaus row fwc st pt cf with
  | None => forall i, ~ sat_col row (st * fwc)%Q cf i
  | Some l => (exists i, sat_col row (st * fwc)%Q cf i) /\ StronglySorted lt l
              /\ forall s, In s l <-> starts row fwc st pt cf s
  end.
Proof.
  unfold find_plateaus. pose proof (saturated_spec row (st * fwc)%Q cf) as SS.
  destruct (saturated row (st * fwc)%Q cf) as [|i0 t] eqn:E.
  - intros i H. apply SS in H. destruct H.
  - rewrite <- E in *. split; [exists i0; apply SS; rewrite E; left; reflexivity|]. split; [apply unique_sorted|].
    intro s. rewrite unique_in, in_map_iff. split.
    + intros (i & <- & Hi). exists i. pose proof (proj1 (SS i) Hi) as Q. split; [exact Q|]. apply plateau_beg_spec. apply Q.
    + intros (i & Hi & Hs). exists i. split; [|apply SS; exact Hi]. eapply run_start_unique; [|exact Hs]. apply plateau_beg_spec. apply Hi.
Qed.

(** ** The mask *)
Lemma set_rect_true r0 r1 c0 c1 m r c :
  set_rect r0 r1 c0 c1 m r c = true <-> m r c = true \/ (r0 <= r < r1 /\ c0 <= c < c1).
Proof.
  unfold set_rect. rewrite !orb_true_iff, !andb_true_iff, !Nat.leb_le, !Nat.ltb_lt. intuition.
Qed.
Lemma set_ravel_true nc lo hi m r c :
  set_ravel nc lo hi m r c = true <-> m r c = true \/ (lo <= r * nc + c < hi).
Proof. unfold set_ravel. rewrite !orb_true_iff, !andb_true_iff, !Nat.leb_le, !Nat.ltb_lt. intuition. Qed.

Section Flag.
Variables (md : cmode) (im : region) (nr nc : nat).
Variables (fwc st pt : Q) (cf cb ct : nat).
Notation do_hit := (do_hit md im nr nc cf cb ct).
Notation do_row := (do_row md im nr nc fwc st pt cf cb ct).
Notation do_rows := (do_rows md im nr nc fwc st pt cf cb ct).

Definition R0 := fst (fst (fst (bounds md im nr nc))).
Definition R1 := snd (fst (fst (bounds md im nr nc))).
Definition C0 := snd (fst (bounds md im nr nc)).
Definition C1 := snd (bounds md im nr nc).

(** Pixels painted for the hit (i, s) without the wrap-around. *)
Definition painted (i s r c : nat) : Prop :=
  (r = i /\ s <= c < min (s + cf + ct + 1) nc)
  \/ (max (i - cb) R0 <= r < min (i + cb + 1) (R1 + 1) /\ max (s - cb) C0 <= c < min (s + cb + 1) (C1 + 1)).

Definition wrapped (i s r c : nat) : Prop :=
  nc < s + cf + ct + 1 /\ (i + 1) * nc - 1 <= r * nc + c < (i + 1) * nc - 1 + (s + cf + ct + 1 - nc).

Lemma do_hits i : forall begs m ex,
  let '(m1, ex1) := fold_left (do_hit i) begs (m, ex) in
  (forall r c, m1 r c = true <-> m r c = true \/ exists s, In s begs /\ C0 <= s <= C1 /\ painted i s r c)
  /\ (forall e, In e ex1 <-> In e ex \/ exists s, In s begs /\ C0 <= s <= C1 /\ nc < s + cf + ct + 1 /\ e = s + cf + ct + 1 - nc).
Proof.
  induction begs as [|s t IH]; intros m ex; cbn [fold_left].
  - split; intros; split; auto; intros [H|(s & [] & _)]; exact H.
  - unfold CosmicModel.do_hit at 2. destruct (bounds md im nr nc) as [[[r0 r1] c0] c1] eqn:B.
    assert (ER0 : R0 = r0) by (unfold R0; rewrite B; reflexivity). assert (ER1 : R1 = r1) by (unfold R1; rewrite B; reflexivity).
    assert (EC0 : C0 = c0) by (unfold C0; rewrite B; reflexivity). assert (EC1 : C1 = c1) by (unfold C1; rewrite B; reflexivity).
    destruct ((s <? c0) || (c1 <? s)) eqn:Sk.
    + apply orb_true_iff in Sk. rewrite !Nat.ltb_lt in Sk.
      specialize (IH m ex). destruct (fold_left (do_hit i) t (m, ex)) as [m1 ex1]. destruct IH as [I1 I2]. split.
      * intros r c. rewrite I1. split.
        -- intros [H|(s' & Hs & Q)]; [auto|]. right. exists s'. split; [right; exact Hs|exact Q].
        -- intros [H|(s' & [<-|Hs] & Q)]; [auto|lia|]. right. exists s'. auto.
      * intro e. rewrite I2. split.
        -- intros [H|(s' & Hs & Q)]; [auto|]. right. exists s'. split; [right; exact Hs|exact Q].
        -- intros [H|(s' & [<-|Hs] & Q)]; [auto|lia|]. right. exists s'. auto.
    + apply orb_false_iff in Sk. rewrite !Nat.ltb_ge in Sk. cbn [fst snd]. cbv zeta.
      match goal with |- context [fold_left _ t (?m', ?ex')] => specialize (IH m' ex'); destruct (fold_left (do_hit i) t (m', ex')) as [m1 ex1] end.
      destruct IH as [I1 I2]. split.
      * intros r c. rewrite I1. rewrite !set_rect_true. split.
        -- intros [[[H|H]|H]|(s' & Hs & Q)]; [auto| | |].
           ++ right. exists s. split; [left; reflexivity|]. split; [lia|]. left. lia.
           ++ right. exists s. split; [left; reflexivity|]. split; [lia|]. right. rewrite ER0, ER1, EC0, EC1. exact H.
           ++ right. exists s'. split; [right; exact Hs|exact Q].
        -- intros [H|(s' & [<-|Hs] & Hc & Q)]; [auto| |].
           ++ left. destruct Q as [Q|Q]; [left; right; lia|right; rewrite ER0, ER1, EC0, EC1 in Q; exact Q].
           ++ right. exists s'. auto.
      * intro e. rewrite I2. destruct (Nat.ltb_spec nc (s + cf + ct + 1)) as [Hn|Hn].
        -- rewrite in_app_iff. split.
           ++ intros [[H|[<-|[]]]|(s' & Hs & Q)]; [auto| |].
              ** right. exists s. split; [left; reflexivity|]. split; [lia|]. auto.
              ** right. exists s'. split; [right; exact Hs|exact Q].
           ++ intros [H|(s' & [<-|Hs] & Hc & Hn' & ->)]; [auto| |].
              ** left. right. left. reflexivity.
              ** right. exists s'. auto.
        -- split.
           ++ intros [H|(s' & Hs & Q)]; [auto|]. right. exists s'. split; [right; exact Hs|exact Q].
           ++ intros [H|(s' & [<-|Hs] & Hc & Hn' & E)]; [auto|lia|]. right. exists s'. auto.
Qed.

Lemma do_wraps i : forall ex m r c,
  fold_left (do_wrap nc i) ex m r c = true <-> m r c = true \/ exists e, In e ex /\ (i + 1) * nc - 1 <= r * nc + c < (i + 1) * nc - 1 + e.
Proof.
  induction ex as [|e t IH]; intros m r c; cbn [fold_left].
  - split; [auto|]. intros [H|(e & [] & _)]; exact H.
  - rewrite IH. unfold do_wrap. cbv zeta. rewrite set_ravel_true. split.
    + intros [[H|H]|(e' & He & H)]; [auto| |].
      * right. exists e. split; [left; reflexivity|exact H].
      * right. exists e'. split; [right; exact He|exact H].
    + intros [H|(e' & [<-|He] & H)]; [auto|auto|]. right. exists e'. auto.
Qed.

Lemma do_row_spec m i row r c :
  do_row m i row r c = true <->
  m r c = true \/ exists s, R0 <= i <= R1 /\ C0 <= s <= C1 /\ starts row fwc st pt cf s
                            /\ (painted i s r c \/ (md = FullMode /\ wrapped i s r c)).
Proof.
  unfold CosmicModel.do_row. destruct (bounds md im nr nc) as [[[r0 r1] c0] c1] eqn:B.
  assert (ER0 : R0 = r0) by (unfold R0; rewrite B; reflexivity). assert (ER1 : R1 = r1) by (unfold R1; rewrite B; reflexivity).
  destruct (existsb (fun x => Qle_bool (st * fwc)%Q x) row) eqn:Ex; cbn [negb].
  2:{ split; [auto|]. intros [H|(s & _ & _ & (j & Hj & _) & _)]; [exact H|]. apply saturated_bright in Hj. congruence. }
  destruct ((i <? r0) || (r1 <? i)) eqn:Sk.
  { apply orb_true_iff in Sk. rewrite !Nat.ltb_lt in Sk. split; [auto|]. intros [H|(s & Hi & _)]; [exact H|lia]. }
  apply orb_false_iff in Sk. rewrite !Nat.ltb_ge in Sk.
  pose proof (find_plateaus_spec row fwc st pt cf) as FP.
  set (begs := match find_plateaus row fwc st pt cf with Some l => l | None => [] end).
  assert (BS : forall s, In s begs <-> starts row fwc st pt cf s).
  { unfold begs. destruct (find_plateaus row fwc st pt cf) as [l|].
    - apply FP.
    - intro s. split; [intros []|]. intros (j & Hj & _). exfalso. exact (FP j Hj). }
  pose proof (do_hits i begs m []) as DH. destruct (fold_left (do_hit i) begs (m, [])) as [m1 ex1]. destruct DH as [D1 D2].
  assert (P1 : (m r c = true \/ exists s, In s begs /\ C0 <= s <= C1 /\ painted i s r c) <->
               (m r c = true \/ exists s, R0 <= i <= R1 /\ C0 <= s <= C1 /\ starts row fwc st pt cf s /\ painted i s r c)).
  { split; (intros [H|(s & H)]; [left; exact H|right; exists s]).
    - destruct H as (Hs & Hc & Q). apply BS in Hs. split; [lia|]. auto.
    - destruct H as (_ & Hc & Hs & Q). apply BS in Hs. auto. }
  destruct md eqn:EM.
  - rewrite D1, P1. split.
    + intros [H|(s & A & A2 & A3 & A4)]; [auto|]. right. exists s. auto.
    + intros [H|(s & A & A2 & A3 & [A4|[A4 _]])]; [auto| |discriminate]. right. exists s. auto.
  - rewrite do_wraps, D1. split.
    + intros [H|(e & He & H)].
      * apply P1 in H. destruct H as [H|(s & A & A2 & A3 & A4)]; [auto|]. right. exists s. auto.
      * apply D2 in He. destruct He as [[]|(s & Hs & Hc & Hn & ->)]. right. exists s. split; [lia|]. split; [exact Hc|].
        split; [apply BS; exact Hs|]. right. split; [reflexivity|]. split; assumption.
    + intros [H|(s & A & A2 & A3 & [A4|[_ [Hn A4]]])]; [auto| |].
      * left. apply P1. right. exists s. auto.
      * right. exists (s + cf + ct + 1 - nc). split; [|exact A4]. apply D2. right. exists s. split; [apply BS; exact A3|]. auto.
Qed.

Lemma do_rows_spec : forall rows m i0 r c,
  do_rows m i0 rows r c = true <->
  m r c = true \/ exists i s row, nth_error rows i = Some row /\ R0 <= i0 + i <= R1 /\ C0 <= s <= C1 /\ starts row fwc st pt cf s
                            /\ (painted (i0 + i) s r c \/ (md = FullMode /\ wrapped (i0 + i) s r c)).
Proof.
  induction rows as [|row t IH]; intros m i0 r c; cbn [CosmicModel.do_rows].
  - split; [auto|]. intros [H|(i & s & row & Hi & _)]; [exact H|destruct i; discriminate].
  - rewrite IH, do_row_spec. split.
    + intros [[H|(s & A)]|(i & s & row' & Hi & A)]; [auto| |].
      * right. exists 0, s, row. rewrite Nat.add_0_r. split; [reflexivity|exact A].
      * right. exists (S i), s, row'. replace (i0 + S i) with (S i0 + i) by lia. split; [exact Hi|exact A].
    + intros [H|(i & s & row' & Hi & A)]; [auto|]. destruct i as [|i].
      * cbn in Hi. injection Hi as <-. rewrite Nat.add_0_r in A. left. right. exists s. exact A.
      * right. exists i, s, row'. replace (S i0 + i) with (i0 + S i) by lia. split; [exact Hi|exact A].
Qed.

Lemma flag_cosmics_spec frame r c :
  flag_cosmics md im nr nc fwc st pt cf cb ct frame r c = true <->
  exists i s, hit frame R0 R1 C0 C1 fwc st pt cf i s /\ (painted i s r c \/ (md = FullMode /\ wrapped i s r c)).
Proof.
  unfold flag_cosmics. rewrite do_rows_spec. split.
  - intros [H|(i & s & row & Hi & A & A2 & A3 & A4)]; [discriminate|]. exists i, s. split; [exists row; auto|exact A4].
  - intros (i & s & (row & Hi & A & A2 & A3) & A4). right. exists i, s, row. auto.
Qed.
End Flag.

(** Image mode. *)
Lemma flag_image im nr nc fwc st pt cf cb ct frame r c :
  r < nr -> c < nc -> List.length frame = nr ->
  (flag_cosmics ImageMode im nr nc fwc st pt cf cb ct frame r c = true <->
   exists i s, hit frame 0 (nr - 1) 0 (nc - 1) fwc st pt cf i s /\ (in_tail nc cf ct i s r c \/ in_box cb i s r c)).
Proof.
  intros Hr Hc L. rewrite flag_cosmics_spec. unfold R0, R1, C0, C1. cbn [bounds fst snd].
  assert (E : forall i s, (painted ImageMode im nr nc cf cb ct i s r c \/ (ImageMode = FullMode /\ wrapped nc cf ct i s r c)) <->
                          (in_tail nc cf ct i s r c \/ in_box cb i s r c)).
  { intros i s. unfold painted, in_tail, in_box, R0, R1, C0, C1. cbn [bounds fst snd]. split.
    - intros [[H|H]|[H _]]; [left; lia|right; lia|discriminate].
    - intros [H|H]; left; [left; lia|right; lia]. }
  split; intros (i & s & H & P); exists i, s; (split; [exact H|]); apply E; exact P.
Qed.

(** Full mode: the box ends one row and one column beyond the image area, and
    the continuation of the tail on the following rows is one pixel short. *)
Lemma flag_full im nr nc fwc st pt cf cb ct frame r c :
  r < nr -> c < nc -> List.length frame = nr ->
  (flag_cosmics FullMode im nr nc fwc st pt cf cb ct frame r c = true <->
   exists i s, hit frame (g_r0 im) (g_r0 im + g_rows im) (g_c0 im) (g_c0 im + g_cols im) fwc st pt cf i s /\
     (in_tail nc cf ct i s r c
      \/ (in_box cb i s r c /\ g_r0 im <= r <= g_r0 im + g_rows im /\ g_c0 im <= c <= g_c0 im + g_cols im)
      \/ (s + cf + ct + 1 > nc /\ (i + 1) * nc - 1 <= r * nc + c /\ r * nc + c + 1 < i * nc + (s + cf + ct + 1)))).
Proof.
  intros Hr Hc L. rewrite flag_cosmics_spec. unfold R0, R1, C0, C1. cbn [bounds fst snd].
  assert (E : forall i s, (painted FullMode im nr nc cf cb ct i s r c \/ (FullMode = FullMode /\ wrapped nc cf ct i s r c)) <->
     (in_tail nc cf ct i s r c
      \/ (in_box cb i s r c /\ g_r0 im <= r <= g_r0 im + g_rows im /\ g_c0 im <= c <= g_c0 im + g_cols im)
      \/ (s + cf + ct + 1 > nc /\ (i + 1) * nc - 1 <= r * nc + c /\ r * nc + c + 1 < i * nc + (s + cf + ct + 1)))).
  { intros i s. unfold painted, wrapped, in_tail, in_box, R0, R1, C0, C1. cbn [bounds fst snd]. rewrite Nat.mul_add_distr_r, Nat.mul_1_l. split.
    - intros [[H|H]|[_ [H H2]]]; [left; lia|right; left; lia|right; right; lia].
    - intros [H|[H|H]]; [left; left; lia|left; right; lia|right; split; [reflexivity|lia]]. }
  split; intros (i & s & H & P); exists i, s; (split; [exact H|]); apply E; exact P.
Qed.

(** ** Saturation limits and the step *)
Lemma gain_entry_spec h :
  match gain_entry h with
  | Ok l => (h_gm h <> None /\ l = []) \/ (h_gm h = None /\ exists g, l = [g] /\ gain_of h g)
  | Raise x => x = KeyError /\ h_gm h = None /\ forall g, ~ gain_of h g
  end.
Proof.
  unfold gain_entry, gain_of. destruct (h_gm h) as [g|] eqn:E; [left; split; [discriminate|reflexivity]|].
  destruct (h_ga h) as [a|] eqn:Ea; cbn [getkey bind].
  - destruct (Qle_bool a 0) eqn:Q; cbn [negb].
    + apply Qle_bool_iff in Q. destruct (h_gc h) as [c|] eqn:Ec; cbn [getkey bind].
      * right. split; [reflexivity|]. exists c. split; [reflexivity|]. right. split; [reflexivity|]. exists a. auto.
      * split; [reflexivity|]. split; [reflexivity|]. intros g [H|(_ & a' & Ha & [[H _]|[_ H]])]; try discriminate.
        injection Ha as <-. apply (Qlt_not_le _ _ H). exact Q.
    + apply Qle_bool_false in Q. right. split; [reflexivity|]. exists a. split; [reflexivity|]. right. split; [reflexivity|]. exists a. auto.
  - split; [reflexivity|]. split; [reflexivity|]. intros g [H|(_ & a' & Ha & _)]; discriminate.
Qed.

(** Without any measured gain the list has one gain per frame. *)
Lemma gain_list_unmeasured : forall hs l, (forall h, In h hs -> h_gm h = None) -> gain_list hs = Ok l ->
  List.length l = List.length hs /\ forall i h g, nth_error hs i = Some h -> nth_error l i = Some g -> gain_of h g.
Proof.
  induction hs as [|h t IH]; intros l N H; cbn [gain_list] in H.
  - injection H as <-. split; [reflexivity|]. intros [|i] h g Hh; discriminate.
  - pose proof (gain_entry_spec h) as GE. destruct (gain_entry h) as [e|]; cbn [bind] in H; [|discriminate].
    destruct (gain_list t) as [r|] eqn:Er; cbn [bind] in H; [|discriminate]. injection H as <-.
    destruct GE as [[Q _]|(_ & g0 & -> & G0)]; [exfalso; apply Q; apply N; left; reflexivity|].
    destruct (IH r (fun x Hx => N x (or_intror Hx)) eq_refl) as [L F]. split; [cbn; congruence|].
    intros [|i] h' g Hh Hg; cbn in Hh, Hg; [injection Hh as <-; injection Hg as <-; exact G0|exact (F i h' g Hh Hg)].
Qed.

(** The list holds the gains of the frames without a measured gain. *)
Lemma gain_list_length : forall hs l, gain_list hs = Ok l ->
  List.length l = List.length (filter (fun h => match h_gm h with Some _ => false | None => true end) hs).
Proof.
  induction hs as [|h t IH]; intros l H; cbn [gain_list] in H; [injection H as <-; reflexivity|].
  pose proof (gain_entry_spec h) as GE. destruct (gain_entry h) as [e|]; cbn [bind] in H; [|discriminate].
  destruct (gain_list t) as [r|] eqn:Er; cbn [bind] in H; [|discriminate]. injection H as <-.
  rewrite app_length. cbn [filter]. rewrite (IH r eq_refl). destruct GE as [[Q ->]|(Q & g0 & -> & G0)].
  - destruct (h_gm h); [reflexivity|congruence].
  - rewrite Q. reflexivity.
Qed.

(** The lower of the two capacities. *)
Lemma qmin_spec a b : (qmin a b <= a)%Q /\ (qmin a b <= b)%Q /\ (qmin a b = a \/ qmin a b = b).
Proof.
  unfold qmin. destruct (Qle_bool a b) eqn:E.
  - apply Qle_bool_iff in E. repeat split; auto; apply Qle_refl.
  - apply Qle_bool_false in E. repeat split; auto; [apply Qlt_le_weak; exact E|apply Qle_refl].
Qed.

Definition go_frames (regions : string -> option region) (md : cmode) (nr nc : nat)
    (fwcem st pt : Q) (cf cb ct : nat) :=
  fix go (fs : list cr_frame) (ss : list Q) : result (list ((nat -> nat -> N) * Q)) := match fs, ss with
     | f :: ft, s :: st' =>
       do a <- getkey (h_arr (cr_hdr f));
       do im <- match md with FullMode => getkey (regions a) | ImageMode => Ok (mkregion 0 0 0 0) end;
       let m2 := flag_cosmics md im nr nc fwcem st pt cf cb ct (cr_data f) in
       do r <- go ft st';
       Ok ((or_masks s (cr_data f) m2 (cr_dq f), s) :: r)
     | _, _ => Ok []
     end.

Lemma go_frames_spec regions md nr nc fwcem st pt cf cb ct : forall fs ss r,
  List.length ss = List.length fs ->
  go_frames regions md nr nc fwcem st pt cf cb ct fs ss = Ok r ->
  List.length r = List.length fs /\
  forall i f, nth_error fs i = Some f -> exists a im s, h_arr (cr_hdr f) = Some a
    /\ (md = FullMode -> regions a = Some im) /\ nth_error ss i = Some s
    /\ nth_error r i = Some (or_masks s (cr_data f) (flag_cosmics md im nr nc fwcem st pt cf cb ct (cr_data f)) (cr_dq f), s).
Proof.
  induction fs as [|f ft IH]; intros ss r L H; cbn [go_frames] in H.
  - injection H as <-. split; [reflexivity|]. intros [|i] f Hf; discriminate.
  - destruct ss as [|s ss]; [discriminate|]. destruct (h_arr (cr_hdr f)) as [a|] eqn:Ea; cbn [getkey bind] in H; [|discriminate].
    set (g := match md with FullMode => getkey (regions a) | ImageMode => Ok (mkregion 0 0 0 0) end) in H.
    assert (Eg : g = match md with FullMode => getkey (regions a) | ImageMode => Ok (mkregion 0 0 0 0) end) by reflexivity.
    destruct g as [im|] eqn:E2; cbn [bind] in H; [|discriminate].
    destruct (go_frames regions md nr nc fwcem st pt cf cb ct ft ss) as [r'|] eqn:Er; cbn [bind] in H; [|discriminate]. injection H as <-.
    destruct (IH ss r') as [L' F]; [cbn in L; lia|exact Er|]. split; [cbn; lia|].
    intros [|i] f' Hf; cbn [nth_error] in *.
    + injection Hf as <-. exists a, im, s. split; [exact Ea|]. split; [|auto].
      intro Em. rewrite Em in Eg. destruct (regions a); cbn [getkey] in Eg; congruence.
    + exact (F i f' Hf).
Qed.

Lemma or_masks_bits sat d m2 dq r c b :
  N.testbit (or_masks sat d m2 dq r c) b = true <->
  N.testbit (dq r c) b = true
  \/ (b = 5%N /\ exists row x, nth_error d r = Some row /\ nth_error row c = Some x /\ (sat <= x)%Q)
  \/ (b = 7%N /\ m2 r c = true).
Proof.
  unfold or_masks. cbv zeta. rewrite !N.lor_spec, !orb_true_iff.
  set (m1 := match nth_error d r with Some row => _ | None => false end).
  assert (M1 : m1 = true <-> exists row x, nth_error d r = Some row /\ nth_error row c = Some x /\ (sat <= x)%Q).
  { unfold m1. destruct (nth_error d r) as [row|]; [|split; [discriminate|intros (row & x & H & _); discriminate]].
    destruct (nth_error row c) as [x|] eqn:Ex.
    - rewrite Qle_bool_iff. split; [intro H; exists row, x; auto|]. intros (row' & x' & H & H' & H''). injection H as <-. rewrite Ex in H'. injection H' as <-. exact H''.
    - split; [discriminate|]. intros (row' & x' & H & H' & _). injection H as <-. congruence. }
  rewrite <- M1. clear M1.
  assert (T5 : N.testbit 32 b = true <-> b = 5%N).
  { change 32%N with (2 ^ 5)%N. rewrite N.pow2_bits_eqb, N.eqb_eq. split; congruence. }
  assert (T7 : N.testbit 128 b = true <-> b = 7%N).
  { change 128%N with (2 ^ 7)%N. rewrite N.pow2_bits_eqb, N.eqb_eq. split; congruence. }
  destruct m1; destruct (m2 r c); rewrite ?T5, ?T7, ?N.bits_0; intuition congruence.
Qed.

(** Frames without measured gains: each frame has its own limit. *)
Lemma detect_spec regions md nr nc kg pp em st pt cf cb ct frames res :
  (forall f, In f frames -> h_gm (cr_hdr f) = None) ->
  detect_cosmic_rays regions md nr nc kg pp em st pt cf cb ct frames = Ok res ->
  List.length res = List.length frames /\
  forall i f, nth_error frames i = Some f -> exists g a im dq',
    gain_of (cr_hdr f) g /\ h_arr (cr_hdr f) = Some a /\ (md = FullMode -> regions a = Some im)
    /\ nth_error res i = Some (dq', (st * qmin (g * (pp / kg)) (em / kg))%Q)
    /\ forall r c b, N.testbit (dq' r c) b = true <->
         N.testbit (cr_dq f r c) b = true
         \/ (b = 5%N /\ exists row x, nth_error (cr_data f) r = Some row /\ nth_error row c = Some x /\ (st * qmin (g * (pp / kg)) (em / kg) <= x)%Q)
         \/ (b = 7%N /\ flag_cosmics md im nr nc (em / kg)%Q st pt cf cb ct (cr_data f) r c = true).
Proof.
  intros NM H. unfold detect_cosmic_rays in H.
  destruct (gain_list (map cr_hdr frames)) as [gs|] eqn:EG; cbn [bind] in H; [|discriminate].
  destruct (gain_list_unmeasured (map cr_hdr frames) gs) as [GL GF]; [|exact EG|].
  { intros h Hh. apply in_map_iff in Hh. destruct Hh as (f & <- & Hf). apply NM. exact Hf. }
  rewrite map_length in GL. unfold calc_sat_fwc, broadcast in H. rewrite GL, Nat.eqb_refl in H. cbn [bind] in H.
  change ((fix go (fs : list cr_frame) (ss : list Q) {struct fs} : result (list ((nat -> nat -> N) * Q)) := _) ?a ?b) with (go_frames regions md nr nc (em / kg)%Q st pt cf cb ct a b) in H.
  apply go_frames_spec in H; [|rewrite map_length; exact GL]. destruct H as [RL RF]. split; [exact RL|].
  intros i f Hf. destruct (RF i f Hf) as (a & im & s & Ha & Him & Hs & Hr).
  rewrite nth_error_map in Hs. destruct (nth_error gs i) as [g|] eqn:Eg; [|discriminate]. injection Hs as <-.
  exists g, a, im. eexists. split; [apply (GF i (cr_hdr f) g); [rewrite nth_error_map, Hf; reflexivity|exact Eg]|].
  split; [exact Ha|]. split; [exact Him|]. split; [exact Hr|]. intros r c b. apply or_masks_bits.
Qed.

(** With measured gains: nothing is appended for those frames. *)
Lemma detect_measured regions md nr nc kg pp em st pt cf cb ct frames :
  frames <> [] -> (forall f, In f frames -> h_gm (cr_hdr f) <> None) ->
  detect_cosmic_rays regions md nr nc kg pp em st pt cf cb ct frames = Raise ValueError.
Proof.
  intros NE M. unfold detect_cosmic_rays.
  assert (G : gain_list (map cr_hdr frames) = Ok []).
  { clear NE. induction frames as [|f t IH]; [reflexivity|]. cbn [map gain_list]. unfold gain_entry.
    destruct (h_gm (cr_hdr f)) eqn:E; [|exfalso; apply (M f); [left; reflexivity|exact E]].
    cbn [bind]. rewrite IH by (intros x Hx; apply M; right; exact Hx). reflexivity. }
  rewrite G. cbn [bind]. unfold calc_sat_fwc, broadcast. destruct frames as [|f t]; [congruence|]. reflexivity.
Qed.

(** With one unmeasured frame among several, its gain is used for all. *)
Lemma detect_mixed regions md nr nc kg pp em st pt cf cb ct frames res g0 :
  gain_list (map cr_hdr frames) = Ok [g0] ->
  detect_cosmic_rays regions md nr nc kg pp em st pt cf cb ct frames = Ok res ->
  forall i dq' s, nth_error res i = Some (dq', s) -> s = (st * qmin (g0 * (pp / kg)) (em / kg))%Q.
Proof.
  intros EG H. unfold detect_cosmic_rays in H. rewrite EG in H. cbn [bind] in H.
  set (B := broadcast (List.length frames) [g0]) in *.
  assert (EB : B = Ok (repeat g0 (List.length frames))).
  { unfold B, broadcast. destruct (Nat.eqb_spec (List.length [g0]) (List.length frames)) as [E|E]; [rewrite <- E|]; reflexivity. }
  unfold calc_sat_fwc in H. fold B in H. rewrite EB in H. cbn [bind] in H.
  change ((fix go (fs : list cr_frame) (ss : list Q) {struct fs} : result (list ((nat -> nat -> N) * Q)) := _) ?a ?b) with (go_frames regions md nr nc (em / kg)%Q st pt cf cb ct a b) in H.
  apply go_frames_spec in H; [|rewrite map_length, repeat_length; reflexivity]. destruct H as [RL RF].
  intros i dq' s Hi. destruct (nth_error frames i) as [f|] eqn:Ef.
  - destruct (RF i f Ef) as (a & im & s' & _ & _ & Hs & Hr). rewrite Hi in Hr. injection Hr as _ <-.
    rewrite nth_error_map in Hs. destruct (nth_error (repeat g0 (List.length frames)) i) as [g|] eqn:Eg; [|discriminate].
    apply nth_error_In in Eg. apply repeat_spec in Eg. subst g. injection Hs as <-. reflexivity.
  - apply nth_error_None in Ef. assert (i < List.length res) by (apply nth_error_Some; congruence). lia.
Qed.

(** Any other number of unmeasured frames (fewer than all): ValueError. *)
Lemma detect_some_measured regions md nr nc kg pp em st pt cf cb ct frames gs :
  gain_list (map cr_hdr frames) = Ok gs -> List.length gs <> List.length frames -> List.length gs <> 1 ->
  detect_cosmic_rays regions md nr nc kg pp em st pt cf cb ct frames = Raise ValueError.
Proof.
  intros EG N1 N2. unfold detect_cosmic_rays. rewrite EG. cbn [bind]. unfold calc_sat_fwc, broadcast.
  destruct (Nat.eqb_spec (List.length gs) (List.length frames)); [congruence|].
  destruct gs as [|g [|g' gs]]; [reflexivity|cbn in N2; congruence|reflexivity].
Qed.
