(** Lemmas on the K-gain and non-linearity sequences. *)
From Coq Require Import List Arith Bool QArith ZArith String Sorted Permutation Lia Lqa.
From Verif Require Import Base DqModel SortModel SortSpec SortNameProofs SortRunProofs SortGroupProofs.
Import ListNotations.
Local Open Scope Z_scope.
Local Open Scope list_scope.

(** ** Booleans *)
Lemma qlt_iff : forall a b, qlt a b = true <-> (a < b)%Q.
Proof.
  intros a b. unfold qlt. rewrite negb_true_iff. split.
  - intros H. apply Qnot_le_lt. intros L. apply Qle_bool_iff in L. congruence.
  - intros H. destruct (Qle_bool b a) eqn:E; [|reflexivity]. apply Qle_bool_iff in E. lra.
Qed.
Lemma memQ_iff : forall q l, memQ q l = true <-> exists x, In x l /\ (x == q)%Q.
Proof.
  intros q l. unfold memQ. rewrite existsb_exists. split; intros (x & I & E); exists x; (split; [exact I|]).
  - apply Qeq_bool_iff in E. symmetry. exact E.
  - apply Qeq_bool_iff. symmetry. exact E.
Qed.
Lemma all_step1_iff : forall l, all_step1 l = true <-> consecutive l.
Proof.
  induction l as [|a l IH].
  - split; [|reflexivity]. intros _ [|i] x y X; discriminate X.
  - destruct l as [|b l].
    + split; [|reflexivity]. intros _ [|i] x y X Y; cbn in Y; [discriminate Y|destruct i; discriminate Y].
    + change (all_step1 (a :: b :: l)) with ((b - a =? 1) && all_step1 (b :: l)). rewrite andb_true_iff, IH, Z.eqb_eq. split.
      * intros [E C] [|i] x y X Y; [cbn in X, Y; injection X as <-; injection Y as <-; lia|exact (C i x y X Y)].
      * intros C. split; [pose proof (C 0%nat a b eq_refl eq_refl); lia|]. intros i x y X Y. exact (C (S i) x y X Y).
Qed.

Definition nodupQ (t : list Q) : Prop := StronglySorted (fun a b => ~ (a == b)%Q) t.
Lemma dedup_le : forall t, (List.length (dedupQ t) <= List.length t)%nat.
Proof. induction t as [|x t IH]; cbn [dedupQ List.length]; [lia|]. destruct (memQ x t); cbn [List.length]; lia. Qed.
Lemma dedup_len : forall t, List.length t = List.length (dedupQ t) <-> nodupQ t.
Proof.
  induction t as [|x t IH]; [split; [constructor|reflexivity]|]. cbn [dedupQ]. destruct (memQ x t) eqn:M.
  - split.
    + intros H. pose proof (dedup_le t). cbn in H. lia.
    + intros S. exfalso. inversion S as [|? ? _ F]; subst. apply memQ_iff in M. destruct M as (y & I & E). rewrite Forall_forall in F. apply (F y I). symmetry. exact E.
  - cbn [List.length]. split.
    + intros H. constructor; [apply IH; lia|]. rewrite Forall_forall. intros y I E. assert (X : memQ x t = true) by (apply memQ_iff; exists y; split; [exact I|symmetry; exact E]). congruence.
    + intros S. inversion S; subst. f_equal. apply IH. assumption.
Qed.
Lemma memQ_ext : forall x y l, (x == y)%Q -> memQ x l = memQ y l.
Proof. intros x y l E. apply eq_true_iff_eq. rewrite !memQ_iff. split; intros (z & I & Z); exists z; (split; [exact I|]); rewrite Z; [exact E|symmetry; exact E]. Qed.
Lemma dedup_snoc : forall u x, List.length (dedupQ (u ++ [x])) = if memQ x u then List.length (dedupQ u) else S (List.length (dedupQ u)).
Proof.
  induction u as [|y u IH]; intros x; [reflexivity|]. cbn [app dedupQ].
  assert (A : memQ y (u ++ [x]) = memQ y u || Qeq_bool y x) by (unfold memQ; rewrite existsb_app; cbn; rewrite orb_false_r; reflexivity).
  assert (B : memQ x (y :: u) = Qeq_bool x y || memQ x u) by reflexivity.
  assert (C : Qeq_bool x y = Qeq_bool y x) by (apply eq_true_iff_eq; rewrite !Qeq_bool_iff; split; intros; symmetry; assumption).
  rewrite A, B, C. destruct (Qeq_bool y x) eqn:E.
  - apply Qeq_bool_iff in E. rewrite orb_true_r. cbn [orb]. rewrite IH, <- (memQ_ext y x u E). destruct (memQ y u); reflexivity.
  - rewrite orb_false_r. cbn [orb]. destruct (memQ y u); cbn [List.length]; rewrite IH; destruct (memQ x u); reflexivity.
Qed.

(** ** Stretches of equal exposure time *)
Notation row := (Z * Q * string)%type (only parsing).
Definition ex (g : list row) : Q := match g with r :: _ => rexp r | [] => 0%Q end.
Definition len (g : list row) : Z := Z.of_nat (List.length g).
Definition eqx (a b : row) : bool := Qeq_bool (rexp b) (rexp a).

Lemma same_ex : forall g g', g <> [] -> g' <> [] -> same_exp g g -> same_exp g' g' -> (same_exp g g' <-> (ex g == ex g')%Q).
Proof.
  intros [|a g] [|b g'] N N' S S'; try congruence. cbn [ex]. split.
  - intros H. apply H; left; reflexivity.
  - intros E x y X Y. rewrite (S x a X (or_introl eq_refl)), E. symmetry. apply S'; [exact Y|left; reflexivity].
Qed.
Lemma shorter_ex : forall g g', g <> [] -> g' <> [] -> same_exp g g -> same_exp g' g' -> (shorter g g' <-> (ex g < ex g')%Q).
Proof.
  intros [|a g] [|b g'] N N' S S'; try congruence. cbn [ex]. split.
  - intros (x & y & X & Y & L). pose proof (S x a X (or_introl eq_refl)). pose proof (S' y b Y (or_introl eq_refl)). lra.
  - intros E. exists a, b. split; [left; reflexivity|]. split; [left; reflexivity|exact E].
Qed.
Lemma stretches_exist : forall s, stretches s (blocks _ eqx s).
Proof.
  intros s. destruct (blocks_cut _ eqx s) as (E & G & N). 
  assert (G' : forall g, In g (blocks _ eqx s) -> g <> [] /\ same_exp g g).
  { intros g I. destruct (G g I) as [A L]. split; [exact A|].
    assert (H : forall i r r0, nth_error g 0 = Some r0 -> nth_error g i = Some r -> (rexp r == rexp r0)%Q).
    { induction i as [|i IH]; intros r r0 R0 R; [assert (r = r0) by congruence; subst; reflexivity|].
      destruct (nth_error g i) as [r1|] eqn:R1; [|apply nth_error_None in R1; assert (S i < List.length g)%nat by (apply nth_error_Some; congruence); lia].
      pose proof (L _ _ _ R1 R) as X. unfold eqx in X. apply Qeq_bool_iff in X. rewrite X. exact (IH _ _ R0 eq_refl). }
    intros a b Ia Ib. apply In_nth_error in Ia, Ib. destruct Ia as (i & Ia), Ib as (j & Ib). destruct g as [|r0 g]; [congruence|].
    rewrite (H i a r0 eq_refl Ia). symmetry. exact (H j b r0 eq_refl Ib). }
  split; [exact E|]. split; [exact G'|]. intros i g g' A B S. destruct (N _ _ _ A B) as (p & x & y & t & -> & -> & F).
  unfold eqx in F. apply Qeq_bool_neq in F. apply F. symmetry. apply S; [apply in_or_app; right; left; reflexivity|left; reflexivity].
Qed.
Lemma stretches_tail : forall g G, stretches (List.concat (g :: G)) (g :: G) -> stretches (List.concat G) G.
Proof.
  intros g G (_ & A & B). split; [reflexivity|]. split; [intros h I; apply A; right; exact I|]. intros i h h' H H'. exact (B (S i) h h' H H').
Qed.
Lemma runs_group : forall g G e c, (forall r, In r g -> (rexp r == e)%Q) -> (forall g' G', G = g' :: G' -> g' <> [] /\ ~ (ex g' == e)%Q) ->
  runs e c (map rexp (g ++ List.concat G)) = (e, c + len g) :: match G with [] => [] | g' :: _ => runs (ex g') 0 (map rexp (List.concat G)) end.
Proof.
  induction g as [|r g IH]; intros G e c A B; cbn [app].
  - unfold len. cbn [List.length]. rewrite Z.add_0_r. destruct G as [|g' G']; [reflexivity|]. destruct (B g' G' eq_refl) as [N D].
    cbn [List.concat]. destruct g' as [|r g']; [congruence|]. cbn [app map runs ex] in *.
    destruct (Qeq_bool (rexp r) e) eqn:E; [apply Qeq_bool_iff in E; contradiction|]. rewrite Qeq_bool_refl. reflexivity.
  - cbn [map runs]. rewrite (proj2 (Qeq_bool_iff _ _) (A r (or_introl eq_refl))). rewrite IH; [|intros x X; apply A; right; exact X|exact B].
    f_equal. f_equal. unfold len. cbn [List.length]. lia.
Qed.
Lemma runs_stretches : forall G g G', G = g :: G' -> stretches (List.concat G) G -> runs (ex g) 0 (map rexp (List.concat G)) = map (fun g => (ex g, len g)) G.
Proof.
  induction G as [|g0 G IH]; intros g G' E S; [discriminate E|]. injection E as <- <-. cbn [List.concat map].
  destruct S as (ES & A & B). rewrite runs_group.
  - f_equal. destruct G as [|g' G']; [reflexivity|]. apply (IH g' G' eq_refl). exact (stretches_tail g0 _ (conj ES (conj A B))).
  - intros r R. destruct (A g0 (or_introl eq_refl)) as [N S0]. destruct g0 as [|r0 g0]; [congruence|]. apply S0; [exact R|left; reflexivity].
  - intros g' G' ->. destruct (A g' (or_intror (or_introl eq_refl))) as [N' S']. split; [exact N'|]. intros X.
    destruct (A g0 (or_introl eq_refl)) as [N0 S0]. apply (B 0%nat g0 g' eq_refl eq_refl). apply same_ex; try assumption. symmetry. exact X.
Qed.

Lemma skipn_nth : forall A (l : list A) i x, nth_error l i = Some x -> skipn i l = x :: skipn (S i) l.
Proof.
  intros A l i. revert l. induction i as [|i IH]; intros [|y l] x H; try discriminate H; cbn in H.
  - injection H as ->. reflexivity.
  - cbn [skipn]. rewrite (IH l x H). reflexivity.
Qed.

(** ** The search *)
Section Search.
Variable G : list (list row).
Hypothesis GS : stretches (List.concat G) G.
Let ids := map rid (List.concat G).
Let es := map ex G.
Let cs := map len G.

Definition stepb (idx : nat) : bool :=
  (nth (S idx) cs 0 =? nth idx cs 0) && all_step1 (pyslice ids (sumZ (firstn idx cs)) (sumZ (firstn (idx + 2) cs))) && qlt (nth idx es 0%Q) (nth (S idx) es 0%Q).
Definition turnb (idx : nat) : bool := qlt (nth (S idx) es 0%Q) (nth idx es 0%Q) && memQ (nth (S idx) es 0%Q) (firstn (S idx) es).

Lemma nth_es : forall i g, nth_error G i = Some g -> nth i es 0%Q = ex g.
Proof. intros i g H. apply nth_error_nth. unfold es. rewrite nth_error_map, H. reflexivity. Qed.
Lemma nth_cs : forall i g, nth_error G i = Some g -> nth i cs 0 = len g.
Proof. intros i g H. apply nth_error_nth. unfold cs. rewrite nth_error_map, H. reflexivity. Qed.
Lemma at_G : forall i, (i < List.length G)%nat -> exists g, nth_error G i = Some g /\ g <> [] /\ same_exp g g.
Proof.
  intros i L. destruct (nth_error G i) as [g|] eqn:E; [|apply nth_error_None in E; lia]. exists g. split; [reflexivity|]. apply (proj1 (proj2 GS)). exact (nth_error_In _ _ E).
Qed.
Lemma two_groups : forall i g g', nth_error G i = Some g -> nth_error G (S i) = Some g' ->
  pyslice ids (sumZ (firstn i cs)) (sumZ (firstn (i + 2) cs)) = map rid (g ++ g').
Proof.
  intros i g g' H H'. unfold cs, len. rewrite !firstn_map, !sumZ_lens.
  change (List.length (List.concat (firstn i G))) with (off _ G i). change (List.length (List.concat (firstn (i + 2) G))) with (off _ G (i + 2)).
  replace (i + 2)%nat with (S (S i)) by lia. rewrite (off_S _ _ _ _ H'), (off_S _ _ _ _ H).
  unfold ids. rewrite (off_cut _ _ _ _ H).
  assert (X : List.concat (skipn (S i) G) = g' ++ List.concat (skipn (S (S i)) G)).
  { rewrite (skipn_nth _ _ _ _ H'). reflexivity. }
  rewrite X. set (a := List.concat (firstn i G)). set (b := List.concat (skipn (S (S i)) G)).
  replace (map rid (a ++ g ++ g' ++ b)) with (map rid a ++ map rid (g ++ g') ++ map rid b) by (rewrite <- !map_app, <- !app_assoc; reflexivity).
  unfold off. fold a. replace (List.length a) with (List.length (map rid a)) by apply map_length.
  replace (List.length (map rid a) + List.length g + List.length g')%nat with (List.length (map rid a) + List.length (map rid (g ++ g')))%nat by (rewrite (map_length rid (g ++ g')), app_length; lia).
  apply pyslice_mid.
Qed.
Lemma stepb_iff : forall i, (S i < List.length G)%nat -> (stepb i = true <-> step G (S i)).
Proof.
  intros i L. destruct (at_G i) as (g & Hg & N & S); [lia|]. destruct (at_G (Datatypes.S i) L) as (g' & Hg' & N' & S').
  unfold stepb. rewrite (two_groups i g g' Hg Hg'), (nth_es _ _ Hg), (nth_es _ _ Hg'), (nth_cs _ _ Hg), (nth_cs _ _ Hg').
  rewrite !andb_true_iff, Z.eqb_eq, all_step1_iff, qlt_iff, <- (shorter_ex g g' N N' S S'). unfold step, len. split.
  - intros [[A B] C]. exists i, g, g'. repeat split; try assumption; lia.
  - intros (j & h & h' & E & Hh & Hh' & A & B & C). injection E as <-. assert (h = g) by congruence. assert (h' = g') by congruence. subst. repeat split; try assumption; lia.
Qed.
Lemma turnb_iff : forall i, (S i < List.length G)%nat -> (turnb i = true <-> turn G (S i)).
Proof.
  intros i L. destruct (at_G i) as (g & Hg & N & S); [lia|]. destruct (at_G (Datatypes.S i) L) as (g' & Hg' & N' & S').
  unfold turnb. rewrite (nth_es _ _ Hg), (nth_es _ _ Hg'), andb_true_iff, qlt_iff, memQ_iff, <- (shorter_ex g' g N' N S' S). unfold turn. split.
  - intros [A (x & X & E)]. unfold es in X. rewrite firstn_map in X. apply in_map_iff in X. destruct X as (h & <- & I). apply In_nth_error in I. destruct I as (k & K).
    assert (LK : (k < List.length (firstn (Datatypes.S i) G))%nat) by (apply nth_error_Some; congruence). rewrite firstn_length in LK.
    assert (K' : nth_error G k = Some h) by (rewrite <- (firstn_skipn (Datatypes.S i) G), nth_error_app1 by (rewrite firstn_length; lia); exact K).
    destruct (at_G k) as (h' & H' & Nh & Sh); [lia|]. assert (h' = h) by congruence. subst h'.
    exists i, g, g', k, h. repeat split; try assumption; [lia|]. apply same_ex; assumption.
  - intros (j & a & b & k & h & E & Ha & Hb & A & LK & Hk & S1). injection E as <-. assert (a = g) by congruence. assert (b = g') by congruence. subst a b.
    split; [exact A|]. exists (ex h). destruct (at_G k) as (h' & H' & Nh & Sh); [lia|]. assert (h' = h) by congruence. subst h'. split; [|apply same_ex; assumption].
    unfold es. rewrite firstn_map. apply in_map. apply nth_error_In with (n := k). rewrite <- (firstn_skipn (Datatypes.S i) G), nth_error_app1 in Hk by (rewrite firstn_length; lia). exact Hk.
Qed.
Lemma no_both : forall i, stepb i = true -> turnb i = false.
Proof.
  intros i H. unfold stepb, turnb in *. rewrite !andb_true_iff in H. destruct H as [_ H]. apply qlt_iff in H.
  destruct (qlt (nth (S i) es 0%Q) (nth i es 0%Q)) eqn:E; [|reflexivity]. apply qlt_iff in E. lra.
Qed.

(** exposure times collected up to stretch [n] *)
Definition T (n : nat) : list Q := nth 0 es 0%Q :: map (fun i => nth i es 0%Q) (filter (fun i => stepb (pred i)) (seq 1 n)).
Lemma T_S : forall n, T (S n) = T n ++ (if stepb n then [nth (S n) es 0%Q] else []).
Proof.
  intros n. unfold T. rewrite seq_S, filter_app, map_app. cbn [filter map Nat.add Nat.pred app]. f_equal. f_equal.
  destruct (stepb n); reflexivity.
Qed.
Lemma nodup_prefix : forall a b, nodupQ (a ++ b) -> nodupQ a.
Proof.
  intros a b S. unfold nodupQ in *. rewrite SS_nth in *. intros i j x y L X Y. apply (S i j x y L).
  - rewrite nth_error_app1; [exact X|apply nth_error_Some; congruence].
  - rewrite nth_error_app1; [exact Y|apply nth_error_Some; congruence].
Qed.
Lemma T_mono : forall n m, (n <= m)%nat -> nodupQ (T m) -> nodupQ (T n).
Proof.
  intros n m L. induction L as [|m L IH]; [auto|]. intros H. apply IH. rewrite T_S in H. exact (nodup_prefix _ _ H).
Qed.
Lemma T_distinct : forall n, (n < List.length G)%nat -> (nodupQ (T n) <-> distinct_steps G (S n)).
Proof.
  intros n L.
  assert (SI : forall i', In i' (0%nat :: filter (fun i => stepb (pred i)) (seq 1 n)) <-> i' = 0%nat \/ ((i' < S n)%nat /\ step G i')).
  { intros i'. cbn [In]. rewrite filter_In, in_seq. split.
    - intros [<-|[R B]]; [left; reflexivity|right]. split; [lia|]. destruct i' as [|i']; [lia|]. apply stepb_iff; [lia|exact B].
    - intros [->|[R B]]; [left; reflexivity|right]. assert (P : i' <> 0%nat) by (destruct B as (i & g & g' & E & _); lia). split; [lia|].
      destruct i' as [|i']; [lia|]. apply stepb_iff; [lia|exact B]. }
  assert (SL : StronglySorted lt (0%nat :: filter (fun i => stepb (pred i)) (seq 1 n))).
  { constructor.
    - rewrite <- (map_id (filter _ _)). apply SS_filter_map. rewrite map_id. rewrite SS_nth. intros i j a b Lt A B.
      assert (LA : (j < List.length (seq 1 n))%nat) by (apply nth_error_Some; congruence). rewrite seq_length in LA.
      rewrite (nth_error_nth' _ 0%nat) in A by (rewrite seq_length; lia). rewrite (nth_error_nth' _ 0%nat) in B by (rewrite seq_length; lia).
      injection A as <-. injection B as <-. rewrite !seq_nth by lia. lia.
    - rewrite Forall_forall. intros x I. apply filter_In in I. destruct I as [I _]. apply in_seq in I. lia. }
  assert (TM : T n = map (fun i => nth i es 0%Q) (0%nat :: filter (fun i => stepb (pred i)) (seq 1 n))) by reflexivity.
  rewrite TM. set (I := 0%nat :: filter (fun i => stepb (pred i)) (seq 1 n)) in *. clearbody I. clear TM.
  unfold nodupQ. rewrite SS_nth. rewrite SS_nth in SL. unfold distinct_steps. split.
  - intros H i i' g g' R A B Hg Hg' S.
    assert (Ii : In i I) by (apply SI; destruct A; [left; assumption|right; split; [lia|assumption]]).
    assert (Ii' : In i' I) by (apply SI; right; split; [lia|assumption]).
    apply In_nth_error in Ii, Ii'. destruct Ii as (a & Ia), Ii' as (b & Ib).
    assert (Lt : (a < b)%nat).
    { destruct (Nat.lt_trichotomy a b) as [Q|[Q|Q]]; [exact Q|subst; assert (i = i') by congruence; lia|]. pose proof (SL _ _ _ _ Q Ib Ia). lia. }
    apply (H a b (nth i es 0%Q) (nth i' es 0%Q) Lt); [rewrite nth_error_map, Ia; reflexivity|rewrite nth_error_map, Ib; reflexivity|].
    rewrite (nth_es _ _ Hg), (nth_es _ _ Hg'). destruct (at_G i) as (h & Hh & Nh & Sh); [apply nth_error_Some; congruence|]. destruct (at_G i') as (h' & Hh' & Nh' & Sh'); [apply nth_error_Some; congruence|].
    assert (h = g) by congruence. assert (h' = g') by congruence. subst. apply same_ex; assumption.
  - intros H a b x y Lt X Y. rewrite nth_error_map in X, Y. destruct (nth_error I a) as [i|] eqn:Ia; [|discriminate X]. destruct (nth_error I b) as [i'|] eqn:Ib; [|discriminate Y].
    cbn in X, Y. injection X as <-. injection Y as <-. pose proof (SL _ _ _ _ Lt Ia Ib) as R.
    pose proof (proj1 (SI i) (nth_error_In _ _ Ia)) as Si. pose proof (proj1 (SI i') (nth_error_In _ _ Ib)) as Si'. destruct Si' as [Z|[R' St']]; [lia|].
    destruct (at_G i) as (h & Hh & Nh & Sh); [lia|]. destruct (at_G i') as (h' & Hh' & Nh' & Sh'); [lia|].
    rewrite (nth_es _ _ Hh), (nth_es _ _ Hh'). intros E. apply (H i i' h h'); try assumption; [lia|destruct Si as [Z|[_ Z]]; [left; exact Z|right; exact Z]|]. apply same_ex; assumption.
Qed.

Lemma search_S : forall idx left times start found,
  search ids es cs idx (S left) times start found =
  if stepb idx then search ids es cs (S idx) left (match times with Some t => Some (t ++ [nth (S idx) es 0%Q]) | None => None end) start found
  else if turnb idx then
    match times with
    | None => Raise TypeError
    | Some t => if Nat.eqb (List.length t) (List.length (dedupQ t)) then search ids es cs (S idx) left None (S idx) (found ++ [(start, S idx)]) else search ids es cs (S idx) left times start found
    end
  else search ids es cs (S idx) left times start found.
Proof. reflexivity. Qed.
Lemma search_done : forall left idx st f,
  (search ids es cs idx left None st f = Ok f /\ forall i, (idx <= i < idx + left)%nat -> turnb i = false)
  \/ (search ids es cs idx left None st f = Raise TypeError /\ exists i, (idx <= i < idx + left)%nat /\ turnb i = true).
Proof.
  induction left as [|left IH]; intros idx st f.
  - left. split; [reflexivity|]. intros; lia.
  - rewrite search_S. destruct (stepb idx) eqn:Sb.
    + pose proof (no_both _ Sb) as NT. destruct (IH (S idx) st f) as [[E H]|[E (i & R & H)]].
      * left. split; [exact E|]. intros i R. destruct (Nat.eq_dec i idx) as [->|Q]; [exact NT|apply H; lia].
      * right. split; [exact E|]. exists i. split; [lia|exact H].
    + destruct (turnb idx) eqn:Tb; [right; split; [reflexivity|exists idx; split; [lia|exact Tb]]|].
      destruct (IH (S idx) st f) as [[E H]|[E (i & R & H)]].
      * left. split; [exact E|]. intros i R. destruct (Nat.eq_dec i idx) as [->|Q]; [exact Tb|apply H; lia].
      * right. split; [exact E|]. exists i. split; [lia|exact H].
Qed.
(** result of the search from a state in which nothing was found yet *)
Definition outcome (idx left : nat) (r : result (list (nat * nat))) : Prop :=
  (r = Ok [] /\ forall i, (idx <= i < idx + left)%nat -> turnb i = true -> ~ nodupQ (T i))
  \/ (exists i, (idx <= i < idx + left)%nat /\ turnb i = true /\ nodupQ (T i) /\ (forall i', (idx <= i' < i)%nat -> turnb i' = false)
      /\ ((r = Ok [(0%nat, S i)] /\ forall i', (idx <= i' < idx + left)%nat -> turnb i' = true -> i' = i)
          \/ (r = Raise TypeError /\ exists i', (i < i' < idx + left)%nat /\ turnb i' = true))).
Lemma search_outcome : forall left idx, outcome idx left (search ids es cs idx left (Some (T idx)) 0 []).
Proof.
  induction left as [|left IH]; intros idx.
  - left. split; [reflexivity|]. intros; lia.
  - assert (NEXT : turnb idx = false \/ (turnb idx = true /\ ~ nodupQ (T idx)) -> forall r, outcome (S idx) left r -> outcome idx (S left) r).
    { intros NT r [[E H]|(i & R & A & B & C & D)].
      - left. split; [exact E|]. intros i R Ti. destruct (Nat.eq_dec i idx) as [->|Q]; [destruct NT as [NT|[_ NT]]; [congruence|exact NT]|apply H; [lia|exact Ti]].
      - right. exists i. assert (NT' : turnb idx = false).
        { destruct NT as [NT|[_ NT]]; [exact NT|]. exfalso. apply NT. apply (T_mono idx i); [lia|exact B]. }
        split; [lia|]. split; [exact A|]. split; [exact B|]. split.
        + intros i' R'. destruct (Nat.eq_dec i' idx) as [->|Q]; [exact NT'|apply C; lia].
        + destruct D as [[E D]|[E (i' & R' & D)]]; [left|right]; (split; [exact E|]).
          * intros i' R' Ti'. destruct (Nat.eq_dec i' idx) as [->|Q]; [congruence|apply D; [lia|exact Ti']].
          * exists i'. split; [lia|exact D]. }
    rewrite search_S. destruct (stepb idx) eqn:Sb.
    + pose proof (T_S idx) as TS. rewrite Sb in TS. rewrite <- TS. apply NEXT; [left; apply no_both; exact Sb|]. apply IH.
    + pose proof (T_S idx) as TS. rewrite Sb, app_nil_r in TS. destruct (turnb idx) eqn:Tb.
      * destruct (Nat.eqb (List.length (T idx)) (List.length (dedupQ (T idx)))) eqn:ND.
        -- apply Nat.eqb_eq in ND. apply dedup_len in ND. right. exists idx. split; [lia|]. split; [exact Tb|]. split; [exact ND|]. split; [intros; lia|]. cbn [app].
           destruct (search_done left (S idx) (S idx) [(0%nat, S idx)]) as [[E H]|[E (i & R & H)]]; [left|right]; (split; [exact E|]).
           ++ intros i' R' Ti'. destruct (Nat.eq_dec i' idx) as [->|Q]; [reflexivity|]. rewrite H in Ti' by lia. discriminate Ti'.
           ++ exists i. split; [lia|exact H].
        -- apply NEXT; [right; split; [reflexivity|]|rewrite <- TS; apply IH]. intros N. apply dedup_len in N. apply Nat.eqb_neq in ND. contradiction.
      * apply NEXT; [left; reflexivity|]. rewrite <- TS. apply IH.
Qed.
End Search.

Definition row_ok (f : nat * sfr) (r : row) : Prop := frame_number (s_name (snd f)) (rid r) /\ s_exp (snd f) = Some (rexp r) /\ s_path (snd f) = snd r.
Lemma to_row_iff : forall f r, to_row f = Ok r <-> row_ok f r.
Proof.
  intros f ((z & e) & p). unfold to_row, row_ok, rid, rexp. cbn [fst snd]. destruct (extract_frame_id (s_name (snd f))) as [i|] eqn:E; cbn [bind].
  - destruct (s_exp (snd f)) as [q|]; cbn [getkey bind].
    + split; [intros H; injection H as <- <- <-; apply frame_id_spec in E; auto|]. intros (A & B & C). apply frame_id_spec in A. congruence.
    + split; [discriminate|]. intros (_ & B & _). discriminate B.
  - split; [discriminate|]. intros (A & _). apply frame_id_spec in A. congruence.
Qed.

Lemma turn_pos : forall G j, turn G j -> exists i, j = S i /\ (S i < List.length G)%nat.
Proof. intros G j (i & g & g' & k & h & -> & _ & H & _). exists i. split; [reflexivity|]. apply nth_error_Some. congruence. Qed.

(** What the K-gain search does on rows sorted by id. *)
Definition kgain_of (s : list row) : result (list string) :=
  match s with
  | [] => Raise IndexError
  | r0 :: _ =>
    let g := runs (rexp r0) 0 (map rexp s) in
    let es := map fst g in let cs := map snd g in
    do found <- search (map rid s) es cs 0 (List.length cs - 1) (Some [nth 0 es 0%Q]) 0 [];
    match argmax (map (fun p => Z.of_nat (snd p) - Z.of_nat (fst p)) found) with
    | None => Raise ValueError
    | Some k =>
      let '(a, b) := nth k found (0%nat, 0%nat) in
      let first := sumZ (firstn a cs) in
      Ok (pyslice (map snd s) first (first + sumZ (firstn (b + 1 - a) (skipn a cs))))
    end
  end.
Lemma kgain_paths_of : forall rest, kgain_paths rest = do rows <- mapR to_row rest; kgain_of (sortR rows).
Proof. reflexivity. Qed.

Lemma kgain_of_cons : forall s r0 s0, s = r0 :: s0 -> kgain_of s =
  (let g := runs (rexp r0) 0 (map rexp s) in
   let es := map fst g in let cs := map snd g in
   do found <- search (map rid s) es cs 0 (List.length cs - 1) (Some [nth 0 es 0%Q]) 0 [];
   match argmax (map (fun p => Z.of_nat (snd p) - Z.of_nat (fst p)) found) with
   | None => Raise ValueError
   | Some k =>
     let '(a, b) := nth k found (0%nat, 0%nat) in
     let first := sumZ (firstn a cs) in
     Ok (pyslice (map snd s) first (first + sumZ (firstn (b + 1 - a) (skipn a cs))))
   end).
Proof. intros s r0 s0 ->. reflexivity. Qed.
Lemma kgain_cases : forall s G, s <> [] -> stretches s G ->
  (kgain_of s = Raise ValueError /\ forall j, turn G j -> ~ distinct_steps G j)
  \/ exists j, turn G j /\ distinct_steps G j /\ (forall j', turn G j' -> (j <= j')%nat)
     /\ ((kgain_of s = Ok (map snd (List.concat (firstn (S j) G))) /\ forall j', turn G j' -> j' = j)
         \/ (kgain_of s = Raise TypeError /\ exists j', turn G j' /\ (j < j')%nat)).
Proof.
  intros s G N GS. destruct s as [|r0 s0] eqn:Es; [congruence|]. rewrite <- Es in *. clear N.
  destruct GS as (E & A & B). rewrite E in *. assert (GS : stretches (List.concat G) G) by (split; [reflexivity|split; assumption]).
  destruct G as [|g G'] eqn:EG; [discriminate Es|]. rewrite <- EG in *.
  assert (X0 : ex g = rexp r0).
  { destruct (A g) as [Ng _]; [rewrite EG; left; reflexivity|]. destruct g as [|r g]; [congruence|]. rewrite EG in Es. cbn in Es. injection Es as <- _. reflexivity. }
  assert (KO : kgain_of (List.concat G) =
    (do found <- search (map rid (List.concat G)) (map ex G) (map len G) 0 (List.length G - 1) (Some (T G 0)) 0 [];
     match argmax (map (fun p => Z.of_nat (snd p) - Z.of_nat (fst p)) found) with
     | None => Raise ValueError
     | Some k => let '(a, b) := nth k found (0%nat, 0%nat) in let first := sumZ (firstn a (map len G)) in
       Ok (pyslice (map snd (List.concat G)) first (first + sumZ (firstn (b + 1 - a) (skipn a (map len G)))))
     end)).
  { rewrite (kgain_of_cons _ _ _ Es). rewrite <- X0, (runs_stretches G g G' EG GS). cbv zeta.
    replace (map fst (map (fun g => (ex g, len g)) G)) with (map ex G) by (rewrite map_map; reflexivity).
    replace (map snd (map (fun g => (ex g, len g)) G)) with (map len G) by (rewrite map_map; reflexivity).
    rewrite (map_length len G). unfold T. cbn [seq filter map]. reflexivity. }
  rewrite KO. clear KO.
  assert (LG : (0 < List.length G)%nat) by (rewrite EG; cbn; lia).
  assert (TI : forall j, turn G j -> exists i, j = S i /\ (0 <= i < 0 + (List.length G - 1))%nat /\ turnb G i = true).
  { intros j H. destruct (turn_pos G j H) as (i & -> & L). exists i. split; [reflexivity|]. split; [lia|]. apply (turnb_iff G GS i L). exact H. }
  assert (IT : forall i, (0 <= i < 0 + (List.length G - 1))%nat -> turnb G i = true -> turn G (S i)) by (intros i R H; apply (turnb_iff G GS i); [lia|exact H]).
  destruct (search_outcome G (List.length G - 1) 0) as [[Er H]|(i & R & Tb & ND & FI & [[Er H]|[Er (i' & R' & H)]])]; rewrite Er; cbn [bind].
  - left. split; [reflexivity|]. intros j Tj. destruct (TI j Tj) as (i & -> & R & Tb). rewrite <- (T_distinct G GS i) by lia. exact (H i R Tb).
  - right. exists (S i). split; [exact (IT i R Tb)|]. split; [apply (T_distinct G GS i); [lia|exact ND]|].
    split; [intros j' Tj'; destruct (TI j' Tj') as (k & -> & Rk & Tk); rewrite (H k Rk Tk); lia|]. left. split; [|intros j' Tj'; destruct (TI j' Tj') as (k & -> & Rk & Tk); rewrite (H k Rk Tk); reflexivity].
    cbn [map argmax argmax_from nth firstn skipn sumZ fold_right]. f_equal. rewrite Z.add_0_l.
    replace (S i + 1 - 0)%nat with (S (S i)) by lia. fold (sumZ (firstn (S (S i)) (map len G))). unfold len. rewrite firstn_map, sumZ_lens.
    rewrite <- (firstn_skipn (S (S i)) G) at 1. rewrite concat_app, map_app. rewrite <- (map_length snd (List.concat (firstn (S (S i)) G))).
    exact (pyslice_mid _ [] (map snd (List.concat (firstn (S (S i)) G))) (map snd (List.concat (skipn (S (S i)) G)))).
  - right. exists (S i). split; [exact (IT i R Tb)|]. split; [apply (T_distinct G GS i); [lia|exact ND]|].
    split; [intros j' Tj'; destruct (TI j' Tj') as (k & -> & Rk & Tk); destruct (le_lt_dec i k); [lia|]; rewrite FI in Tk by lia; discriminate Tk|].
    right. split; [reflexivity|]. exists (S i'). split; [apply IT; [lia|exact H]|lia].
Qed.

Lemma kgain_of_iff : forall s p, kgain_of s = Ok p <-> exists sel, kgain_rows s sel /\ p = map snd sel.
Proof.
  intros s p. destruct s as [|r0 s0] eqn:Es.
  - split; [discriminate|]. intros (sel & (G & j & (E & A & B) & T & _) & _). destruct (turn_pos G j T) as (i & -> & L).
    destruct G as [|g G]; [cbn in L; lia|]. destruct (A g (or_introl eq_refl)) as [N _]. destruct g; [congruence|discriminate E].
  - rewrite <- Es. assert (N : s <> []) by congruence. clear Es r0 s0. split.
    + intros H. destruct (kgain_cases s _ N (stretches_exist s)) as [[E _]|(j & T & D & F & [[E U]|[E _]])]; try congruence.
      rewrite H in E. injection E as ->. eexists. split; [|reflexivity]. exists (blocks _ eqx s), j. split; [apply stretches_exist|]. auto.
    + intros (sel & (G & j & GS & T & U & D & ->) & ->).
      destruct (kgain_cases s G N GS) as [[E H]|(j' & T' & D' & F & [[E U']|[E (j'' & T'' & L)]])].
      * destruct (H j T D).
      * rewrite (U j' T') in E. exact E.
      * rewrite (U j' T'), (U j'' T'') in L. lia.
Qed.
Lemma kgain_second : forall s G j j', stretches s G -> turn G j -> turn G j' -> (j < j')%nat -> (forall i, turn G i -> (j <= i)%nat) -> distinct_steps G j -> kgain_of s = Raise TypeError.
Proof.
  intros s G j j' GS T T' L F D.
  assert (N : s <> []).
  { intros ->. destruct GS as (E & A & _). destruct (turn_pos G j T) as (i & _ & LG). destruct G as [|g G]; [cbn in LG; lia|]. destruct (A g (or_introl eq_refl)) as [N _]. destruct g; [congruence|discriminate E]. }
  destruct (kgain_cases s G N GS) as [[E H]|(k & Tk & D' & F' & [[E U']|[E _]])]; [destruct (H j T D)| |exact E].
  rewrite (U' j T), (U' j' T') in L. lia.
Qed.
