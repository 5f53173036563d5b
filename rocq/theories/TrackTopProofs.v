(** Proofs about the dictionary of traps. *)
From Coq Require Import List Arith Bool Reals Lra Lia ZArith String Permutation Sorted.
From Verif Require Import LocModel LocSpec LocProofs LocRunProofs LocFactsProofs TrackModel TrackSpec TrackProofs TrackRunProofs.
Import ListNotations.
Local Open Scope R_scope.

(** ** The list of traps *)
Lemma add_in : forall l acc k, In k (fold_left add_key l acc) <-> In k acc \/ In k l.
Proof.
  induction l as [|x l IH]; intros acc k; cbn [fold_left]; [cbn; tauto|]. rewrite IH. unfold add_key. destruct (in_dec key_dec x acc) as [I|I]; cbn [In]; [split; [tauto|intros [H|[<-|H]]; auto]|]. rewrite in_app_iff. cbn [In]. tauto.
Qed.
Lemma add_nodup : forall l acc, NoDup acc -> NoDup (fold_left add_key l acc).
Proof.
  induction l as [|x l IH]; intros acc N; cbn [fold_left]; [exact N|]. apply IH. unfold add_key. destruct (in_dec key_dec x acc) as [I|I]; [exact N|]. apply (Permutation_NoDup (Permutation_cons_append acc x)). constructor; assumption.
Qed.
Lemma add_filter : forall f l acc, filter f (fold_left add_key l acc) = fold_left add_key (filter f l) (filter f acc).
Proof.
  intros f. induction l as [|x l IH]; intros acc; cbn [fold_left filter]; [reflexivity|]. rewrite IH. unfold add_key at 2. destruct (in_dec key_dec x acc) as [I|I].
  - destruct (f x) eqn:E; [|reflexivity]. cbn [fold_left]. unfold add_key at 3. destruct (in_dec key_dec x (filter f acc)) as [J|J]; [reflexivity|]. destruct J. apply filter_In. auto.
  - rewrite filter_app. cbn [filter]. destruct (f x) eqn:E; [|rewrite app_nil_r; reflexivity]. cbn [fold_left]. unfold add_key at 3. destruct (in_dec key_dec x (filter f acc)) as [J|J]; [|reflexivity]. apply filter_In in J. tauto.
Qed.
Definition mine (i : coord) (sub : string) (k : key) : bool := if coord_dec (fst (fst k)) i then (if string_dec (snd (fst k)) sub then true else false) else false.
Lemma mine_iff : forall i sub k, mine i sub k = true <-> exists n, k = (i, sub, n).
Proof.
  intros i sub ((j, s), n). unfold mine. cbn [fst snd]. destruct (coord_dec j i) as [->|N1]; [destruct (string_dec s sub) as [->|N2]|]; (split; [intros H; try discriminate H; eexists; reflexivity|intros (m & E); congruence]).
Qed.
Lemma filter_keys : forall i sub l, filter (mine i sub) (keys_of (i, l)) = map (fun n => (i, sub, n)) (map t_it (filter (named sub) l)).
Proof.
  intros i sub l. unfold keys_of. cbn [fst snd]. induction l as [|x l IH]; [reflexivity|]. cbn [map filter]. unfold mine at 1. cbn [fst snd]. destruct (coord_dec i i); [|congruence]. unfold named at 1. destruct (string_dec (t_sub x) sub) as [E|E].
  - rewrite (proj2 (String.eqb_eq _ _) E). cbn [map]. rewrite IH, E. reflexivity.
  - destruct (String.eqb (t_sub x) sub) eqn:Q; [apply String.eqb_eq in Q; congruence|]. exact IH.
Qed.
Lemma filter_keys_other : forall i j sub l, j <> i -> filter (mine i sub) (keys_of (j, l)) = [].
Proof.
  intros i j sub l N. unfold keys_of. cbn [fst snd]. induction l as [|x l IH]; [reflexivity|]. cbn [map filter]. unfold mine at 1. cbn [fst snd]. destruct (coord_dec j i); [congruence|exact IH].
Qed.
Definition at_pixel (tr : traps) (i : coord) (sub : string) : list trap := match at_coord i tr with Some l => filter (named sub) l | None => [] end.
Lemma at_pixel_cons : forall j l tr i sub, at_pixel ((j, l) :: tr) i sub = if coord_dec i j then filter (named sub) l else at_pixel tr i sub.
Proof.
  intros j l tr i sub. unfold at_pixel. cbn [at_coord]. destruct (coord_dec i j) as [->|N].
  - assert (E : coord_eqb j j = true) by (unfold coord_eqb; rewrite !Z.eqb_refl; reflexivity). rewrite E. reflexivity.
  - destruct (coord_eqb i j) eqn:E; [|reflexivity]. unfold coord_eqb in E. apply andb_true_iff in E. destruct E as (E1 & E2). apply Z.eqb_eq in E1, E2. destruct N. destruct i, j. cbn in *. congruence.
Qed.
Lemma pixel_off : forall tr i sub, ~ In i (map fst tr) -> filter (mine i sub) (flat_map keys_of tr) = [].
Proof.
  intros tr i sub. induction tr as [|(j, l) tr IH]; intros N; [reflexivity|]. cbn [flat_map]. rewrite filter_app, filter_keys_other, IH; [reflexivity|intros H; apply N; right; exact H|intros ->; apply N; left; reflexivity].
Qed.
Lemma pixel_keys : forall tr i sub, numbered_traps tr -> filter (mine i sub) (flat_map keys_of tr) = map (fun n => (i, sub, n)) (seq 0 (List.length (at_pixel tr i sub))).
Proof.
  intros tr i sub (ND & NM). induction tr as [|(j, l) tr IH]; [reflexivity|]. cbn [flat_map]. rewrite filter_app, at_pixel_cons. cbn [map fst] in ND. inversion ND as [|? ? N1 N2]; subst. destruct (coord_dec i j) as [->|N].
  - rewrite filter_keys, (pixel_off _ _ _ N1), app_nil_r, (NM j l sub (or_introl eq_refl)). reflexivity.
  - rewrite filter_keys_other by congruence. apply IH; [exact N2|]. intros i' l' s I. apply (NM i'). right. exact I.
Qed.
Lemma add_seq : forall (k : nat -> key), (forall m n, k m = k n -> m = n) -> forall n m, fold_left add_key (map k (seq 0 n)) (map k (seq 0 m)) = map k (seq 0 (Nat.max m n)).
Proof.
  intros k INJ. induction n as [|n IH]; intros m; [rewrite Nat.max_0_r; reflexivity|]. rewrite seq_S, map_app, fold_left_app, IH. cbn [plus map fold_left]. unfold add_key. destruct (in_dec key_dec (k n) (map k (seq 0 (Nat.max m n)))) as [I|I].
  - apply in_map_iff in I. destruct I as (x & E & I). apply INJ in E. subst x. apply in_seq in I. f_equal. f_equal. lia.
  - assert (m <= n)%nat. { destruct (le_lt_dec m n); [assumption|]. destruct I. apply in_map. apply in_seq. lia. }
    replace (Nat.max m (S n)) with (S n) by lia. replace (Nat.max m n) with n by lia. rewrite seq_S, map_app. reflexivity.
Qed.
Fixpoint most (ts : temps) (i : coord) (sub : string) (m : nat) : nat := match ts with [] => m | (_, tr) :: t => most t i sub (Nat.max m (List.length (at_pixel tr i sub))) end.
Lemma most_lt : forall ts i sub m n, (n < most ts i sub m)%nat <-> (n < m)%nat \/ exists T tr, In (T, tr) ts /\ (n < List.length (at_pixel tr i sub))%nat.
Proof.
  induction ts as [|(T, tr) ts IH]; intros i sub m n; cbn [most].
  - split; [tauto|]. intros [H|(? & ? & [] & _)]. exact H.
  - rewrite IH. split.
    + intros [H|(T' & tr' & I & H)]; [destruct (lt_dec n m); [tauto|]; right; exists T, tr; split; [left; reflexivity|lia]|right; exists T', tr'; split; [right; exact I|exact H]].
    + intros [H|(T' & tr' & [I|I] & H)]; [left; lia|injection I as <- <-; left; lia|right; exists T', tr'; auto].
Qed.
Lemma trap_list_filter : forall ts i sub, (forall T tr, In (T, tr) ts -> numbered_traps tr) -> filter (mine i sub) (trap_list ts) = map (fun n => (i, sub, n)) (seq 0 (most ts i sub 0)).
Proof.
  intros ts i sub P. unfold trap_list. rewrite add_filter. enough (G : forall m, fold_left add_key (filter (mine i sub) (flat_map (fun e => flat_map keys_of (snd e)) ts)) (map (fun n => (i, sub, n)) (seq 0 m)) = map (fun n => (i, sub, n)) (seq 0 (most ts i sub m))) by exact (G 0%nat).
  revert P. induction ts as [|(T, tr) ts IH]; intros P m; [reflexivity|]. cbn [flat_map snd]. rewrite filter_app, fold_left_app, (pixel_keys tr i sub (P T tr (or_introl eq_refl))), add_seq by (intros ? ? E; congruence). cbn [most]. apply IH. intros T' tr' I. exact (P T' tr' (or_intror I)).
Qed.

(** ** All the traps in turn *)
Lemma stage_ext : forall sub Ts V W n T, (forall T, V T = W T) -> stage sub Ts V n T = stage sub Ts W n T.
Proof.
  intros sub Ts V W n. induction n as [|n IH]; intros T H; [exact (H T)|]. cbn [stage]. unfold less. rewrite (line_ext sub (stage sub Ts V n) (stage sub Ts W n)) by (intros T' _; exact (IH T' H)). destruct (look T _); rewrite (IH T H); reflexivity.
Qed.
Definition put_in (Ts : list R) (ts : temps) (k : key) : dict :=
  let '((i, sub), n) := k in match line sub (stage sub Ts (view ts i sub) n) [] Ts with [] => [] | _ => [(k, line_entry sub Ts (view ts i sub) n)] end.
Lemma nth_seq_key : forall (i : coord) (sub : string) N pre n post, map (fun n => (i, sub, n)) (seq 0 N) = pre ++ (i, sub, n) :: post -> n = List.length pre.
Proof.
  intros i sub N pre n post H. assert (E : nth_error (map (fun n => (i, sub, n)) (seq 0 N)) (List.length pre) = Some (i, sub, n)) by (rewrite H, nth_error_app2, Nat.sub_diag by lia; reflexivity).
  rewrite nth_error_map in E. destruct (nth_error (seq 0 N) (List.length pre)) as [m|] eqn:Q; [|discriminate E]. cbn in E. assert (m = n) by congruence. subst m. assert (LT : (List.length pre < N)%nat) by (rewrite <- (seq_length N 0); apply nth_error_Some; congruence). apply (nth_error_nth _ _ 0%nat) in Q. rewrite seq_nth in Q by exact LT. lia.
Qed.
Lemma track_run : forall ts Ts, NoDup Ts -> (forall T tr, In (T, tr) ts -> numbered_traps tr) -> forall ks pre tsn tse d, trap_list ts = pre ++ ks ->
  (forall i sub T, view tsn i sub T = stage sub Ts (view ts i sub) (List.length (filter (mine i sub) pre)) T) ->
  fold_left (track Ts) ks (tsn, flat_map (put_in Ts ts) pre) = (tse, d) ->
  d = flat_map (put_in Ts ts) (trap_list ts) /\ forall i sub T, view tse i sub T = stage sub Ts (view ts i sub) (most ts i sub 0) T.
Proof.
  intros ts Ts ND NUM. induction ks as [|((i, sub), n) ks IH]; intros pre tsn tse d E V H.
  - cbn [fold_left] in H. rewrite app_nil_r in E. injection H as <- <-. split; [rewrite E; reflexivity|]. intros i sub T. rewrite V, <- E, (trap_list_filter ts i sub NUM), map_length, seq_length. reflexivity.
  - cbn [fold_left] in H. unfold track at 2 in H. destruct (fold_left (visit (i, sub, n)) Ts (tsn, [])) as (ts1, pts) eqn:F. destruct (fold_line sub i n Ts tsn [] ts1 pts ND F) as (P & W). rewrite app_nil_r in P.
    assert (CNT : n = List.length (filter (mine i sub) pre)).
    { pose proof (trap_list_filter ts i sub NUM) as K. rewrite E, filter_app in K. cbn [filter] in K. rewrite (proj2 (mine_iff i sub (i, sub, n)) (ex_intro _ n eq_refl)) in K. exact (nth_seq_key _ _ _ _ _ _ (eq_sym K)). }
    assert (LE : line sub (view tsn i sub) [] Ts = line sub (stage sub Ts (view ts i sub) n) [] Ts) by (apply line_ext; intros T _; rewrite CNT; apply V).
    rewrite LE in P, W.
    apply (IH (pre ++ [(i, sub, n)]) ts1 tse d).
    + rewrite <- app_assoc. exact E.
    + intros j s T. rewrite W, filter_app, app_length. cbn [filter]. unfold mine at 2. cbn [fst snd].
      destruct (coord_dec j i) as [->|NJ]; [destruct (string_dec s sub) as [->|NS]|].
      * destruct (coord_dec i i); [|congruence]. destruct (string_dec sub sub); [|congruence]. cbn [List.length]. rewrite <- CNT, Nat.add_1_r. cbn [stage]. unfold less. rewrite V, <- CNT. reflexivity.
      * destruct (coord_dec i i); [|congruence]. destruct (string_dec sub s); [congruence|]. cbn [List.length]. rewrite Nat.add_0_r. apply V.
      * destruct (coord_dec i j); [congruence|]. cbn [List.length]. rewrite Nat.add_0_r. apply V.
    + rewrite flat_map_app. cbn [flat_map]. rewrite app_nil_r. rewrite <- H. f_equal. f_equal. unfold put_in at 2. unfold line_entry. rewrite P.
      destruct (line sub (stage sub Ts (view ts i sub) n) [] Ts) as [|q t] eqn:LL; [cbn [rev]; rewrite app_nil_r; reflexivity|]. destruct (rev (q :: t)) as [|? ?] eqn:RV; [|reflexivity]. apply (f_equal (@List.length _)) in RV. rewrite rev_length in RV. discriminate RV.
Qed.

(** ** Facts of proper inputs *)
Lemma seq_map_nodup : forall l : list trap, map t_it l = seq 0 (List.length l) -> NoDup l.
Proof. intros l H. apply (NoDup_map_inv t_it). rewrite H. apply seq_NoDup. Qed.
Lemma at_pixel_nodup : forall tr i sub, numbered_traps tr -> NoDup (at_pixel tr i sub).
Proof.
  intros tr i sub (ND & NM). unfold at_pixel. destruct (at_coord i tr) as [l|] eqn:E; [|constructor]. apply seq_map_nodup. exact (NM i l sub (at_coord_in _ _ _ _ E)).
Qed.
Lemma view_nodup : forall ts i sub T, proper ts -> NoDup (view ts i sub T).
Proof. intros ts i sub T (_ & P). unfold view. destruct (at_temp T ts) as [tr|] eqn:E; [exact (at_pixel_nodup tr i sub (P _ _ (at_temp_in _ _ _ E)))|constructor]. Qed.
Lemma view_named : forall ts i sub T x, In x (view ts i sub T) -> named sub x = true.
Proof. intros ts i sub T x. unfold view. destruct (at_temp T ts) as [tr|]; [|intros []]. destruct (at_coord i tr); [|intros []]. intros H. apply filter_In in H. tauto. Qed.
Lemma most_view : forall ts i sub n, proper ts -> ((n < most ts i sub 0)%nat <-> exists T, In T (map fst ts) /\ (n < List.length (view ts i sub T))%nat).
Proof.
  intros ts i sub n (ND & P). rewrite most_lt. split.
  - intros [H|(T & tr & I & H)]; [lia|]. exists T. split; [exact (in_map fst _ _ I)|]. unfold view. rewrite (in_at_temp _ _ _ ND I). exact H.
  - intros (T & _ & H). right. unfold view in H. destruct (at_temp T ts) as [tr|] eqn:E; [|cbn in H; lia]. exists T, tr. split; [exact (at_temp_in _ _ _ E)|exact H].
Qed.
Definition order_of (ts : temps) : list R := sort (map fst ts).
Lemma order_sorted : forall ts, proper ts -> StronglySorted Rlt (order_of ts).
Proof. intros ts (ND & _). apply sort_sorted. exact ND. Qed.
Definition asg_of (ts : temps) (i : coord) (sub : string) : nat -> R -> option trap := asg sub (order_of ts) (view ts i sub).
Lemma run_eq : forall ts ts' d, proper ts -> track_all ts = (ts', d) -> d = flat_map (put_in (order_of ts) ts) (trap_list ts) /\ forall i sub T, view ts' i sub T = stage sub (order_of ts) (view ts i sub) (most ts i sub 0) T.
Proof.
  intros ts ts' d P H. apply (track_run ts (order_of ts)) with (pre := []) (ks := trap_list ts) (tsn := ts); [apply ts_nodup, order_sorted, P|exact (proj2 P)|reflexivity|reflexivity|exact H].
Qed.
Lemma recorded_same : forall Ts Ts' a b n e, (forall T, In T Ts <-> In T Ts') -> (forall T, In T Ts -> a n T = b n T) -> recorded Ts a n e -> recorded Ts' b n e.
Proof.
  intros Ts Ts' a b n e HT HA (R1 & R2 & R3 & R4 & R5 & R6). split; [exact R1|]. split; [exact R2|]. split; [|].
  - intros T. rewrite R3, <- HT. split; intros (I & K); (split; [exact I|]); [rewrite <- (HA T I)|rewrite (HA T I)]; exact K.
  - assert (F : forall {B} (f : trap -> B) l v, (forall T, In T l -> In T Ts) -> Forall2 (fun T v => exists x, a n T = Some x /\ v = f x) l v -> Forall2 (fun T v => exists x, b n T = Some x /\ v = f x) l v).
    { intros B f l v S F. induction F as [|T w l v (x & X1 & X2) F IH]; constructor; [exists x; split; [rewrite <- (HA T (S T (or_introl eq_refl))); exact X1|exact X2]|apply IH; intros T' I; apply S; right; exact I]. }
    assert (S : forall T, In T (e_T e) -> In T Ts) by (intros T I; apply R3 in I; tauto). split; [exact (F _ _ _ _ S R4)|]. split; [exact (F _ _ _ _ S R5)|exact (F _ _ _ _ S R6)].
Qed.
Lemma tracked_same : forall L M Ts Ts' a, (forall T, In T Ts <-> In T Ts') -> (forall T, In T Ts -> L T = M T) -> tracked L Ts a -> tracked M Ts' a.
Proof.
  intros L M Ts Ts' a HT HL A. constructor.
  - intros n T I. apply HT in I. rewrite <- (HL T I). exact (tr_present _ _ _ A n T I).
  - intros n T x I H. apply HT in I. rewrite <- (HL T I). exact (tr_mine _ _ _ A n T x I H).
  - intros m n T x I. apply HT in I. exact (tr_once _ _ _ A m n T x I).
  - intros n T x I H K y FY. apply HT in I. unfold free in FY. rewrite <- (HL T I) in *. apply (tr_start _ _ _ A n T x I H); [|exact FY]. intros T' I'. apply HT in I'. exact (K T' I').
  - intros n T x T0 x0 I I0 H H0 G K y FY. apply HT in I, I0. unfold free in FY. rewrite <- (HL T I) in *. apply (tr_next _ _ _ A n T x T0 x0 I I0 H H0 G); [|exact FY]. intros T' I'. apply HT in I'. exact (K T' I').
Qed.
Lemma order_in : forall ts T, In T (order_of ts) <-> In T (map fst ts).
Proof. intros ts T. apply sort_in. Qed.
Lemma asg_of_tracked : forall ts i sub, proper ts -> tracked (view ts i sub) (map fst ts) (asg_of ts i sub).
Proof.
  intros ts i sub P. apply (tracked_same (view ts i sub) _ (order_of ts)); [apply order_in|reflexivity|]. apply asg_tracked; [apply order_sorted, P|apply view_named|intros T; apply view_nodup, P].
Qed.
Lemma dict_iff : forall ts ts' d i sub n e, proper ts -> track_all ts = (ts', d) -> (In ((i, sub, n), e) d <-> recorded (map fst ts) (asg_of ts i sub) n e).
Proof.
  intros ts ts' d i sub n e P H. destruct (run_eq _ _ _ P H) as (-> & _).
  assert (REC : line sub (stage sub (order_of ts) (view ts i sub) n) [] (order_of ts) <> [] -> recorded (map fst ts) (asg_of ts i sub) n (line_entry sub (order_of ts) (view ts i sub) n)).
  { intros NE. apply (recorded_same (order_of ts) _ (asg_of ts i sub)); [apply order_in|reflexivity|]. apply line_recorded; [apply order_sorted, P|exact NE]. }
  split.
  - intros I. apply in_flat_map in I. destruct I as (((j, s), m) & _ & I). unfold put_in in I.
    destruct (line s (stage s (order_of ts) (view ts j s) m) [] (order_of ts)) as [|q t] eqn:LL; [destruct I|]. destruct I as [I|[]]. injection I as -> -> -> <-. apply REC. rewrite LL. discriminate.
  - intros R. pose proof (asg_of_tracked ts i sub P) as TR. destruct R as (NE & R2). assert (R : recorded (map fst ts) (asg_of ts i sub) n e) by (split; assumption).
    destruct (e_T e) as [|T r] eqn:ET; [congruence|]. destruct R2 as (_ & RI & _). destruct (proj1 (RI T) (or_introl eq_refl)) as (IT & AT).
    assert (LT : (n < most ts i sub 0)%nat) by (apply (most_view ts i sub n P); exists T; split; [exact IT|exact (proj1 (tr_present _ _ _ TR n T IT) AT)]).
    apply in_flat_map. exists (i, sub, n). split.
    + assert (K : In (i, sub, n) (filter (mine i sub) (trap_list ts))) by (rewrite (trap_list_filter ts i sub (proj2 P)); apply (in_map (fun n => (i, sub, n))), in_seq; lia). apply filter_In in K. tauto.
    + unfold put_in. destruct (line sub (stage sub (order_of ts) (view ts i sub) n) [] (order_of ts)) as [|q t] eqn:LL.
      * exfalso. apply AT. change (look T (line sub (stage sub (order_of ts) (view ts i sub) n) [] (order_of ts)) = None). rewrite LL. reflexivity.
      * left. f_equal. apply (recorded_unique (map fst ts) (asg_of ts i sub) n); [apply REC; discriminate|exact R].
Qed.

(** ** Top level *)
Lemma followed : forall ts ts' d i sub L, proper ts -> track_all ts = (ts', d) -> (forall T, found ts i sub T (L T)) ->
  exists a, tracked L (map fst ts) a /\ forall n e, In ((i, sub, n), e) d <-> recorded (map fst ts) a n e.
Proof.
  intros ts ts' d i sub L P H F. exists (asg_of ts i sub). split; [|intros n e; exact (dict_iff _ _ _ _ _ _ _ P H)].
  apply (tracked_same (view ts i sub) _ (map fst ts)); [reflexivity| |exact (asg_of_tracked ts i sub P)]. intros T _. symmetry. apply (found_view ts i sub T (L T) P), F.
Qed.
Lemma found_some : forall ts i sub, proper ts -> exists L, forall T, found ts i sub T (L T).
Proof. intros ts i sub P. exists (view ts i sub). intros T. apply found_view; [exact P|reflexivity]. Qed.
Lemma found_one : forall ts i sub T l m, proper ts -> found ts i sub T l -> found ts i sub T m -> l = m.
Proof. intros ts i sub T l m P A B. apply (found_view _ _ _ _ _ P) in A, B. congruence. Qed.
Lemma found_distinct : forall ts i sub T l, proper ts -> found ts i sub T l -> NoDup l.
Proof. intros ts i sub T l P H. apply (found_view _ _ _ _ _ P) in H. subst l. apply view_nodup, P. Qed.
Lemma flat_keys : forall Ts ts ks, NoDup ks -> NoDup (map fst (flat_map (put_in Ts ts) ks)) /\ forall k, In k (map fst (flat_map (put_in Ts ts) ks)) -> In k ks.
Proof.
  intros Ts ts ks N. induction N as [|((i, sub), n) ks N1 N2 (IH1 & IH2)]; [split; [constructor|intros ? []]|]. cbn [flat_map]. rewrite map_app. unfold put_in at 1 3. destruct (line sub (stage sub Ts (view ts i sub) n) [] Ts); cbn [map fst app].
  - split; [exact IH1|]. intros k K. right. exact (IH2 k K).
  - split; [constructor; [intros K; apply N1, IH2, K|exact IH1]|]. intros k [<-|K]; [left; reflexivity|right; exact (IH2 k K)].
Qed.
Lemma keys_once : forall ts ts' d, proper ts -> track_all ts = (ts', d) -> NoDup (map fst d).
Proof. intros ts ts' d P H. destruct (run_eq _ _ _ P H) as (-> & _). apply flat_keys. apply add_nodup. constructor. Qed.
(** Every fit is in one trap, by counting. *)
Lemma every_fit : forall L Ts a T x, (forall T, NoDup (L T)) -> tracked L Ts a -> In T Ts -> In x (L T) -> exists! n, a n T = Some x.
Proof.
  intros L Ts a T x ND A I X. assert (EX : exists n, a n T = Some x).
  { set (f := fun n => match a n T with Some y => y | None => x end). set (l := map f (seq 0 (List.length (L T)))).
    assert (S : forall n, In n (seq 0 (List.length (L T))) -> a n T = Some (f n)). { intros n N. apply in_seq in N. unfold f. destruct (a n T) as [y|] eqn:E; [reflexivity|]. exfalso. apply (tr_present _ _ _ A n T I); [lia|exact E]. }
    assert (NL : NoDup l). { unfold l. assert (NS : NoDup (seq 0 (List.length (L T)))) by apply seq_NoDup. revert NS S. generalize (seq 0 (List.length (L T))) as q. induction q as [|m q IH]; intros NS S; cbn [map]; constructor; inversion NS as [|? ? NS1 NS2]; subst; [|apply IH; [exact NS2|intros n N; apply S; right; exact N]].
      intros J. apply in_map_iff in J. destruct J as (m' & E & J). apply NS1. assert (m' = m) by (apply (tr_once _ _ _ A m' m T (f m) I); [rewrite <- E; apply S; right; exact J|apply S; left; reflexivity]). subst m'. exact J. }
    assert (IN : incl l (L T)). { intros y Y. unfold l in Y. apply in_map_iff in Y. destruct Y as (n & <- & N). exact (tr_mine _ _ _ A n T _ I (S n N)). }
    assert (SUR : incl (L T) l) by (apply NoDup_length_incl; [exact NL|unfold l; rewrite map_length, seq_length; lia|exact IN]). pose proof (SUR x X) as Y. unfold l in Y. apply in_map_iff in Y. destruct Y as (n & E & N). exists n. rewrite <- E. exact (S n N). }
  destruct EX as (n & E). exists n. split; [exact E|]. intros m M. exact (tr_once _ _ _ A n m T x I E M).
Qed.
(** ** What remains *)
Definition shape (ts : temps) : list (R * list coord) := map (fun e => (fst e, map fst (snd e))) ts.
Lemma alter_coord_keys : forall {A} (f : A -> A) i d, map fst (alter_coord i f d) = map fst d.
Proof. intros A f i d. induction d as [|(j, v) d IH]; cbn [alter_coord]; [reflexivity|]. destruct (coord_eqb i j); cbn [map fst]; [reflexivity|f_equal; exact IH]. Qed.
Lemma alter_temp_shape : forall T f ts, (forall tr, map fst (f tr) = map fst tr) -> shape (alter_temp T f ts) = shape ts.
Proof. intros T f ts H. unfold shape. induction ts as [|(T', v) ts IH]; cbn [alter_temp]; [reflexivity|]. destruct (Req_EM_T T T'); cbn [map fst snd]; [rewrite H; reflexivity|f_equal; exact IH]. Qed.
Lemma visit_shape : forall k st T, shape (fst (visit k st T)) = shape (fst st).
Proof.
  intros ((i, sub), n) (ts, pts) T. cbn [visit]. destruct (at_temp T ts); [|reflexivity]. destruct (at_coord i t); [|reflexivity]. destruct (pick sub pts T l); [|reflexivity]. cbn [fst]. apply alter_temp_shape. intros tr. apply alter_coord_keys.
Qed.
Lemma visits_shape : forall k Ts st, shape (fst (fold_left (visit k) Ts st)) = shape (fst st).
Proof. intros k. induction Ts as [|T Ts IH]; intros st; [reflexivity|]. cbn [fold_left]. rewrite IH. apply visit_shape. Qed.
Lemma tracks_shape : forall Ts ks st, shape (fst (fold_left (track Ts) ks st)) = shape (fst st).
Proof.
  intros Ts. induction ks as [|k ks IH]; intros st; [reflexivity|]. cbn [fold_left]. rewrite IH. destruct st as (ts, d). unfold track. pose proof (visits_shape k Ts (ts, [])) as V. destruct (fold_left (visit k) Ts (ts, [])) as (ts1, pts). exact V.
Qed.
Lemma shape_in : forall ts T tr, In (T, tr) ts -> In (T, map fst tr) (shape ts).
Proof. intros ts T tr H. unfold shape. exact (in_map (fun e : R * traps => (fst e, map fst (snd e))) _ _ H). Qed.
Lemma nothing_left : forall ts ts' d, proper ts -> track_all ts = (ts', d) -> left_over ts' = 0%nat.
Proof.
  intros ts ts' d P H. destruct (run_eq _ _ _ P H) as (_ & V).
  assert (SH : shape ts' = shape ts) by (pose proof (tracks_shape (sort (map fst ts)) (trap_list ts) (ts, [])) as K; unfold track_all in H; rewrite H in K; exact K).
  assert (ND : NoDup (map fst ts')). { assert (E : forall l : temps, map fst l = map fst (shape l)) by (intros l; unfold shape; rewrite map_map; reflexivity). rewrite E, SH, <- E. exact (proj1 P). }
  assert (KD : forall T tr, In (T, tr) ts' -> NoDup (map fst tr)).
  { intros T tr I. apply shape_in in I. rewrite SH in I. unfold shape in I. apply in_map_iff in I. destruct I as ((T0, tr0) & E & I). cbn [fst snd] in E. assert (E' : map fst tr0 = map fst tr) by congruence. rewrite <- E'. exact (proj1 (proj2 P T0 tr0 I)). }
  assert (EMP : forall i sub T, In T (map fst ts) -> view ts' i sub T = []).
  { intros i sub T I. rewrite V. apply length_zero_iff_nil. rewrite stage_len; [|apply order_sorted, P|apply view_named|intros T'; apply view_nodup, P|apply order_in, I]. pose proof (proj2 (most_view ts i sub (List.length (view ts i sub T) - 1) P)) as M. destruct (view ts i sub T) as [|x l] eqn:E; [reflexivity|]. assert (K : (List.length (x :: l) - 1 < most ts i sub 0)%nat) by (apply M; exists T; split; [exact I|rewrite E; cbn [List.length]; lia]). cbn [List.length] in *. lia. }
  assert (ALL : forall T tr i l, In (T, tr) ts' -> In (i, l) tr -> l = []).
  { intros T tr i l I J. destruct l as [|x l]; [reflexivity|]. exfalso. assert (IT : In T (map fst ts)). { assert (E : map fst ts = map fst ts') by (assert (G : forall q : temps, map fst q = map fst (shape q)) by (intros q; unfold shape; rewrite map_map; reflexivity); rewrite (G ts), (G ts'), SH; reflexivity). rewrite E. exact (in_map fst _ _ I). }
    pose proof (EMP i (t_sub x) T IT) as W. unfold view in W. rewrite (in_at_temp _ _ _ ND I), (in_at_coord _ _ _ _ (KD T tr I) J) in W. cbn [filter] in W. unfold named at 1 in W. rewrite String.eqb_refl in W. discriminate W. }
  clear -ALL. unfold left_over. induction ts' as [|(T, tr) ts' IH]; [reflexivity|]. cbn [fold_right snd]. rewrite IH by (intros T' tr' i l I J; apply (ALL T' tr' i l); [right; exact I|exact J]). rewrite Nat.add_0_r.
  assert (A : forall i l, In (i, l) tr -> l = []) by (intros i l J; apply (ALL T tr i l); [left; reflexivity|exact J]). clear -A. induction tr as [|(i, l) tr IH]; [reflexivity|]. cbn [fold_right snd]. rewrite (A i l (or_introl eq_refl)), IH by (intros j m J; apply (A j m); right; exact J). reflexivity.
Qed.
(** ** The order of the temperatures and the pixels *)
Lemma order_free : forall ts us ts' us' d e, proper ts -> proper us -> (forall T, In T (map fst ts) <-> In T (map fst us)) -> (forall i sub T l, found ts i sub T l <-> found us i sub T l) ->
  track_all ts = (ts', d) -> track_all us = (us', e) -> Permutation d e.
Proof.
  intros ts us ts' us' d e P Q HT HF H K.
  assert (VV : forall i sub T, view ts i sub T = view us i sub T) by (intros i sub T; apply (found_view us i sub T _ Q), HF, found_view; [exact P|reflexivity]).
  apply NoDup_Permutation; [exact (NoDup_map_inv fst _ (keys_once _ _ _ P H))|exact (NoDup_map_inv fst _ (keys_once _ _ _ Q K))|]. intros (((i, sub), n), en). rewrite (dict_iff _ _ _ _ _ _ _ P H), (dict_iff _ _ _ _ _ _ _ Q K).
  assert (AB : forall n T, In T (map fst ts) -> asg_of ts i sub n T = asg_of us i sub n T).
  { apply (tracked_unique (view ts i sub)); [intros T; apply view_nodup, P|apply asg_of_tracked, P|]. apply (tracked_same (view us i sub) _ (map fst us)); [intros T; symmetry; apply HT|intros T _; symmetry; apply VV|apply asg_of_tracked, Q]. }
  split; apply recorded_same.
  - exact HT. - intros T I. exact (AB n T I). - intros T. symmetry. apply HT. - intros T I. symmetry. apply AB, HT, I.
Qed.
(** ** The counts *)
Lemma counts_filter : forall {A} (P : A -> Prop) f l, (forall x, In x l -> (f x = true <-> P x)) -> counts P l (List.length (filter f l)).
Proof.
  intros A P f l. induction l as [|x l IH]; intros H; [constructor|]. cbn [filter]. pose proof (H x (or_introl eq_refl)) as X. assert (K : counts P l (List.length (filter f l))) by (apply IH; intros y Y; apply H; right; exact Y). destruct (f x); cbn [List.length]; [apply counts_yes; tauto|apply counts_no; [|exact K]]. intros Y. apply X in Y. discriminate Y.
Qed.
Lemma counts_fun : forall {A} (P : A -> Prop) l m n, counts P l m -> counts P l n -> m = n.
Proof. intros A P l m n H. revert n. induction H; intros n' K; inversion K; subst; try tauto; [f_equal|]; auto. Qed.
Lemma two_or_less_counts : forall d, counts (fun q => (List.length (e_T (snd q)) <= 2)%nat) d (two_or_less d).
Proof. intros d. unfold two_or_less. apply counts_filter. intros x _. apply Nat.leb_le. Qed.
Lemma index_split : forall l1 T l2, ~ In T l1 -> index T (l1 ++ T :: l2) = List.length l1.
Proof. induction l1 as [|u l1 IH]; intros T l2 N; cbn [index app List.length]; [destruct (Req_EM_T T T); congruence|]. destruct (Req_EM_T T u) as [->|]; [destruct N; left; reflexivity|]. rewrite IH; [reflexivity|]. intros H. apply N. right. exact H. Qed.
Lemma gaps_iff : forall Ts e, StronglySorted Rlt Ts -> e_T e <> [] -> StronglySorted Rlt (e_T e) -> (forall T, In T (e_T e) -> In T Ts) -> (gaps Ts e = true <-> has_gap Ts e).
Proof.
  intros Ts e ST NE SE SUB. unfold gaps, has_gap. destruct (e_T e) as [|T1 r] eqn:EE; [congruence|]. destruct (rev (T1 :: r)) as [|Tf rr] eqn:RV; [apply (f_equal (@List.length _)) in RV; rewrite rev_length in RV; discriminate RV|].
  assert (EF : T1 :: r = rev rr ++ [Tf]) by (rewrite <- (rev_involutive (T1 :: r)), RV; reflexivity). 
  assert (ND : forall l, StronglySorted Rlt l -> NoDup l) by (intros l S; apply (ts_nodup l S)).
  assert (LOW : forall T, In T (T1 :: r) -> T1 <= T) by (intros T [<-|I]; [lra|]; inversion SE as [|? ? _ F]; rewrite Forall_forall in F; left; exact (F T I)).
  assert (HIGH : forall T, In T (T1 :: r) -> T <= Tf). { intros T I. rewrite EF in I, SE. destruct (sorted_split _ _ _ SE) as (A & _). apply in_app_or in I. destruct I as [I|[<-|[]]]; [left; exact (A T I)|lra]. }
  assert (I1 : In T1 Ts) by (apply SUB; left; reflexivity). assert (IF : In Tf (T1 :: r)) by (rewrite EF; apply in_elt).
  (* the temperatures from the first to the last *)
  set (w := filter (fun T => if Rle_dec T1 T then (if Rle_dec T Tf then true else false) else false) Ts).
  assert (WI : forall T, In T w <-> In T Ts /\ T1 <= T <= Tf) by (intros T; unfold w; rewrite filter_In; destruct (Rle_dec T1 T), (Rle_dec T Tf); split; try tauto; intros (? & ?); try discriminate; lra).
  assert (NW : NoDup w) by (apply NoDup_filter, ND, ST).
  assert (LW : List.length w = (index Tf Ts + 1 - index T1 Ts)%nat /\ (index T1 Ts <= index Tf Ts)%nat).
  { apply in_split in I1. destruct I1 as (a & b & E1). pose proof ST as ST'. rewrite E1 in ST'. destruct (sorted_split _ _ _ ST') as (A & B). assert (N1 : ~ In T1 a) by (intros J; pose proof (A T1 J); lra). unfold w. rewrite E1, (index_split a T1 b N1), filter_app.
    assert (FA : filter (fun T => if Rle_dec T1 T then (if Rle_dec T Tf then true else false) else false) a = []). { clear -A. induction a as [|u a IH]; [reflexivity|]. cbn [filter]. pose proof (A u (or_introl eq_refl)). destruct (Rle_dec T1 u); [lra|]. apply IH. intros y Y. apply A. right. exact Y. }
    rewrite FA. cbn [app].
    assert (IF2 : In Tf (T1 :: b)). { pose proof (SUB Tf IF) as J. rewrite E1 in J. apply in_app_or in J. destruct J as [J|J]; [|exact J]. pose proof (A Tf J). pose proof (LOW Tf IF). lra. }
    apply in_split in IF2. destruct IF2 as (c & g & E2). rewrite E2. rewrite E2 in ST'. rewrite app_assoc in ST'. destruct (sorted_split _ _ _ ST') as (A2 & B2). assert (N2 : ~ In Tf (a ++ c)) by (intros J; pose proof (A2 Tf J); lra). rewrite app_assoc, (index_split (a ++ c) Tf g N2), app_length.
    assert (GE : forall T, In T (T1 :: b) -> T1 <= T) by (intros T [<-|J]; [lra|left; exact (B T J)]). rewrite E2 in GE. rewrite filter_app.
    assert (FC : filter (fun T => if Rle_dec T1 T then (if Rle_dec T Tf then true else false) else false) c = c). { assert (K : forall T, In T c -> T1 <= T <= Tf) by (intros T J; split; [apply GE, in_or_app; left; exact J|left; apply A2, in_or_app; right; exact J]). clear -K. induction c as [|u c IH]; [reflexivity|]. cbn [filter]. pose proof (K u (or_introl eq_refl)). destruct (Rle_dec T1 u); [|lra]. destruct (Rle_dec u Tf); [|lra]. f_equal. apply IH. intros T J. apply K. right. exact J. }
    rewrite FC. assert (FG : filter (fun T => if Rle_dec T1 T then (if Rle_dec T Tf then true else false) else false) (Tf :: g) = [Tf]). { cbn [filter]. pose proof (LOW Tf IF). destruct (Rle_dec T1 Tf); [|lra]. destruct (Rle_dec Tf Tf); [|lra]. f_equal. clear -B2. induction g as [|u g IH]; [reflexivity|]. cbn [filter]. pose proof (B2 u (or_introl eq_refl)). destruct (Rle_dec T1 u); [destruct (Rle_dec u Tf); [lra|]|]; apply IH; intros y Y; apply B2; right; exact Y. }
    rewrite FG, app_length. cbn [List.length]. split; lia. }
  destruct LW as (LW & LI).
  assert (INC : incl (T1 :: r) w) by (intros T I; apply WI; split; [exact (SUB T I)|split; [exact (LOW T I)|exact (HIGH T I)]]).
  assert (LE : (List.length (T1 :: r) <= List.length w)%nat) by (apply NoDup_incl_length; [apply ND, SE|exact INC]).
  rewrite negb_true_iff, Z.eqb_neq. split.
  - intros NEQ. assert (LT : (List.length (T1 :: r) < List.length w)%nat) by lia.
    assert (EX : exists T, In T w /\ ~ In T (T1 :: r)).
    { destruct (Exists_dec (fun T => ~ In T (T1 :: r)) w) as [X|X]; [intros T; destruct (in_dec Req_EM_T T (T1 :: r)); [right; tauto|left; assumption]|apply Exists_exists in X; exact X|]. exfalso.
      assert (INC' : incl w (T1 :: r)) by (intros T I; destruct (in_dec Req_EM_T T (T1 :: r)) as [J|J]; [exact J|destruct X; apply Exists_exists; exists T; auto]). pose proof (NoDup_incl_length NW INC'). lia. }
    destruct EX as (T & IW & NI). apply WI in IW. destruct IW as (IT & GE1 & GE2). exists T, T1, Tf. split; [exact IT|]. split; [exact NI|]. split; [left; reflexivity|]. split; [exact IF|]. split; [destruct GE1 as [G|G]; [exact G|]; subst T; destruct NI; left; reflexivity|destruct GE2 as [G|G]; [exact G|]; subst T; contradiction].
  - intros (T & Ta & Tb & IT & NI & Ia & Ib & G) EQ. assert (IW : In T w) by (apply WI; split; [exact IT|]; pose proof (LOW Ta Ia); pose proof (HIGH Tb Ib); lra).
    assert (INC' : incl (T :: T1 :: r) w) by (intros u [<-|U]; [exact IW|exact (INC u U)]). pose proof (NoDup_incl_length (NoDup_cons T NI (ND _ SE)) INC') as K. cbn [List.length] in K, EQ, LW. lia.
Qed.
Lemma noncontinuous_counts : forall ts ts' d, proper ts -> track_all ts = (ts', d) -> counts (fun q => has_gap (map fst ts) (snd q)) d (noncontinuous (sort (map fst ts)) d).
Proof.
  intros ts ts' d P H. unfold noncontinuous. apply counts_filter. intros (((i, sub), n), e) I. cbn [snd]. apply (dict_iff _ _ _ _ _ _ _ P H) in I. destruct I as (R1 & R2 & R3 & _).
  rewrite gaps_iff; [|apply order_sorted, P|exact R1|exact R2|intros T J; apply sort_in; apply R3 in J; tauto]. unfold has_gap. split; intros (T & T1 & T2 & IT & K); exists T, T1, T2; (split; [apply sort_in; exact IT|exact K]).
Qed.
(** ** The traps as located *)
Lemma located_proper : forall order ts last, arranges order -> NoDup (map fst ts) -> (forall T ks s, In (T, (ks, s)) ts -> well_formed s) -> proper (fst (all_temps order last ts)).
Proof.
  intros order ts last AR ND WF. rewrite temps_each. split; [rewrite map_map; exact ND|]. intros T tr I. apply in_map_iff in I. destruct I as ((T0, (ks, s)) & E & I). cbn [fst snd] in E. injection E as <- <-. destruct (locate order ks s) as (s', t) eqn:LO. cbn [snd].
  split; [exact (pixels_once _ _ _ _ _ (WF _ _ _ I) AR LO)|]. intros i l sub J. exact (proj2 (numbered _ _ _ _ _ _ _ sub (WF _ _ _ I) AR LO J)).
Qed.
(** ** A case *)
Definition dtrap (tau : R) (it : nat) : trap := mktrap "LHSel1" tau 0 [] it.
Definition demo_temps : temps := [(170, [((0, 0)%Z, [dtrap (9 / 2) 0; dtrap 2 1])]); (160, [((0, 0)%Z, [dtrap 1 0; dtrap 5 1])])].
Lemma demo_proper : proper demo_temps.
Proof.
  split; [repeat constructor; cbn; intuition lra|]. intros T tr [E|[E|[]]]; injection E as <- <-; (split; [repeat constructor; cbn; tauto|]); intros i l sub [J|[]]; injection J as <- <-; cbn [filter]; unfold named; cbn [t_sub dtrap]; destruct (String.eqb "LHSel1" sub); reflexivity.
Qed.
Lemma demo_tracks : forall ts' d, track_all demo_temps = (ts', d) -> In (((0, 0)%Z, "LHSel1"%string, 0%nat), mkentry [160; 170] [1; 2] [0; 0] [[]; []]) d.
Proof.
  intros ts' d H. destruct (found_some demo_temps (0, 0)%Z "LHSel1" demo_proper) as (L & F). destruct (followed _ _ _ _ _ _ demo_proper H F) as (a & A & D). apply D.
  assert (L1 : L 160 = [dtrap 1 0; dtrap 5 1]) by (apply (found_one demo_temps (0, 0)%Z "LHSel1" 160); [exact demo_proper|apply F|left; do 2 eexists; split; [right; left; reflexivity|split; [left; reflexivity|reflexivity]]]).
  assert (L2 : L 170 = [dtrap (9 / 2) 0; dtrap 2 1]) by (apply (found_one demo_temps (0, 0)%Z "LHSel1" 170); [exact demo_proper|apply F|left; do 2 eexists; split; [left; reflexivity|split; [left; reflexivity|reflexivity]]]).
  assert (I1 : In 160 (map fst demo_temps)) by (cbn; tauto). assert (I2 : In 170 (map fst demo_temps)) by (cbn; tauto).
  assert (FR : forall T y, In y (L T) -> free L a 0 T y) by (intros T y Y; split; [exact Y|intros m M; lia]).
  assert (A1 : a 0%nat 160 = Some (dtrap 1 0)).
  { destruct (a 0%nat 160) as [x|] eqn:E; [|exfalso; apply (tr_present _ _ _ A 0%nat 160 I1); [rewrite L1; cbn; lia|exact E]]. f_equal.
    assert (LOW : forall T', In T' (map fst demo_temps) -> T' < 160 -> a 0%nat T' = None) by (intros T' [<-|[<-|[]]] G; cbn in G; lra).
    destruct (tr_start _ _ _ A 0%nat 160 x I1 E LOW (dtrap 1 0)) as [K|K]; [apply FR; rewrite L1; left; reflexivity|exact K|]. rewrite L1 in K. apply precedes_inv in K. destruct K as [(K & _)|K]; [congruence|]. apply precedes_inv in K. destruct K as [(_ & [])|K]. apply precedes_in in K. destruct (proj1 K). }
  assert (A2 : a 0%nat 170 = Some (dtrap 2 1)).
  { destruct (a 0%nat 170) as [x|] eqn:E; [|exfalso; apply (tr_present _ _ _ A 0%nat 170 I2); [rewrite L2; cbn; lia|exact E]]. f_equal.
    assert (BET : forall T', In T' (map fst demo_temps) -> 160 < T' < 170 -> a 0%nat T' = None) by (intros T' [<-|[<-|[]]] G; cbn in G; lra).
    pose proof (tr_next _ _ _ A 0%nat 170 x 160 _ I2 I1 E A1 ltac:(lra) BET (dtrap 2 1) ltac:(apply FR; rewrite L2; right; left; reflexivity)) as K.
    pose proof (tr_mine _ _ _ A 0%nat 170 x I2 E) as M. rewrite L2 in M. destruct M as [<-|[<-|[]]]; [|reflexivity]. exfalso. unfold gap, dtrap in K. cbn [t_tau] in K. rewrite (Rabs_left (1 - 9 / 2)), (Rabs_left (1 - 2)) in K by lra. destruct K as [K|(K & _)]; lra. }
  split; [discriminate|]. split; [cbn [e_T]; repeat constructor; lra|]. split.
  - intros T. cbn [e_T In map fst demo_temps]. split; [intros [<-|[<-|[]]]; (split; [tauto|]); [rewrite A1|rewrite A2]; discriminate|tauto].
  - cbn [e_T e_tau e_sig e_cap]. split; [|split]; (constructor; [exists (dtrap 1 0); split; [exact A1|reflexivity]|constructor; [exists (dtrap 2 1); split; [exact A2|reflexivity]|constructor]]).
Qed.
