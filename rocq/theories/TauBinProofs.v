From Coq Require Import List Arith Bool Reals ZArith Lra Lia Sorting.Sorted.
From Verif Require Import Base TauModel TauSpec.
Import ListNotations.
Local Open Scope R_scope.

(** Counting a predicate that holds up to some number. *)
Lemma prefix : forall (p : nat -> bool), (forall i j, (i <= j)%nat -> p j = true -> p i = true) -> forall m,
  (List.length (filter p (seq 0 m)) <= m)%nat /\ forall i, (i < m)%nat -> (p i = true <-> (i < List.length (filter p (seq 0 m)))%nat).
Proof.
  intros p A m. induction m as [|m (L & IH)]; [split; [cbn; lia|intros; lia]|].
  rewrite seq_S, filter_app, app_length. cbn [Nat.add filter]. destruct (p m) eqn:E; cbn [List.length].
  - assert (D : List.length (filter p (seq 0 m)) = m).
    { destruct m as [|m]; [reflexivity|]. assert (X : p m = true) by (apply (A m (S m)); [lia|assumption]). apply IH in X; lia. }
    rewrite D. split; [lia|]. intros i Hi. split; [lia|]. intros _. apply (A i m); [lia|assumption].
  - rewrite Nat.add_0_r. split; [lia|]. intros i Hi. destruct (Nat.eq_dec i m) as [->|N]; [|apply IH; lia]. split; [congruence|lia].
Qed.
Lemma filter_map_length : forall {A B} (g : A -> B) (f : B -> bool) l, List.length (filter f (map g l)) = List.length (filter (fun x => f (g x)) l).
Proof. induction l as [|x l IH]; [reflexivity|]. cbn [map filter]. destruct (f (g x)); cbn [List.length]; rewrite IH; reflexivity. Qed.
Lemma upto_in : forall n i, In i (upto n) <-> (0 <= i < n)%Z.
Proof.
  intros n i. unfold upto. rewrite in_map_iff. split.
  - intros (k & <- & I). apply in_seq in I. lia.
  - intros H. exists (Z.to_nat i). split; [lia|]. apply in_seq. lia.
Qed.
Lemma edge_eq : forall n top i, edge n top i = IZR i * (top / IZR n). Proof. intros. unfold edge, Rdiv. ring. Qed.
Section BIN.
Variable n : Z.
Variable top x : R.
Hypothesis n_pos : (0 < n)%Z.
Hypothesis top_pos : 0 < top.
Hypothesis below : x < top.
Lemma w_pos : 0 < top / IZR n.
Proof using n_pos top_pos. apply Rdiv_lt_0_compat; [assumption|]. apply IZR_lt. assumption. Qed.
Lemma last_edge : edge n top n = top.
Proof using n_pos. unfold edge. apply IZR_lt in n_pos. field. lra. Qed.
Lemma digit_facts : exists d, digit n top x = Z.of_nat d /\ (Z.of_nat d <= n)%Z /\ forall i, (0 <= i <= n)%Z -> (edge n top i <= x <-> (i < Z.of_nat d)%Z).
Proof using n_pos top_pos below.
  unfold digit, upto. rewrite filter_map_length. destruct (Req_EM_T x (edge n top n)) as [E|_]; [rewrite last_edge in E; lra|].
  set (p := fun k => if Rle_dec (edge n top (Z.of_nat k)) x then true else false). pose proof w_pos as W.
  assert (P : forall k, p k = true <-> edge n top (Z.of_nat k) <= x) by (intros k; unfold p; destruct (Rle_dec _ _); split; auto; discriminate).
  assert (A : forall i j, (i <= j)%nat -> p j = true -> p i = true).
  { intros i j L H. apply P. apply P in H. rewrite edge_eq in *. assert (IZR (Z.of_nat i) <= IZR (Z.of_nat j)) by (apply IZR_le; lia). eapply Rle_trans; [apply Rmult_le_compat_r; [lra|exact H0]|assumption]. }
  destruct (prefix p A (Z.to_nat (n + 1))) as (L & IH). exists (List.length (filter p (seq 0 (Z.to_nat (n + 1))))). split; [reflexivity|]. split.
  - assert (Q : ~ edge n top (Z.of_nat (Z.to_nat n)) <= x) by (rewrite Z2Nat.id by lia; rewrite last_edge; lra). rewrite <- P, IH in Q by lia. lia.
  - intros i Hi. rewrite <- (Z2Nat.id i) at 1 by lia. rewrite <- P, IH by lia. lia.
Qed.
Lemma digit_iff : forall i, (0 <= i < n)%Z -> (digit n top x = (i + 1)%Z <-> in_bin n top i x).
Proof using n_pos top_pos below.
  intros i Hi. destruct digit_facts as (d & -> & L & F). unfold in_bin. pose proof (F i ltac:(lia)) as F0. pose proof (F (i + 1)%Z ltac:(lia)) as F1. rewrite edge_eq in F0, F1. rewrite plus_IZR in F1. split.
  - intros E. split; [apply F0; lia|]. apply Rnot_le_lt. intros Q. apply F1 in Q. lia.
  - intros (A & B). apply F0 in A. assert (~ (i + 1 < Z.of_nat d)%Z) by (intros Q; apply F1 in Q; lra). lia.
Qed.
Lemma digit_range : 0 <= x -> (1 <= digit n top x <= n)%Z.
Proof using n_pos top_pos below.
  intros H. destruct digit_facts as (d & -> & L & F). split; [|assumption]. pose proof (F 0%Z ltac:(lia)) as F0. rewrite edge_eq in F0. rewrite Rmult_0_l in F0. apply F0 in H. lia.
Qed.
End BIN.

(** Counting traps. *)
Lemma counted_length : forall (P : R * R -> Prop) f v, (forall q, In q v -> (f q = true <-> P q)) -> counted P v (List.length (filter f v)).
Proof.
  intros P f v. induction v as [|q v IH]; intros H; [constructor|]. cbn [filter]. assert (IH' : counted P v (List.length (filter f v))) by (apply IH; intros; apply H; right; assumption). pose proof (H q (or_introl eq_refl)) as Hq.
  destruct (f q); cbn [List.length]; [apply C_yes; tauto|apply C_no; [intros X; apply Hq in X; discriminate|assumption]].
Qed.
Lemma counted_some : forall P v m, counted P v m -> ((0 < m)%nat <-> exists q, In q v /\ P q).
Proof.
  intros P v m H. induction H as [|q l m Q H IH|q l m Q H IH].
  - split; [lia|intros (q & [] & _)].
  - split; [intros _; exists q; split; [left; reflexivity|assumption]|lia].
  - rewrite IH. split; [intros (x & I & X); exists x; split; [right; assumption|assumption]|]. intros (x & [->|I] & X); [contradiction|eauto].
Qed.
Lemma max_greatest : forall l x, greatest (x :: l) (maximum x l).
Proof.
  induction l as [|y l IH]; intros x; cbn [maximum fold_right].
  - split; [left; reflexivity|]. intros z [->|[]]. lra.
  - destruct (IH x) as (I & M). fold (maximum x l). split.
    + destruct (Rle_dec y (maximum x l)) as [L|L]; [rewrite Rmax_right by assumption; destruct I as [I|I]; [left; assumption|right; right; assumption]|rewrite Rmax_left by lra; right; left; reflexivity].
    + intros z [->|[->|Z]]; [eapply Rle_trans; [apply M; left; reflexivity|apply Rmax_r]|apply Rmax_l|eapply Rle_trans; [apply M; right; assumption|apply Rmax_r]].
Qed.

(** Lists of bins. *)
Lemma ss_app : forall {A} (R : A -> A -> Prop) a b, StronglySorted R a -> StronglySorted R b -> (forall x y, In x a -> In y b -> R x y) -> StronglySorted R (a ++ b).
Proof.
  intros A R a b SA SB H. induction SA as [|x a SA IH F]; [assumption|]. cbn [app]. constructor; [apply IH; intros; apply H; [right|]; assumption|]. apply Forall_app. split; [assumption|]. apply Forall_forall. intros y Hy. apply H; [left; reflexivity|assumption].
Qed.
Lemma ss_filter : forall {A} (R : A -> A -> Prop) f a, StronglySorted R a -> StronglySorted R (filter f a).
Proof.
  intros A R f a SA. induction SA as [|x a SA IH F]; [constructor|]. cbn [filter]. destruct (f x); [|assumption]. constructor; [assumption|]. apply Forall_forall. intros y Hy. apply filter_In in Hy. rewrite Forall_forall in F. apply F. tauto.
Qed.
Lemma upto_sorted : forall n, StronglySorted Z.lt (upto n).
Proof.
  intros n. unfold upto. generalize 0%nat. induction (Z.to_nat n) as [|m IH]; intros a; cbn [seq map]; [constructor|]. constructor; [apply IH|]. apply Forall_forall. intros y Hy. apply in_map_iff in Hy. destruct Hy as (k & <- & I). apply in_seq in I. lia.
Qed.
Lemma prod_sorted : forall l m, StronglySorted Z.lt l -> StronglySorted Z.lt m -> StronglySorted before (list_prod l m).
Proof.
  intros l m SL SM. induction SL as [|x l SL IH F]; [constructor|]. cbn [list_prod]. apply ss_app; [|exact IH|].
  - clear - SM. induction SM as [|y m SM IH F]; [constructor|]. cbn [map]. constructor; [assumption|]. apply Forall_forall. intros b Hb. apply in_map_iff in Hb. destruct Hb as (z & <- & I). rewrite Forall_forall in F. right. cbn [fst snd]. auto.
  - intros a b Ha Hb. apply in_map_iff in Ha. destruct Ha as (y & <- & _). destruct b as [u w]. apply in_prod_iff in Hb. rewrite Forall_forall in F. left. cbn [fst]. apply F. tauto.
Qed.
Lemma ss_nodup : forall {A} (R : A -> A -> Prop) l, (forall x, ~ R x x) -> StronglySorted R l -> NoDup l.
Proof.
  intros A R l N SL. induction SL as [|x l SL IH F]; constructor; [|assumption]. intros I. rewrite Forall_forall in F. exact (N x (F x I)).
Qed.
Lemma flat_filter : forall {C} (f : Z -> Z -> list C) (row : Z * Z -> C) (nz : Z * Z -> bool) l m, (forall i j, f i j = if nz (i, j) then [row (i, j)] else []) ->
  flat_map (fun i => flat_map (f i) m) l = map row (filter nz (list_prod l m)).
Proof.
  intros C f row nz l m H. induction l as [|i l IH]; [reflexivity|]. cbn [flat_map list_prod]. rewrite filter_app, map_app, IH. f_equal. clear IH. induction m as [|j m IH]; [reflexivity|]. cbn [flat_map map filter]. rewrite H, IH. destruct (nz (i, j)); reflexivity.
Qed.
Definition rsum (l : list R) : R := fold_right Rplus 0 l.
Lemma swap_count : forall {A B} (g : A -> B -> bool) (L : list A) (v : list B), (forall q, In q v -> List.length (filter (fun b => g b q) L) = 1%nat) ->
  fold_right Nat.add 0%nat (map (fun b => List.length (filter (g b) v)) L) = List.length v.
Proof.
  intros A B g L v. induction v as [|q v IH]; intros H; cbn [List.length].
  - clear. induction L as [|b L IH]; [reflexivity|]. cbn [map fold_right filter List.length]. exact IH.
  - assert (X : fold_right Nat.add 0%nat (map (fun b => List.length (filter (g b) (q :: v))) L) = (List.length (filter (fun b => g b q) L) + fold_right Nat.add 0%nat (map (fun b => List.length (filter (g b) v)) L))%nat).
    { clear. induction L as [|b L IH]; [reflexivity|]. cbn [map fold_right filter] in *. rewrite IH. destruct (g b q); cbn [List.length]; lia. }
    rewrite X, H by (left; reflexivity). rewrite IH by (intros; apply H; right; assumption). reflexivity.
Qed.
Lemma one_hit : forall {A} (g : A -> bool) L b, NoDup L -> In b L -> (forall x, In x L -> (g x = true <-> x = b)) -> List.length (filter g L) = 1%nat.
Proof.
  intros A g L b ND. induction ND as [|x L NI ND IH]; [intros []|]. intros I H. cbn [filter]. pose proof (H x (or_introl eq_refl)) as Hx. destruct I as [->|I].
  - destruct Hx as (_ & Hx). rewrite (Hx eq_refl). cbn [List.length]. f_equal. assert (Z : forall y, In y L -> g y = false).
    { intros y Hy. destruct (g y) eqn:E; [|reflexivity]. apply H in E; [|right; assumption]. subst. contradiction. }
    clear - Z. induction L as [|y L IH]; [reflexivity|]. cbn [filter]. rewrite (Z y (or_introl eq_refl)). apply IH. intros; apply Z; right; assumption.
  - destruct (g x) eqn:E; [rewrite (proj1 Hx eq_refl) in NI; contradiction|]. apply IH; [assumption|]. intros; apply H. right. assumption.
Qed.

Section TABLE.
Variable nE nc : Z.
Variable area : R.
Variable v : list (R * R).
Hypothesis nE_pos : (0 < nE)%Z.
Hypothesis nc_pos : (0 < nc)%Z.
Hypothesis some : v <> [].
Lemma tops : exists mE mc, greatest (map fst v) mE /\ greatest (map snd v) mc /\ densities nE nc area v =
  let topE := Rmax 1 mE + 1 / (2 * IZR nE) in let topc := Rmax (/ 10 ^ 14) mc + / 10 ^ 14 / (2 * IZR nc) in
  map (fun b => (INR (cell nE nc topE topc (fst b) (snd b) v) / area, middle nE topE (fst b), middle nc topc (snd b)))
    (filter (fun b => negb (Nat.eqb (cell nE nc topE topc (fst b) (snd b) v) 0)) (list_prod (upto nE) (upto nc))).
Proof using nE_pos nc_pos some.
  destruct v as [|q v']; [contradiction|]. exists (maximum (fst q) (map fst v')), (maximum (snd q) (map snd v')). split; [apply max_greatest|]. split; [apply max_greatest|].
  unfold densities. cbv zeta. set (mE := maximum (fst q) (map fst v')). set (mc := maximum (snd q) (map snd v')). apply IZR_lt in nE_pos. apply IZR_lt in nc_pos.
  replace (Rmax 1 mE + 1 / 2 / IZR nE) with (Rmax 1 mE + 1 / (2 * IZR nE)) by (field; lra). replace (Rmax (/ 10 ^ 14) mc + / 10 ^ 14 * (1 / 2) / IZR nc) with (Rmax (/ 10 ^ 14) mc + / 10 ^ 14 / (2 * IZR nc)) by (field; lra).
  set (topE := Rmax 1 mE + 1 / (2 * IZR nE)). set (topc := Rmax (/ 10 ^ 14) mc + / 10 ^ 14 / (2 * IZR nc)).
  apply (flat_filter _ (fun b => (INR (cell nE nc topE topc (fst b) (snd b) (q :: v')) / area, middle nE topE (fst b), middle nc topc (snd b))) (fun b => negb (Nat.eqb (cell nE nc topE topc (fst b) (snd b) (q :: v')) 0))).
  intros i j. cbn [fst snd]. destruct (cell nE nc topE topc i j (q :: v')) as [|m]; [reflexivity|]. cbn [Nat.eqb negb]. f_equal. f_equal; [f_equal|]; rewrite !edge_eq, plus_IZR; unfold middle; field; lra.
Qed.
Lemma top_facts : forall mE mc, greatest (map fst v) mE -> greatest (map snd v) mc ->
  let topE := Rmax 1 mE + 1 / (2 * IZR nE) in let topc := Rmax (/ 10 ^ 14) mc + / 10 ^ 14 / (2 * IZR nc) in
  0 < topE /\ 0 < topc /\ forall q, In q v -> fst q < topE /\ snd q < topc.
Proof using nE_pos nc_pos.
  intros mE mc (_ & GE) (_ & GC). cbv zeta. apply IZR_lt in nE_pos. apply IZR_lt in nc_pos. assert (T : 0 < / 10 ^ 14) by (apply Rinv_0_lt_compat, pow_lt; lra).
  assert (A : 0 < 1 / (2 * IZR nE)) by (apply Rdiv_lt_0_compat; lra). assert (B : 0 < / 10 ^ 14 / (2 * IZR nc)) by (apply Rdiv_lt_0_compat; lra).
  pose proof (Rmax_l 1 mE). pose proof (Rmax_r 1 mE). pose proof (Rmax_l (/ 10 ^ 14) mc). pose proof (Rmax_r (/ 10 ^ 14) mc). split; [lra|]. split; [lra|]. intros q I.
  pose proof (GE (fst q) (in_map fst _ _ I)). pose proof (GC (snd q) (in_map snd _ _ I)). split; lra.
Qed.
Lemma cell_counted : forall topE topc i j, 0 < topE -> 0 < topc -> (forall q, In q v -> fst q < topE /\ snd q < topc) -> (0 <= i < nE)%Z -> (0 <= j < nc)%Z ->
  counted (fun q => in_bin nE topE i (fst q) /\ in_bin nc topc j (snd q)) v (cell nE nc topE topc i j v).
Proof using nE_pos nc_pos.
  intros topE topc i j TE TC B Hi Hj. unfold cell. apply counted_length. intros q I. destruct (B q I) as (B1 & B2). rewrite andb_true_iff, !Z.eqb_eq.
  rewrite (digit_iff nE topE (fst q) nE_pos TE B1 i Hi), (digit_iff nc topc (snd q) nc_pos TC B2 j Hj). tauto.
Qed.
Theorem table : exists mE mc bins, greatest (map fst v) mE /\ greatest (map snd v) mc /\
  let topE := Rmax 1 mE + 1 / (2 * IZR nE) in let topc := Rmax (/ 10 ^ 14) mc + / 10 ^ 14 / (2 * IZR nc) in
  StronglySorted before bins /\
  (forall i j, In (i, j) bins <-> (0 <= i < nE)%Z /\ (0 <= j < nc)%Z /\ exists q, In q v /\ in_bin nE topE i (fst q) /\ in_bin nc topc j (snd q)) /\
  Forall2 (fun r b => row_of nE nc area topE topc v r (fst b) (snd b)) (densities nE nc area v) bins.
Proof using nE_pos nc_pos some.
  destruct tops as (mE & mc & GE & GC & D). cbv zeta in D. destruct (top_facts mE mc GE GC) as (TE & TC & B). set (topE := Rmax 1 mE + 1 / (2 * IZR nE)) in *. set (topc := Rmax (/ 10 ^ 14) mc + / 10 ^ 14 / (2 * IZR nc)) in *.
  set (bins := filter (fun b => negb (Nat.eqb (cell nE nc topE topc (fst b) (snd b) v) 0)) (list_prod (upto nE) (upto nc))) in *.
  assert (IN : forall i j, In (i, j) bins <-> (0 <= i < nE)%Z /\ (0 <= j < nc)%Z /\ (0 < cell nE nc topE topc i j v)%nat).
  { intros i j. unfold bins. rewrite filter_In, in_prod_iff, !upto_in, negb_true_iff, Nat.eqb_neq. cbn [fst snd]. intuition lia. }
  exists mE, mc, bins. split; [assumption|]. split; [assumption|]. cbv zeta. split; [apply ss_filter, prod_sorted; apply upto_sorted|]. split.
  - intros i j. rewrite IN. split; intros (Hi & Hj & X); (split; [assumption|]); (split; [assumption|]); apply (counted_some _ _ _ (cell_counted topE topc i j TE TC B Hi Hj)); assumption.
  - rewrite D. assert (F : Forall (fun b => In b bins) bins) by (apply Forall_forall; auto). revert F. generalize bins at 2 3 4. intros l F. induction F as [|[i j] l I F IH]; cbn [map]; constructor; [|exact IH].
    apply IN in I. destruct I as (Hi & Hj & P). cbn [fst snd]. exists (cell nE nc topE topc i j v). split; [assumption|]. split; [|reflexivity]. apply cell_counted; assumption.
Qed.
Lemma drop_zero : forall {A} (f : A -> nat) L, fold_right Nat.add 0%nat (map f (filter (fun b => negb (Nat.eqb (f b) 0)) L)) = fold_right Nat.add 0%nat (map f L).
Proof using. intros A f L. induction L as [|b L IH]; [reflexivity|]. cbn [filter map fold_right]. destruct (Nat.eqb_spec (f b) 0) as [E|E]; cbn [negb map fold_right]; rewrite IH; lia. Qed.
Theorem total : Forall (fun q => 0 <= fst q /\ 0 <= snd q) v -> sum (map (fun r => fst (fst r)) (densities nE nc area v)) = INR (List.length v) / area.
Proof using nE_pos nc_pos some.
  intros P. destruct tops as (mE & mc & GE & GC & D). cbv zeta in D. destruct (top_facts mE mc GE GC) as (TE & TC & B). set (topE := Rmax 1 mE + 1 / (2 * IZR nE)) in *. set (topc := Rmax (/ 10 ^ 14) mc + / 10 ^ 14 / (2 * IZR nc)) in *.
  rewrite D, map_map. cbn [fst]. set (f := fun b : Z * Z => cell nE nc topE topc (fst b) (snd b) v).
  assert (S : forall L, sum (map (fun b : Z * Z => INR (cell nE nc topE topc (fst b) (snd b) v) / area) L) = INR (fold_right Nat.add 0%nat (map f L)) / area).
  { induction L as [|b L IH]; cbn [map sum fold_right]; [unfold Rdiv; cbn; ring|]. unfold sum in IH. rewrite IH, plus_INR. unfold f at 2. unfold Rdiv. ring. }
  rewrite S. f_equal. f_equal. rewrite (drop_zero f). unfold f, cell.
  apply (swap_count (fun b q => Z.eqb (digit nE topE (fst q)) (fst b + 1) && Z.eqb (digit nc topc (snd q)) (snd b + 1))).
  intros q I. rewrite Forall_forall in P. destruct (P q I) as (P1 & P2). destruct (B q I) as (B1 & B2). pose proof (digit_range nE topE (fst q) nE_pos TE B1 P1) as R1. pose proof (digit_range nc topc (snd q) nc_pos TC B2 P2) as R2.
  apply (one_hit _ _ (digit nE topE (fst q) - 1, digit nc topc (snd q) - 1)%Z).
  - apply (ss_nodup before); [intros x [X|(_ & X)]; lia|]. apply prod_sorted; apply upto_sorted.
  - apply in_prod_iff. rewrite !upto_in. lia.
  - intros [i j] _. cbn [fst snd]. rewrite andb_true_iff, !Z.eqb_eq. split; [intros (A & C); f_equal; lia|intros E; injection E; lia].
Qed.
End TABLE.
