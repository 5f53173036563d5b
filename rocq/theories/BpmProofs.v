(** Proofs on the bad pixel map. *)
From Coq Require Import List Arith Bool Reals ZArith NArith Permutation Lia Lra.
From Verif Require Import Base AngleModel FloatModel CosmicModel DqModel DqSpec DqProofs SortGroupProofs SortRunProofs BpmModel BpmSpec.
Import ListNotations.
Local Open Scope R_scope.

(** ** Statistics *)
Lemma all_some_iff : forall l (xs : list R), all_some l = Some xs <-> numbers l xs.
Proof.
  unfold numbers. induction l as [|o l IH]; intros xs; cbn [all_some].
  - split; [intros H; injection H as <-; constructor|intros H; inversion H; reflexivity].
  - destruct o as [x|]; [|split; [discriminate|intros H; inversion H; discriminate]].
    destruct (all_some l) as [r|] eqn:E.
    + split; [intros H; injection H as <-; constructor; [reflexivity|apply IH; reflexivity]|]. intros H. inversion H as [|? ? ? ? A B]; subst. injection A as <-. apply IH in B. injection B as <-. reflexivity.
    + split; [discriminate|]. intros H. inversion H as [|? ? ? ? A B]; subst. apply IH in B. discriminate B.
Qed.
Lemma meanR_iff : forall xs m, meanR xs = Some m <-> xs <> [] /\ m = total xs / INR (List.length xs).
Proof. intros [|x xs] m; unfold meanR; [split; [discriminate|intros [H _]; congruence]|]. split; [intros H; injection H as <-; split; [discriminate|reflexivity]|intros [_ ->]; reflexivity]. Qed.
Lemma len_pos : forall xs : list R, xs <> [] -> 0 < INR (List.length xs).
Proof. intros xs H. apply (lt_INR 0). destruct xs; [congruence|cbn; lia]. Qed.
Lemma mean_mul : forall (xs : list R) m y, xs <> [] -> (m = y / INR (List.length xs) <-> m * INR (List.length xs) = y).
Proof. intros xs m y H. pose proof (len_pos _ H). split; [intros ->; field; lra|intros <-; field; lra]. Qed.
Lemma mean_nan_iff : forall l m, mean_nan l = Some m <-> exists xs, numbers l xs /\ xs <> [] /\ m = total xs / INR (List.length xs).
Proof.
  intros l m. unfold mean_nan. destruct (all_some l) as [xs|] eqn:E.
  - rewrite meanR_iff. apply all_some_iff in E. split; [intros H; exists xs; tauto|]. intros (xs' & N & H). apply all_some_iff in E, N. rewrite E in N. injection N as <-. exact H.
  - split; [discriminate|]. intros (xs & N & _). apply all_some_iff in N. congruence.
Qed.
Lemma total_nonneg : forall xs, Forall (fun x => 0 <= x) xs -> 0 <= total xs.
Proof. unfold total. induction 1; cbn; lra. Qed.
Lemma moments_iff : forall xs m s, moments xs m s <-> meanR xs = Some m /\ option_map sqrt (meanR (map (fun x => (x - m) * (x - m)) xs)) = Some s.
Proof.
  intros xs m s. unfold moments. rewrite meanR_iff. split.
  - intros (NE & M & P & V). rewrite <- mean_mul in M by exact NE. split; [auto|].
    assert (Q : meanR (map (fun x => (x - m) * (x - m)) xs) = Some (s ^ 2)).
    { apply meanR_iff. split; [destruct xs; [congruence|discriminate]|]. rewrite map_length. apply mean_mul; [exact NE|]. rewrite V. f_equal. apply map_ext. intros a. ring. }
    rewrite Q. cbn [option_map]. f_equal. replace (s ^ 2) with (s * s) by ring. apply sqrt_square. exact P.
  - intros ((NE & M) & V). split; [exact NE|]. split; [apply mean_mul; assumption|].
    destruct (meanR _) as [q|] eqn:Q; [|discriminate V]. cbn [option_map] in V. injection V as <-. split; [apply sqrt_pos|]. apply meanR_iff in Q. destruct Q as (_ & Q). rewrite map_length in Q.
    replace (map (fun x => (x - m) ^ 2) xs) with (map (fun x => (x - m) * (x - m)) xs) by (apply map_ext; intros a; ring).
    apply (mean_mul xs q _ NE) in Q. rewrite <- Q. f_equal. rewrite pow2_sqrt; [reflexivity|].
    apply Rmult_le_reg_r with (INR (List.length xs)); [apply len_pos; exact NE|]. rewrite Q, Rmult_0_l. apply total_nonneg. apply Forall_forall. intros y I. apply in_map_iff in I. destruct I as (x & <- & _). apply Rle_0_sqr.
Qed.
Lemma hot_level_iff : forall dark k t, hot_level dark k = Some t <-> exists xs m s, numbers (List.concat dark) xs /\ moments xs m s /\ t = m + k * s.
Proof.
  intros dark k t. unfold hot_level, mean_nan, std_nan. destruct (all_some (List.concat dark)) as [xs|] eqn:E.
  - apply all_some_iff in E. split.
    + destruct (meanR xs) as [m|] eqn:M; [|discriminate]. destruct (option_map sqrt _) as [s|] eqn:V; [|discriminate]. intros H. injection H as <-. exists xs, m, s. split; [exact E|]. split; [apply moments_iff; auto|reflexivity].
    + intros (xs' & m & s & N & MO & ->). apply all_some_iff in E, N. rewrite E in N. injection N as <-. apply moments_iff in MO. destruct MO as [M V]. rewrite M, V. reflexivity.
  - split; [discriminate|]. intros (xs & _ & _ & N & _). apply all_some_iff in N. congruence.
Qed.

(** ** Cells *)
Lemma cell_map : forall A B (f : A -> B) img r c v, cell (map (map f) img) r c v <-> exists x, cell img r c x /\ v = f x.
Proof.
  intros A B f img r c v. unfold cell. split.
  - intros (row & R & V). rewrite nth_error_map in R. destruct (nth_error img r) as [row0|] eqn:R0; [|discriminate R]. injection R as <-. rewrite nth_error_map in V. destruct (nth_error row0 c) as [x|] eqn:X; [|discriminate V]. injection V as <-. exists x. split; [exists row0; auto|reflexivity].
  - intros (x & (row0 & R0 & X) & ->). exists (map f row0). rewrite !nth_error_map, R0, X. auto.
Qed.
Lemma cell_fun : forall A (img : list (list A)) r c u v, cell img r c u -> cell img r c v -> u = v.
Proof. intros A img r c u v (row & R & U) (row' & R' & V). congruence. Qed.
Lemma cell_in : forall A nr nc (img : list (list A)) r c, rect nr nc img -> ((exists v, cell img r c v) <-> (r < nr /\ c < nc)%nat).
Proof.
  intros A nr nc img r c (L & W). split.
  - intros (v & row & R & V). split; [rewrite <- L; apply nth_error_Some; congruence|]. rewrite <- (W row (nth_error_In _ _ R)). apply nth_error_Some. congruence.
  - intros (R & C). destruct (nth_error img r) as [row|] eqn:E; [|apply nth_error_None in E; lia]. destruct (nth_error row c) as [v|] eqn:V; [exists v, row; auto|]. apply nth_error_None in V. rewrite (W row (nth_error_In _ _ E)) in V. lia.
Qed.
Lemma ncols_rect : forall A nr nc (img : list (list A)), (0 < nr)%nat -> rect nr nc img -> ncols img = nc.
Proof. intros A nr nc [|row img] P (L & W); cbn in L; [lia|]. exact (W row (or_introl eq_refl)). Qed.
Lemma at_z_cell : forall nr nc img r c (v : R), rect nr nc img -> (at_z img (Z.of_nat r) (Z.of_nat c) = Some v <-> cell img r c (Some v)).
Proof.
  intros nr nc img r c v _. unfold at_z, cell. rewrite !Nat2Z.id. destruct (nth_error img r) as [row|]; [|split; [discriminate|intros (? & ? & _); discriminate]].
  destruct (nth_error row c) as [o|] eqn:E.
  - split; [intros ->; exists row; auto|]. intros (row' & R & V). injection R as <-. congruence.
  - split; [discriminate|]. intros (row' & R & V). injection R as <-. congruence.
Qed.
Lemma concat_in : forall A (img : list (list A)) v, In v (List.concat img) <-> exists r c, cell img r c v.
Proof.
  intros A img v. rewrite in_concat. split.
  - intros (row & I & J). apply In_nth_error in I, J. destruct I as (r & R). destruct J as (c & C). exists r, c, row. auto.
  - intros (r & c & row & R & C). exists row. split; eapply nth_error_In; eassumption.
Qed.

(** ** Hot pixels *)
Lemma hot_iff : forall dark k r c, cell (detect_hot dark k) r c true <-> hot dark k r c.
Proof.
  intros dark k r c. unfold detect_hot. rewrite cell_map. unfold hot. split.
  - intros (o & CE & H). unfold above in H. destruct o as [v|]; [|discriminate H]. destruct (hot_level dark k) as [t|] eqn:T; [|discriminate H]. destruct (Rlt_dec t v) as [LT|]; [|discriminate H].
    apply hot_level_iff in T. destruct T as (xs & m & s & N & MO & ->). exists v, xs, m, s. auto.
  - intros (v & xs & m & s & CE & N & MO & LT). exists (Some v). split; [exact CE|]. unfold above. rewrite (proj2 (hot_level_iff dark k (m + k * s))) by (exists xs, m, s; auto). destruct (Rlt_dec _ _); [reflexivity|lra].
Qed.

(** ** Dead pixels *)
Lemma window_in : forall w n p t, In t (window w n p) <-> (0 <= t < Z.of_nat n)%Z /\ (Z.of_nat p - w / 2 <= t < Z.of_nat p - w / 2 + w)%Z.
Proof.
  intros w n p t. unfold window. rewrite filter_In, in_map_iff, andb_true_iff, Z.leb_le, Z.ltb_lt. set (h := (w / 2)%Z). clearbody h. split.
  - intros ((k & <- & I) & B). apply in_seq in I. lia.
  - intros (A & B). split; [|exact A]. exists (Z.to_nat (t - (Z.of_nat p - h))). split; [lia|]. apply in_seq. lia.
Qed.
Lemma nodup_map : forall A B (f : A -> B) l, (forall x y, f x = f y -> x = y) -> NoDup l -> NoDup (map f l).
Proof. intros A B f l I. induction 1 as [|x l N _ IH]; cbn; constructor; [|exact IH]. rewrite in_map_iff. intros (y & E & J). apply I in E. subst. exact (N J). Qed.
Lemma window_nodup : forall w n p, NoDup (window w n p).
Proof. intros w n p. unfold window. apply NoDup_filter. apply nodup_map; [intros x y E; lia|apply seq_NoDup]. Qed.
Definition positions (w : Z) (nr nc r c : nat) : list (nat * nat) := list_prod (map Z.to_nat (window w nr r)) (map Z.to_nat (window w nc c)).
Lemma nat_window : forall w n p i, In i (map Z.to_nat (window w n p)) <-> (i < n)%nat /\ (Z.of_nat p - w / 2 <= Z.of_nat i < Z.of_nat p - w / 2 + w)%Z.
Proof.
  intros w n p i. rewrite in_map_iff. split.
  - intros (t & <- & I). apply window_in in I. rewrite Z2Nat.id by lia. lia.
  - intros (A & B). exists (Z.of_nat i). split; [apply Nat2Z.id|]. apply window_in. lia.
Qed.
Lemma nat_window_nodup : forall w n p, NoDup (map Z.to_nat (window w n p)).
Proof.
  intros w n p. pose proof (window_nodup w n p) as ND. assert (P : forall t, In t (window w n p) -> (0 <= t)%Z) by (intros t I; apply window_in in I; lia).
  induction (window w n p) as [|x l IH]; cbn; [constructor|]. inversion ND as [|? ? N1 N2]; subst. constructor; [|apply IH; [exact N2|intros t I; apply P; right; exact I]].
  rewrite in_map_iff. intros (y & E & I). apply N1. replace x with y; [exact I|]. apply Z2Nat.inj; [apply P; right; exact I|apply P; left; reflexivity|exact E].
Qed.
Lemma nodup_prod : forall A B (l : list A) (m : list B), NoDup l -> NoDup m -> NoDup (list_prod l m).
Proof.
  intros A B l m L M. induction L as [|x l N L IH]; cbn; [constructor|].
  assert (G : forall a b, NoDup a -> NoDup b -> (forall y : A * B, In y a -> ~ In y b) -> NoDup (a ++ b)).
  { clear. intros a b Ha Hb D. induction Ha as [|x a N Ha IH]; [exact Hb|]. cbn. constructor; [|apply IH; intros y I; apply D; right; exact I]. rewrite in_app_iff. intros [I|I]; [exact (N I)|exact (D x (or_introl eq_refl) I)]. }
  apply G; [apply nodup_map; [congruence|exact M]|exact IH|]. intros (a & b) I J. apply in_map_iff in I. destruct I as (y & E & _). injection E as <- <-. apply in_prod_iff in J. tauto.
Qed.
Lemma positions_in : forall w nr nc r c i j, In (i, j) (positions w nr nc r c) <-> in_box w nr nc r c i j.
Proof. intros. unfold positions, in_box. rewrite in_prod_iff, !nat_window. tauto. Qed.
Lemma flat_positions : forall (img : list (list (option R))) (rows cols : list Z), Forall (fun t => (0 <= t)%Z) rows -> Forall (fun t => (0 <= t)%Z) cols ->
  flat_map (fun i => map (fun j => at_z img i j) cols) rows = map (fun p => at_z img (Z.of_nat (fst p)) (Z.of_nat (snd p))) (list_prod (map Z.to_nat rows) (map Z.to_nat cols)).
Proof.
  intros img rows cols HR HC. induction HR as [|t rows T HR IH]; [reflexivity|]. cbn [flat_map map list_prod]. rewrite map_app, IH. f_equal. rewrite !map_map. apply map_ext_in. intros u I. cbn [fst snd].
  rewrite Forall_forall in HC. rewrite !Z2Nat.id by (first [assumption | apply HC; assumption]). reflexivity.
Qed.
Lemma total_perm : forall l m, Permutation l m -> total l = total m.
Proof. unfold total. induction 1; cbn; lra. Qed.
Lemma forall2_perm_fun : forall A B (P : A -> B -> Prop) (F : forall a b b', P a b -> P a b' -> b = b') l l' m m', Permutation l l' -> Forall2 P l m -> Forall2 P l' m' -> Permutation m m'.
Proof.
  intros A B P F l l' m m' PE H H'. destruct (Forall2_perm _ _ P l l' m PE H) as (m2 & H2 & P2). assert (m2 = m'); [|subst; exact P2].
  clear - F H2 H'. revert m' H'. induction H2 as [|a b l m2 Q H2 IH]; intros m' H'; inversion H'; subst; [reflexivity|]. f_equal; [eapply F; eassumption|apply IH; assumption].
Qed.
Theorem dead_iff : forall nr nc flat f w r c, (0 < nr)%nat -> rect nr nc flat -> (dead_at flat f w r c = true <-> dead flat nr nc f w r c).
Proof.
  intros nr nc flat f w r c P RE. unfold dead_at, dead. rewrite (ncols_rect _ nr nc flat P RE), (proj1 RE).
  rewrite flat_positions; [|apply Forall_forall; intros t I; apply window_in in I; lia|apply Forall_forall; intros t I; apply window_in in I; lia]. fold (positions w nr nc r c).
  set (ps := positions w nr nc r c).
  assert (NU : forall qs vs, numbers (map (fun p => at_z flat (Z.of_nat (fst p)) (Z.of_nat (snd p))) qs) vs <-> Forall2 (fun p x => cell flat (fst p) (snd p) (Some x)) qs vs).
  { intros qs vs. unfold numbers. rewrite Forall2_mapl. split; intros H; (eapply Forall2_impl; [|exact H]); intros p x _ E; cbv beta in *; apply (at_z_cell nr nc flat _ _ x RE); exact E. }
  split.
  - intros H. unfold below in H. destruct (at_z flat (Z.of_nat r) (Z.of_nat c)) as [v|] eqn:V; [|discriminate H]. apply (at_z_cell nr nc _ _ _ _ RE) in V.
    destruct (mean_nan _) as [m|] eqn:M; [|discriminate H]. cbn [option_map] in H. destruct (Rlt_dec v (f * m)) as [LT|]; [|discriminate H]. apply mean_nan_iff in M. destruct M as (vs & N & NE & ->).
    exists v, ps, vs. split; [exact V|]. split; [apply nodup_prod; apply nat_window_nodup|]. split; [intros i j; apply positions_in|]. split; [apply NU; exact N|]. auto.
  - intros (v & qs & vs & V & ND & IN & F2 & NE & LT). apply (at_z_cell nr nc _ _ _ _ RE) in V. rewrite V.
    assert (PE : Permutation qs ps). { apply NoDup_Permutation; [exact ND|apply nodup_prod; apply nat_window_nodup|]. intros (i & j). rewrite IN. symmetry. apply positions_in. }
    destruct (Forall2_perm _ _ _ qs ps vs PE F2) as (vs' & F2' & PV).
    rewrite (proj2 (mean_nan_iff _ (total vs / INR (List.length vs)))).
    + cbn [option_map below]. destruct (Rlt_dec _ _); [reflexivity|contradiction].
    + exists vs'. split; [apply NU; exact F2'|]. split; [intros ->; apply Permutation_sym, Permutation_nil in PV; congruence|]. rewrite (total_perm _ _ PV), (Permutation_length PV). reflexivity.
Qed.

(** ** The map *)
Lemma cell_zip : forall A B D (f : A * B -> D) (a : list (list A)) (b : list (list B)) r c v,
  cell (map (fun p => map f (combine (fst p) (snd p))) (combine a b)) r c v <-> exists x y, cell a r c x /\ cell b r c y /\ v = f (x, y).
Proof.
  assert (NC : forall A B (l : list A) (m : list B) i p, nth_error (combine l m) i = Some p <-> nth_error l i = Some (fst p) /\ nth_error m i = Some (snd p)).
  { induction l as [|x l IH]; intros [|y m] [|i] (u & w); cbn; try (split; [discriminate|intros [? ?]; discriminate]); [|apply (IH m i (u, w))]. split; [intros H; injection H as <- <-; auto|intros [H1 H2]; congruence]. }
  intros A B D f a b r c v. unfold cell. split.
  - intros (row & R & V). rewrite nth_error_map in R. destruct (nth_error (combine a b) r) as [p|] eqn:E; [|discriminate R]. injection R as <-. apply NC in E. rewrite nth_error_map in V. destruct (nth_error (combine (fst p) (snd p)) c) as [q|] eqn:Q; [|discriminate V]. injection V as <-. apply NC in Q.
    exists (fst q), (snd q). split; [exists (fst p); tauto|]. split; [exists (snd p); tauto|]. destruct q; reflexivity.
  - intros (x & y & (ra & RA & X) & (rb & RB & Y) & ->). exists (map f (combine ra rb)). rewrite nth_error_map, (proj2 (NC _ _ a b r (ra, rb)) (conj RA RB)). split; [reflexivity|]. rewrite nth_error_map, (proj2 (NC _ _ ra rb c (x, y)) (conj X Y)). reflexivity.
Qed.
Lemma detect_dead_cell : forall nr nc flat f w r c d, (0 < nr)%nat -> rect nr nc flat -> (cell (detect_dead flat f w) r c d <-> (r < nr /\ c < nc)%nat /\ d = dead_at flat f w r c).
Proof.
  intros nr nc flat f w r c d P RE. unfold detect_dead. rewrite (ncols_rect _ nr nc flat P RE), (proj1 RE). unfold cell.
  assert (SQ : forall n i, nth_error (seq 0 n) i = if (i <? n)%nat then Some i else None).
  { intros n i. destruct (Nat.ltb_spec i n) as [L|L]; [|apply nth_error_None; rewrite seq_length; exact L]. rewrite (nth_error_nth' _ 0%nat) by (rewrite seq_length; exact L). rewrite seq_nth by exact L. reflexivity. }
  split.
  - intros (row & R & V). rewrite nth_error_map, SQ in R. destruct (Nat.ltb_spec r nr); [|discriminate R]. cbn [option_map] in R. injection R as <-. rewrite nth_error_map, SQ in V. destruct (Nat.ltb_spec c nc); [|discriminate V]. injection V as <-. auto.
  - intros ((R & C) & ->). eexists. rewrite nth_error_map, SQ. destruct (Nat.ltb_spec r nr); [|lia]. split; [reflexivity|]. rewrite nth_error_map, SQ. destruct (Nat.ltb_spec c nc); [reflexivity|lia].
Qed.
Lemma list_eq_nth : forall A (a b : list A), List.length a = List.length b -> (forall i x y, nth_error a i = Some x -> nth_error b i = Some y -> x = y) -> a = b.
Proof. induction a as [|x a IH]; intros [|y b] L H; try discriminate L; [reflexivity|]. f_equal; [exact (H 0%nat x y eq_refl eq_refl)|apply IH; [injection L; auto|]]. intros i u v U V. exact (H (S i) u v U V). Qed.
Lemma rect_ext : forall A nr nc (a b : list (list A)), rect nr nc a -> rect nr nc b -> (forall r c u v, cell a r c u -> cell b r c v -> u = v) -> a = b.
Proof.
  intros A nr nc a b RA RB H. apply (list_eq_nth _ a b); [rewrite (proj1 RA), (proj1 RB); reflexivity|]. intros r x y X Y.
  apply (list_eq_nth _ x y); [rewrite (proj2 RA x (nth_error_In _ _ X)), (proj2 RB y (nth_error_In _ _ Y)); reflexivity|]. intros c u v U V. apply (H r c); [exists x; auto|exists y; auto].
Qed.

Lemma lor_bits : forall (h d : bool) i, N.testbit (N.lor (if h then 8 else 0) (if d then 4 else 0)) i = ((N.eqb i 3) && h) || ((N.eqb i 2) && d).
Proof.
  intros h d i. destruct (N.eqb_spec i 3) as [->|A]; [destruct h, d; reflexivity|]. destruct (N.eqb_spec i 2) as [->|B]; [destruct h, d; reflexivity|]. cbn [andb orb].
  assert (G : forall n, (n = 0 \/ n = 8 \/ n = 4)%N -> N.testbit n i = false).
  { intros n [-> | [-> | ->]]; [apply N.bits_0| |]; [change 8%N with (2 ^ 3)%N; apply N.pow2_bits_false; congruence|change 4%N with (2 ^ 2)%N; apply N.pow2_bits_false; congruence]. }
  rewrite N.lor_spec, !G by (destruct h, d; tauto). reflexivity.
Qed.
Lemma detect_hot_rect : forall nr nc dark k, rect nr nc dark -> rect nr nc (detect_hot dark k).
Proof. intros nr nc dark k (L & W). unfold detect_hot. split; [rewrite map_length; exact L|]. intros row I. apply in_map_iff in I. destruct I as (x & <- & I). rewrite map_length. exact (W x I). Qed.
Definition the_map (dark flat : list (list (option R))) (k f : R) (w : Z) : list (list N) :=
  map (fun p => map (fun q => N.lor (fst q) (snd q)) (combine (fst p) (snd p)))
    (combine (map (map (fun h : bool => if h then 8%N else 0%N)) (detect_hot dark k)) (map (map (fun d : bool => if d then 4%N else 0%N)) (detect_dead flat f w))).
Lemma the_map_rect : forall nr nc dark flat k f w, (0 < nr)%nat -> rect nr nc dark -> rect nr nc flat -> rect nr nc (the_map dark flat k f w).
Proof.
  intros nr nc dark flat k f w P RD RF. unfold the_map. destruct (detect_hot_rect nr nc dark k RD) as (LH & WH). split.
  - rewrite map_length, combine_length, !map_length, LH. unfold detect_dead. rewrite map_length, seq_length, (proj1 RF). lia.
  - intros row I. apply in_map_iff in I. destruct I as (p & <- & I). rewrite map_length, combine_length. destruct p as (a & b). cbn [fst snd]. pose proof (in_combine_l _ _ _ _ I) as IA. pose proof (in_combine_r _ _ _ _ I) as IB.
    apply in_map_iff in IA, IB. destruct IA as (x & <- & IA). destruct IB as (y & <- & IB). rewrite !map_length, (WH x IA). unfold detect_dead in IB. apply in_map_iff in IB. destruct IB as (z & <- & _). rewrite map_length, seq_length, (ncols_rect _ nr nc flat P RF). lia.
Qed.
Lemma the_map_ok : forall nr nc dark flat k f w, (0 < nr)%nat -> rect nr nc dark -> rect nr nc flat -> is_map dark flat nr nc k f w (the_map dark flat k f w).
Proof.
  intros nr nc dark flat k f w P RD RF. split; [apply the_map_rect; assumption|]. intros r c b CE. unfold the_map in CE. apply cell_zip in CE. destruct CE as (x & y & X & Y & ->). cbn [fst snd].
  apply cell_map in X, Y. destruct X as (h & X & ->). destruct Y as (d & Y & ->). pose proof Y as Y'. apply (detect_dead_cell nr nc flat f w r c d P RF) in Y'. destruct Y' as (_ & ->).
  split; [|split].
  - rewrite lor_bits. cbn [N.eqb Pos.eqb andb orb]. rewrite orb_false_r, <- hot_iff. split; [intros ->; exact X|intros H; exact (cell_fun _ _ _ _ _ _ X H)].
  - rewrite lor_bits. cbn [N.eqb Pos.eqb andb orb]. apply dead_iff; assumption.
  - intros i A B. rewrite lor_bits. rewrite (proj2 (N.eqb_neq i 3) B), (proj2 (N.eqb_neq i 2) A). reflexivity.
Qed.
Lemma iff_bool : forall (a b : bool) P, (a = true <-> P) -> (b = true <-> P) -> a = b.
Proof. intros [|] [|] P A B; try reflexivity; [symmetry; apply B; apply A; reflexivity|apply A; apply B; reflexivity]. Qed.
Lemma is_map_unique : forall dark flat nr nc k f w a b, is_map dark flat nr nc k f w a -> is_map dark flat nr nc k f w b -> a = b.
Proof.
  intros dark flat nr nc k f w a b (RA & A) (RB & B). apply (rect_ext _ nr nc); [exact RA|exact RB|]. intros r c u v U V. destruct (A r c u U) as (A1 & A2 & A3). destruct (B r c v V) as (B1 & B2 & B3). apply N.bits_inj. intros i.
  destruct (N.eq_dec i 2) as [->|N2]; [exact (iff_bool _ _ _ A2 B2)|]. destruct (N.eq_dec i 3) as [->|N3]; [exact (iff_bool _ _ _ A1 B1)|]. rewrite A3, B3 by assumption. reflexivity.
Qed.
Definition dark_of (src : dark_source) : result (list (list (option R))) := match src with Master d => Ok d | NoiseMap d => d end.
Theorem map_iff : forall nr nc dark flat k f w bpm, (0 < nr)%nat -> rect nr nc dark -> rect nr nc flat ->
  (create_bad_pixel_map (Master dark) flat k f w = Ok bpm <-> is_map dark flat nr nc k f w bpm).
Proof.
  intros nr nc dark flat k f w bpm P RD RF. unfold create_bad_pixel_map. cbn [bind]. rewrite (proj1 RD), (proj1 RF), (ncols_rect _ nr nc dark P RD), (ncols_rect _ nr nc flat P RF), !Nat.eqb_refl. cbn [andb]. fold (the_map dark flat k f w).
  pose proof (the_map_ok nr nc dark flat k f w P RD RF) as OK. split; [intros H; injection H as <-; exact OK|]. intros H. f_equal. exact (is_map_unique _ _ _ _ _ _ _ _ _ OK H).
Qed.
Theorem noise_map_same : forall synth flat k f w, create_bad_pixel_map (NoiseMap synth) flat k f w = bind synth (fun d => create_bad_pixel_map (Master d) flat k f w).
Proof. reflexivity. Qed.
Theorem shapes_differ : forall nr nc nr' nc' dark flat k f w, (0 < nr)%nat -> (0 < nr')%nat -> rect nr nc dark -> rect nr' nc' flat -> (nr, nc) <> (nr', nc') -> create_bad_pixel_map (Master dark) flat k f w = Raise IndexError.
Proof.
  intros nr nc nr' nc' dark flat k f w P P' RD RF NE. unfold create_bad_pixel_map. cbn [bind]. rewrite (proj1 RD), (proj1 RF), (ncols_rect _ nr nc dark P RD), (ncols_rect _ nr' nc' flat P' RF).
  destruct (Nat.eqb_spec nr nr') as [->|]; [|reflexivity]. destruct (Nat.eqb_spec nc nc') as [->|]; [congruence|reflexivity].
Qed.

(** ** Facts *)
Theorem box_has_pixel : forall w nr nc r c, (0 < w)%Z -> (r < nr /\ c < nc)%nat -> in_box w nr nc r c r c.
Proof. intros w nr nc r c W B. split; [exact B|]. pose proof (Z.div_pos w 2 ltac:(lia) ltac:(lia)). pose proof (Z.div_lt_upper_bound w 2 w ltac:(lia) ltac:(lia)). lia. Qed.
Theorem no_box : forall flat nr nc f w r c, (w <= 0)%Z -> ~ dead flat nr nc f w r c.
Proof.
  intros flat nr nc f w r c W (v & ps & vs & _ & _ & IN & F2 & NE & _). destruct ps as [|(i & j) ps]; [inversion F2; congruence|]. destruct (proj1 (IN i j) (or_introl eq_refl)) as (_ & B & _). lia.
Qed.
Theorem nan_hides_hot : forall dark k r c r' c', cell dark r' c' None -> ~ hot dark k r c.
Proof.
  intros dark k r c r' c' CE (v & xs & m & s & _ & N & _). assert (I : In None (List.concat dark)) by (apply concat_in; exists r', c'; exact CE).
  unfold numbers in N. apply In_nth_error in I. destruct I as (i & I). clear - N I. revert i I. induction N as [|o x l xs H N IH]; intros [|i] I; cbn in I; try discriminate; [injection I as ->; discriminate|exact (IH i I)].
Qed.
Theorem nan_hides_dead : forall flat nr nc f w r c r' c', cell flat r' c' None -> in_box w nr nc r c r' c' -> ~ dead flat nr nc f w r c.
Proof.
  intros flat nr nc f w r c r' c' CE B (v & ps & vs & _ & _ & IN & F2 & _). apply IN in B. apply In_nth_error in B. destruct B as (i & I). clear - CE F2 I. revert i I. induction F2 as [|p x ps vs H F2 IH]; intros [|i] I; cbn in I; try discriminate; [|exact (IH i I)].
  injection I as ->. cbn [fst snd] in H. pose proof (cell_fun _ _ _ _ _ _ CE H). discriminate.
Qed.

(** Chebyshev: few pixels can be hot. *)
Fixpoint count_above (t : R) (l : list R) : nat := match l with [] => 0%nat | x :: l' => ((if Rlt_dec t x then 1 else 0) + count_above t l')%nat end.
Lemma chebyshev_sum : forall m d l, 0 <= d -> INR (count_above (m + d) l) * d ^ 2 <= total (map (fun x => (x - m) ^ 2) l).
Proof.
  intros m d l D. unfold total. induction l as [|x l IH]; cbn [count_above map fold_right]; [cbn; lra|]. rewrite plus_INR. destruct (Rlt_dec (m + d) x) as [L|L]; cbn [INR].
  - assert (d ^ 2 <= (x - m) ^ 2) by (apply pow_incr; lra). lra.
  - assert (0 <= (x - m) ^ 2) by apply pow2_ge_0. lra.
Qed.
Lemma sum_zero : forall m l, total (map (fun x => (x - m) ^ 2) l) = 0 -> forall x, In x l -> x = m.
Proof.
  intros m l. unfold total. induction l as [|y l IH]; intros H x I; [destruct I|]. cbn [map fold_right] in H. assert (A : 0 <= (y - m) ^ 2) by apply pow2_ge_0.
  assert (B : 0 <= fold_right Rplus 0 (map (fun x => (x - m) ^ 2) l)) by (apply total_nonneg; apply Forall_forall; intros z J; apply in_map_iff in J; destruct J as (u & <- & _); apply pow2_ge_0).
  destruct I as [<-|I]; [|apply IH; [lra|exact I]]. assert (E : (y - m) ^ 2 = 0) by lra. assert (y - m = 0); [|lra]. destruct (Req_dec (y - m) 0) as [Z|NZ]; [exact Z|]. exfalso. exact (pow_nonzero _ 2 NZ E).
Qed.
Lemma chebyshev : forall xs m s k, 0 < k -> moments xs m s -> INR (count_above (m + k * s) xs) * k ^ 2 <= INR (List.length xs).
Proof.
  intros xs m s k K (NE & M & P & V). pose proof (len_pos xs NE) as LP. destruct (Req_dec s 0) as [->|NZ].
  - assert (Z : total (map (fun x => (x - m) ^ 2) xs) = 0) by (rewrite <- V; ring). assert (C0 : count_above (m + k * 0) xs = 0%nat); [|rewrite C0; cbn; lra].
    pose proof (sum_zero m xs Z) as A. clear - A. induction xs as [|x l IH]; [reflexivity|]. cbn [count_above]. rewrite IH by (intros y I; apply A; right; exact I). rewrite (A x (or_introl eq_refl)). destruct (Rlt_dec _ _); [lra|reflexivity].
  - assert (S0 : 0 < s) by lra. pose proof (chebyshev_sum m (k * s) xs ltac:(apply Rmult_le_pos; lra)) as H. rewrite <- V in H.
    apply Rmult_le_reg_r with (s ^ 2); [apply pow_lt; exact S0|]. replace (INR (count_above (m + k * s) xs) * k ^ 2 * s ^ 2) with (INR (count_above (m + k * s) xs) * (k * s) ^ 2) by ring. lra.
Qed.

(** The flattened image. *)
Lemma concat_cell : forall A nc (img : list (list A)) nr r c v, rect nr nc img -> (c < nc)%nat -> (cell img r c v <-> nth_error (List.concat img) (r * nc + c) = Some v).
Proof.
  intros A nc. induction img as [|row img IH]; intros nr r c v (L & W) C.
  - cbn. unfold cell. split; [intros (row & R & _); destruct r; discriminate R|intros H; destruct (r * nc + c)%nat; discriminate H].
  - cbn [List.concat]. assert (LR : List.length row = nc) by (apply W; left; reflexivity). assert (RI : rect (List.length img) nc img) by (split; [reflexivity|intros x I; apply W; right; exact I]). destruct r as [|r].
    + cbn [Nat.mul Nat.add]. rewrite nth_error_app1 by lia. unfold cell. cbn [nth_error]. split; [intros (x & R & V); injection R as <-; exact V|intros V; exists row; auto].
    + cbn [Nat.mul]. rewrite nth_error_app2 by lia. replace (nc + r * nc + c - List.length row)%nat with (r * nc + c)%nat by lia. rewrite <- (IH (List.length img) r c v RI C). unfold cell. cbn [nth_error]. reflexivity.
Qed.
Lemma concat_len : forall A nr nc (img : list (list A)), rect nr nc img -> List.length (List.concat img) = (nr * nc)%nat.
Proof.
  intros A nr nc img. revert nr. induction img as [|row img IH]; intros nr (L & W); [cbn in L; subst nr; reflexivity|]. cbn [List.length] in L. subst nr. cbn [List.concat Nat.mul]. rewrite app_length, (IH (List.length img)); [rewrite (W row (or_introl eq_refl)); reflexivity|]. split; [reflexivity|intros x I; apply W; right; exact I].
Qed.
Lemma numbers_len : forall l xs, numbers l xs -> List.length xs = List.length l.
Proof. induction 1; cbn; congruence. Qed.
Lemma numbers_nth : forall l xs i v, numbers l xs -> nth_error l i = Some (Some v) -> nth_error xs i = Some v.
Proof. intros l xs i v N. revert i. induction N as [|o x l xs H N IH]; intros [|i] E; cbn in *; try discriminate; [congruence|exact (IH i E)]. Qed.
Definition over (t : R) (l : list R) (i : nat) : bool := match nth_error l i with Some x => if Rlt_dec t x then true else false | None => false end.
Lemma over_count : forall t l, List.length (filter (over t l) (seq 0 (List.length l))) = count_above t l.
Proof.
  intros t. induction l as [|x l IH]; [reflexivity|]. cbn [List.length seq filter count_above]. rewrite <- seq_shift.
  assert (G : forall is, filter (over t (x :: l)) (map Datatypes.S is) = map Datatypes.S (filter (over t l) is)).
  { induction is as [|i is I]; [reflexivity|]. cbn [map filter]. change (over t (x :: l) (Datatypes.S i)) with (over t l i). destruct (over t l i); cbn [map]; rewrite I; reflexivity. }
  rewrite G. change (over t (x :: l) 0) with (if Rlt_dec t x then true else false). destruct (Rlt_dec t x); cbn [List.length]; rewrite map_length, IH; reflexivity.
Qed.
Theorem few_hot : forall nr nc dark k ps, rect nr nc dark -> 0 < k -> NoDup ps -> (forall r c, In (r, c) ps -> hot dark k r c) -> INR (List.length ps) * k ^ 2 <= INR (nr * nc).
Proof.
  intros nr nc dark k ps RD K ND H. destruct ps as [|p0 ps0] eqn:EP; [cbn; rewrite Rmult_0_l; apply pos_INR|]. rewrite <- EP in *.
  destruct (H (fst p0) (snd p0)) as (v0 & xs & m & s & _ & N & MO & _); [rewrite EP; left; destruct p0; reflexivity|].
  assert (U : forall r c, In (r, c) ps -> exists v, cell dark r c (Some v) /\ m + k * s < v).
  { intros r c I. destruct (H r c I) as (v & xs' & m' & s' & CE & N' & MO' & LT). apply all_some_iff in N, N'. rewrite N in N'. injection N' as <-. apply moments_iff in MO, MO'. destruct MO as [M1 M2], MO' as [M1' M2']. rewrite M1 in M1'. injection M1' as <-. rewrite M2 in M2'. injection M2' as <-. exists v. auto. }
  apply Rle_trans with (INR (count_above (m + k * s) xs) * k ^ 2).
  - apply Rmult_le_compat_r; [apply pow2_ge_0|]. apply le_INR. rewrite <- over_count. rewrite <- (map_length (fun p => (fst p * nc + snd p)%nat) ps). apply NoDup_incl_length.
    + assert (B : forall p, In p ps -> (snd p < nc)%nat). { intros (r & c) I. destruct (U r c I) as (v & CE & _). apply (cell_in _ nr nc dark r c RD). exists (Some v). exact CE. }
      clear - ND B. induction ND as [|(r & c) ps N ND IH]; cbn [map]; constructor; [|apply IH; intros p I; apply B; right; exact I]. rewrite in_map_iff. intros ((r' & c') & E & I). cbn [fst snd] in E. apply N.
      pose proof (B (r, c) (or_introl eq_refl)) as B1. pose proof (B (r', c') (or_intror I)) as B2. cbn [snd] in B1, B2. replace (r, c) with (r', c'); [exact I|].
      assert (r' = r). { destruct (Nat.lt_trichotomy r r') as [L|[L|L]]; [exfalso; nia|congruence|exfalso; nia]. } subst r'. f_equal. lia.
    + intros i I. apply in_map_iff in I. destruct I as ((r & c) & <- & I). cbn [fst snd]. destruct (U r c I) as (v & CE & LT). assert (C0 : (c < nc)%nat) by (apply (cell_in _ nr nc dark r c RD); exists (Some v); exact CE).
      apply (concat_cell _ nc dark nr r c (Some v) RD C0) in CE. apply filter_In. pose proof (numbers_nth _ _ _ _ N CE) as X. split; [apply in_seq; split; [lia|]; cbn; apply nth_error_Some; congruence|]. unfold over. rewrite X. destruct (Rlt_dec _ _); [reflexivity|contradiction].
  - rewrite <- (concat_len _ nr nc dark RD), <- (numbers_len _ _ N). apply chebyshev; assumption.
Qed.

(** ** The map in use *)
Lemma is_map_low : forall dark flat nr nc k f w bpm r c b q, is_map dark flat nr nc k f w bpm -> cell bpm r c b ->
  (low_bits q b <-> hot dark k r c \/ dead flat nr nc f w r c \/ exists i, (i < 8)%N /\ N.testbit q i = true).
Proof.
  intros dark flat nr nc k f w bpm r c b q (_ & M) CE. destruct (M r c b CE) as (M3 & M2 & MO). unfold low_bits. split.
  - intros (i & I & [Q|Q]); [right; right; exists i; auto|]. destruct (N.eq_dec i 2) as [->|N2]; [right; left; apply M2; exact Q|]. destruct (N.eq_dec i 3) as [->|N3]; [left; apply M3; exact Q|]. rewrite MO in Q by assumption. discriminate Q.
  - intros [H|[H|(i & I & Q)]]; [exists 3%N; split; [reflexivity|right; apply M3; exact H]|exists 2%N; split; [reflexivity|right; apply M2; exact H]|exists i; auto].
Qed.
Theorem in_use : forall nr nc dark flat k f w bpm fs fs', (0 < nr)%nat -> rect nr nc dark -> rect nr nc flat -> create_bad_pixel_map (Master dark) flat k f w = Ok bpm -> correct_bad_pixels (List.concat bpm) fs = Ok fs' ->
  each (fun g g' => forall r c v q, (r < nr /\ c < nc)%nat -> nth_error (f_px g) (r * nc + c)%nat = Some (v, q) ->
     exists (v' : fl) (q' : N), nth_error (f_px g') (r * nc + c)%nat = Some (v', q') /\
       (hot dark k r c \/ dead flat nr nc f w r c \/ (exists i, (i < 8)%N /\ N.testbit q i = true) -> v' = NaN /\ (hot dark k r c -> N.testbit q' 3 = true) /\ (dead flat nr nc f w r c -> N.testbit q' 2 = true) /\ N.testbit q' 1 = true)
       /\ (~ (hot dark k r c \/ dead flat nr nc f w r c \/ exists i, (i < 8)%N /\ N.testbit q i = true) -> v' = v /\ q' = 0%N)) fs fs'.
Proof.
  intros nr nc dark flat k f w bpm fs fs' P RD RF CR CO. apply (map_iff nr nc dark flat k f w bpm P RD RF) in CR. destruct (bad_frames_spec _ _ _ CO) as (LE & EA). split; [exact LE|].
  intros i g g' G G' r c v q B PX. destruct (EA i g g' G G') as (_ & _ & _ & _ & SP). destruct (proj2 (cell_in _ nr nc bpm r c (proj1 CR)) B) as (b & CE). pose proof CE as CE'. apply (concat_cell _ nc bpm nr r c b (proj1 CR) (proj2 B)) in CE'.
  destruct (SP _ v q b PX CE') as (S1 & S2). pose proof (is_map_low _ _ _ _ _ _ _ _ _ _ _ q CR CE) as LB. destruct (proj2 CR r c b CE) as (M3 & M2 & _).
  assert (DE : low_bits q b \/ ~ low_bits q b).
  { unfold low_bits. assert (G0 : forall n, (exists j, (j < N.of_nat n)%N /\ (N.testbit q j = true \/ N.testbit b j = true)) \/ ~ (exists j, (j < N.of_nat n)%N /\ (N.testbit q j = true \/ N.testbit b j = true))).
    { induction n as [|n [IH|IH]]; [right; intros (j & J & _); lia|left; destruct IH as (j & J & T); exists j; split; [lia|exact T]|].
      destruct (N.testbit q (N.of_nat n)) eqn:T1; [left; exists (N.of_nat n); split; [lia|auto]|]. destruct (N.testbit b (N.of_nat n)) eqn:T2; [left; exists (N.of_nat n); split; [lia|auto]|].
      right. intros (j & J & T). destruct (N.eq_dec j (N.of_nat n)) as [->|NE]; [destruct T; congruence|]. apply IH. exists j. split; [lia|exact T]. }
    exact (G0 8%nat). }
  destruct DE as [LO|NL].
  - destruct (S1 LO) as (q' & PX' & BI). exists NaN, q'. split; [exact PX'|]. split; [intros _|intros NB; destruct NB; apply LB; exact LO]. split; [reflexivity|]. split; [intros H; apply BI; right; split; [reflexivity|right; apply M3; exact H]|]. split; [intros H; apply BI; right; split; [reflexivity|right; apply M2; exact H]|apply BI; left; reflexivity].
  - exists v, 0%N. split; [exact (S2 NL)|]. split; [intros H; destruct NL; apply LB; exact H|auto].
Qed.

(** ** Rescaling *)
Lemma total_affine : forall a b xs, total (map (fun x => a * x + b) xs) = a * total xs + b * INR (List.length xs).
Proof. intros a b. unfold total. induction xs as [|x xs IH]; [cbn; lra|]. cbn [map fold_right List.length]. rewrite IH, S_INR. ring. Qed.
Lemma numbers_map : forall g l xs, numbers l xs -> numbers (map (option_map g) l) (map g xs).
Proof. induction 1 as [|o x l xs H N IH]; cbn; constructor; [rewrite H; reflexivity|exact IH]. Qed.
Lemma hot_rescaled1 : forall a b dark k r c, 0 < a -> hot dark k r c -> hot (rescaled a b dark) k r c.
Proof.
  intros a b dark k r c A (v & xs & m & s & CE & N & (NE & M & P & V) & LT). exists (a * v + b), (map (fun x => a * x + b) xs), (a * m + b), (a * s).
  split; [apply cell_map; exists (Some v); auto|]. split; [unfold rescaled; rewrite <- concat_map; apply numbers_map; exact N|]. split; [|nra]. unfold moments. rewrite map_length. split; [destruct xs; [congruence|discriminate]|].
  split; [rewrite total_affine, <- M; ring|]. split; [apply Rmult_le_pos; lra|]. rewrite map_map. replace ((a * s) ^ 2 * INR (List.length xs)) with (a ^ 2 * (s ^ 2 * INR (List.length xs))) by ring. rewrite V.
  clear. unfold total. induction xs as [|x xs IH]; [cbn; ring|]. cbn [map fold_right]. rewrite <- IH. ring.
Qed.
Lemma rescaled_back : forall a b img, 0 < a -> rescaled (/ a) (- b / a) (rescaled a b img) = img.
Proof.
  intros a b img A. unfold rescaled. rewrite map_map. rewrite <- (map_id img) at 2. apply map_ext. intros row. rewrite map_map. rewrite <- (map_id row) at 2. apply map_ext. intros [x|]; [|reflexivity]. cbn [option_map]. f_equal. field. lra.
Qed.
Theorem hot_rescaled : forall a b dark k r c, 0 < a -> (hot (rescaled a b dark) k r c <-> hot dark k r c).
Proof.
  intros a b dark k r c A. split; [|apply hot_rescaled1; exact A]. intros H. rewrite <- (rescaled_back a b dark A). apply hot_rescaled1; [apply Rinv_0_lt_compat; exact A|exact H].
Qed.
Lemma dead_rescaled1 : forall a flat nr nc f w r c, 0 < a -> dead flat nr nc f w r c -> dead (rescaled a 0 flat) nr nc f w r c.
Proof.
  intros a flat nr nc f w r c A (v & ps & vs & CE & ND & IN & F2 & NE & LT). exists (a * v + 0), ps, (map (fun x => a * x + 0) vs). split; [apply cell_map; exists (Some v); auto|]. split; [exact ND|]. split; [exact IN|]. split.
  - apply Forall2_mapr. eapply Forall2_impl; [|exact F2]. intros p x _ C0. cbv beta in *. apply cell_map. exists (Some x). auto.
  - split; [destruct vs; [congruence|discriminate]|]. rewrite map_length, total_affine. rewrite Rplus_0_r, Rmult_0_l, Rplus_0_r. replace (f * (a * total vs / INR (List.length vs))) with (a * (f * (total vs / INR (List.length vs)))) by (field; pose proof (len_pos vs NE); lra). apply Rmult_lt_compat_l; assumption.
Qed.
Theorem dead_rescaled : forall a flat nr nc f w r c, 0 < a -> (dead (rescaled a 0 flat) nr nc f w r c <-> dead flat nr nc f w r c).
Proof.
  intros a flat nr nc f w r c A. split; [|apply dead_rescaled1; exact A]. intros H. rewrite <- (rescaled_back a 0 flat A). replace (- 0 / a) with 0 by (field; lra). apply dead_rescaled1; [apply Rinv_0_lt_compat; exact A|exact H].
Qed.
