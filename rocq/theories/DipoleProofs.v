(** Proofs on the search for dipoles. *)
From Coq Require Import List Arith Bool Reals ZArith Lia Lra Permutation.
From Verif Require Import Base DqModel DqProofs AngleModel CombineModel CombineSpec CombineProofs BpmSpec BpmProofs FindModel FindProofs SortGroupProofs ComboSpec ComboProofs IllModel IllProofs DipoleModel DipoleSpec.
Import ListNotations.
Local Open Scope R_scope.

(** ** Levels *)
Lemma mean_total : forall l, mean l = total l / INR (List.length l). Proof. reflexivity. Qed.
Lemma std_moments : forall l, l <> [] -> moments l (mean l) (std l).
Proof.
  intros l NE. apply moments_iff. split; [apply meanR_iff; auto|]. replace (AngleModel.meanR (map (fun x => (x - mean l) * (x - mean l)) l)) with (Some (mean (map (fun x => (x - mean l) ^ 2) l))); [reflexivity|]. symmetry. apply meanR_iff. split; [destruct l; [congruence|discriminate]|].
  rewrite mean_total, !map_length. f_equal. f_equal. apply map_ext. intros a. ring.
Qed.
Lemma moments_unique : forall l m s m' s', moments l m s -> moments l m' s' -> m = m' /\ s = s'.
Proof. intros l m s m' s' A B. apply moments_iff in A, B. destruct A as (A1 & A2), B as (B1 & B2). rewrite A1 in B1. injection B1 as <-. rewrite A2 in B2. injection B2 as <-. auto. Qed.
Lemma somes_map : forall l : list R, somes (map Some l) = l.
Proof. induction l as [|x l IH]; [reflexivity|]. cbn. rewrite IH. reflexivity. Qed.
Lemma level_iff : forall f fr t, level f fr = Some t <-> exists m mu s, is_median (List.concat fr) m /\ moments (List.concat fr) mu s /\ t = m + f * s.
Proof.
  intros f fr t. unfold level. pose proof (nanmedian_spec (map Some (List.concat fr))) as H. rewrite somes_map in H. destruct (nanmedian _) as [m|]; cbn [option_map].
  - assert (NE : List.concat fr <> []) by (intros E; rewrite E in H; destruct H as (s & _ & _ & [(k & a & b & L & _)|(k & L & _)]); cbn in L; lia). pose proof (std_moments _ NE) as MO. split.
    + intros E. injection E as <-. exists m, (mean (List.concat fr)), (std (List.concat fr)). split; [exact H|]. split; [exact MO|ring].
    + intros (m' & mu & s & M & MO' & ->). rewrite (is_median_unique _ _ _ M H). destruct (moments_unique _ _ _ _ _ MO MO') as (_ & <-). f_equal. ring.
  - split; [discriminate|]. intros (m & mu & s & M & _). rewrite H in M. destruct M as (s' & _ & _ & [(k & a & b & L & _)|(k & L & _)]); cbn in L; lia.
Qed.
Lemma over_iff : forall f fr v, over (level f fr) v = true <-> exists m mu s, is_median (List.concat fr) m /\ moments (List.concat fr) mu s /\ m + f * s < v.
Proof.
  intros f fr v. unfold over. destruct (level f fr) as [t|] eqn:E.
  - apply level_iff in E. destruct E as (m & mu & s & M & MO & ->). destruct (Rlt_dec _ v) as [L|L]; split; try discriminate; eauto 8. intros (m' & mu' & s' & M' & MO' & L'). rewrite (is_median_unique _ _ _ M' M) in L'. destruct (moments_unique _ _ _ _ _ MO MO') as (_ & <-). contradiction.
  - split; [discriminate|]. intros (m & mu & s & M & MO & _). assert (H : level f fr = Some (m + f * s)) by (apply level_iff; eauto 8). congruence.
Qed.
Lemma under_iff : forall f fr v, under (level (- f) fr) v = true <-> exists m mu s, is_median (List.concat fr) m /\ moments (List.concat fr) mu s /\ v < m - f * s.
Proof.
  intros f fr v. unfold under. destruct (level (- f) fr) as [t|] eqn:E.
  - apply level_iff in E. destruct E as (m & mu & s & M & MO & ->). destruct (Rlt_dec v _) as [L|L]; split; try discriminate; [intros _; exists m, mu, s; repeat split; try apply M; try apply MO; lra|reflexivity|]. intros (m' & mu' & s' & M' & MO' & L'). rewrite (is_median_unique _ _ _ M' M) in L'. destruct (moments_unique _ _ _ _ _ MO MO') as (_ & <-). exfalso. apply L. lra.
  - split; [discriminate|]. intros (m & mu & s & M & MO & _). assert (H : level (- f) fr = Some (m + - f * s)) by (apply level_iff; eauto 8). congruence.
Qed.
Lemma upper_cell : forall f fr r c n, cell (upper f fr) r c n <-> (exists v, cell fr r c v) /\ (n = 1%nat /\ bright f fr r c \/ n = 0%nat /\ ~ bright f fr r c).
Proof.
  intros f fr r c n. unfold upper. rewrite cell_map. assert (B : forall v, cell fr r c v -> (over (level f fr) v = true <-> bright f fr r c)). { intros v CV. rewrite over_iff. split; [intros (m & mu & s & H); exists v, m, mu, s; tauto|]. intros (v' & m & mu & s & CV' & H). rewrite (cell_fun _ _ _ _ _ _ CV CV'). eauto. }
  split.
  - intros (v & CV & ->). split; [eauto|]. specialize (B v CV). destruct (over (level f fr) v); cbn [b2n]; [left; tauto|right]. split; [reflexivity|]. intros H. apply B in H. discriminate H.
  - intros ((v & CV) & H). exists v. split; [exact CV|]. specialize (B v CV). destruct (over (level f fr) v); cbn [b2n]; destruct H as [(-> & H)|(-> & H)]; try reflexivity; [tauto|apply B in H; discriminate H].
Qed.
Lemma lower_cell : forall f fr r c n, cell (lower f fr) r c n <-> (exists v, cell fr r c v) /\ (n = 1%nat /\ dark f fr r c \/ n = 0%nat /\ ~ dark f fr r c).
Proof.
  intros f fr r c n. unfold lower. rewrite cell_map. assert (B : forall v, cell fr r c v -> (under (level (- f) fr) v = true <-> dark f fr r c)). { intros v CV. rewrite under_iff. split; [intros (m & mu & s & H); exists v, m, mu, s; tauto|]. intros (v' & m & mu & s & CV' & H). rewrite (cell_fun _ _ _ _ _ _ CV CV'). eauto. }
  split.
  - intros (v & CV & ->). split; [eauto|]. specialize (B v CV). destruct (under (level (- f) fr) v); cbn [b2n]; [left; tauto|right]. split; [reflexivity|]. intros H. apply B in H. discriminate H.
  - intros ((v & CV) & H). exists v. split; [exact CV|]. specialize (B v CV). destruct (under (level (- f) fr) v); cbn [b2n]; destruct H as [(-> & H)|(-> & H)]; try reflexivity; [tauto|apply B in H; discriminate H].
Qed.

(** ** Neighbouring rows *)
Lemma rollup_nth : forall A (l : list A) r, nth_error (roll_up l) r = if (S r <? List.length l)%nat then nth_error l (S r) else if Nat.eqb (S r) (List.length l) then nth_error l 0 else None.
Proof.
  intros A [|h t] r; [destruct r; reflexivity|]. cbn [roll_up List.length nth_error]. destruct (Nat.ltb_spec (S r) (S (List.length t))) as [L|L]; [rewrite nth_error_app1 by lia; reflexivity|]. rewrite nth_error_app2 by lia. destruct (Nat.eqb_spec (S r) (S (List.length t))) as [E|E].
  - replace (r - List.length t)%nat with 0%nat by lia. reflexivity.
  - destruct (r - List.length t)%nat as [|[|k]] eqn:D; [lia|reflexivity|reflexivity].
Qed.
Lemma rolldown_nth : forall A (l : list A) r, nth_error (roll_down l) (S r) = if (S r <? List.length l)%nat then nth_error l r else None.
Proof.
  intros A l r. unfold roll_down. destruct (rev l) as [|h t] eqn:E.
  - apply (f_equal (@rev A)) in E. rewrite rev_involutive in E. subst l. reflexivity.
  - apply (f_equal (@rev A)) in E. rewrite rev_involutive in E. subst l. cbn [rev nth_error]. rewrite app_length. cbn [List.length]. destruct (Nat.ltb_spec (S r) (List.length (rev t) + 1)) as [L|L]; [rewrite nth_error_app1 by lia; reflexivity|]. apply nth_error_None. lia.
Qed.
Lemma roll_down_rect : forall A nr nc (l : list (list A)), rect nr nc l -> rect nr nc (roll_down l).
Proof.
  intros A nr nc l (L & W). unfold roll_down. destruct (rev l) as [|h t] eqn:E; (apply (f_equal (@rev (list A))) in E; rewrite rev_involutive in E; subst l; cbn [rev] in *).
  - split; [exact L|intros row []].
  - split; [cbn [List.length]; rewrite app_length in L; cbn in L; lia|]. intros row [<-|I]; apply W; apply in_or_app; [right; left; reflexivity|left; exact I].
Qed.
Lemma roll_up_rect : forall A nr nc (l : list (list A)), rect nr nc l -> rect nr nc (roll_up l).
Proof.
  intros A nr nc [|h t] (L & W); [split; [exact L|intros row []]|]. cbn [roll_up]. split; [rewrite app_length; cbn in *; lia|]. intros row I. apply in_app_or in I. apply W. destruct I as [I|[<-|[]]]; [right; exact I|left; reflexivity].
Qed.
Lemma zero_last_cell : forall nr nc l r c n, rect (S nr) nc l -> (cell (zero_last l) r c n <-> (r < nr)%nat /\ cell l r c n \/ r = nr /\ (c < nc)%nat /\ n = 0%nat).
Proof.
  intros nr nc l r c n (L & W). unfold zero_last. destruct (rev l) as [|h t] eqn:E; (apply (f_equal (@rev (list nat))) in E; rewrite rev_involutive in E; subst l; cbn [rev] in *); [discriminate L|].
  rewrite app_length in L. cbn [List.length] in L. assert (LR : List.length (rev t) = nr) by lia. assert (WH : List.length h = nc) by (apply W; apply in_or_app; right; left; reflexivity).
  assert (Z0 : forall c n, nth_error (zero_row h) c = Some n <-> (c < nc)%nat /\ n = 0%nat). { intros c' n'. unfold zero_row. rewrite nth_error_map. destruct (nth_error h c') as [x|] eqn:X; cbn [option_map]; [assert (c' < List.length h)%nat by (apply nth_error_Some; congruence); split; [intros H0; injection H0 as <-; lia|intros (_ & ->); reflexivity]|]. apply nth_error_None in X. split; [discriminate|lia]. }
  unfold cell. split.
  - intros (row & R0 & V). destruct (lt_eq_lt_dec r nr) as [[LT|EQ]|GT].
    + left. split; [exact LT|]. exists row. split; [|exact V]. rewrite nth_error_app1 in R0 |- * by lia. exact R0.
    + right. subst r. rewrite nth_error_app2 in R0 by lia. rewrite LR, Nat.sub_diag in R0. injection R0 as <-. apply Z0 in V. tauto.
    + assert (X : nth_error (rev t ++ [zero_row h]) r = None) by (apply nth_error_None; rewrite app_length; cbn; lia). congruence.
  - intros [(LT & row & R0 & V)|(-> & CL & ->)].
    + exists row. split; [|exact V]. rewrite nth_error_app1 in R0 |- * by lia. exact R0.
    + exists (zero_row h). split; [rewrite nth_error_app2 by lia; rewrite LR, Nat.sub_diag; reflexivity|]. apply Z0. auto.
Qed.
Lemma zero_first_cell : forall l r c n, cell (zero_first l) (S r) c n <-> cell l (S r) c n.
Proof. intros [|h t] r c n; unfold cell; cbn [zero_first nth_error]; tauto. Qed.
Lemma zero_first_top : forall l c n, cell (zero_first l) 0 c n -> n = 0%nat.
Proof. intros [|h t] c n (row & R0 & V); [discriminate R0|]. cbn in R0. injection R0 as <-. unfold zero_row in V. rewrite nth_error_map in V. destruct (nth_error h c); [injection V; auto|discriminate V]. Qed.
Lemma add_cell : forall a b r c n, cell (add2 a b) r c n <-> exists x y, cell a r c x /\ cell b r c y /\ n = (x + y)%nat.
Proof.
  intros a b r c n. unfold add2. rewrite cell_map. split.
  - intros ((x & y) & CE & ->). apply zip_cell in CE. exists x, y. cbn [fst snd] in *. tauto.
  - intros (x & y & X & Y & ->). exists (x, y). split; [apply zip_cell; auto|reflexivity].
Qed.
Lemma dipole_cell : forall d r c, dipole_at d r c = true <-> exists n, cell d r c n /\ (1 < n)%nat.
Proof.
  intros d r c. unfold dipole_at, cell. destruct (nth_error d r) as [row|] eqn:E; [|split; [discriminate|intros (n & (row & R0 & _) & _); discriminate R0]]. destruct (nth_error row c) as [n|] eqn:V; [|split; [discriminate|intros (n & (row' & R0 & V') & _); congruence]].
  rewrite Nat.ltb_lt. split; [intros H; exists n; eauto|]. intros (n' & (row' & R0 & V') & H). congruence.
Qed.
Lemma bright_cell : forall f fr r c, bright f fr r c -> exists v, cell fr r c v. Proof. intros f fr r c (v & m & mu & s & H). exists v. tauto. Qed.
Lemma dark_cell : forall f fr r c, dark f fr r c -> exists v, cell fr r c v. Proof. intros f fr r c (v & m & mu & s & H). exists v. tauto. Qed.
Theorem above_iff : forall nr nc f fr r c, rect nr nc fr -> (dipole_at (above f fr) r c = true <-> dipole_above f fr r c).
Proof.
  intros nr nc f fr r c RF. rewrite dipole_cell. unfold above, dipole_above. destruct nr as [|nr].
  - assert (fr = []) by (destruct fr; [reflexivity|destruct RF as (L & _); discriminate L]). subst. split; [intros (n & (row & R0 & _) & _); destruct r; discriminate R0|]. intros (B & _). apply bright_cell in B. destruct B as (v & row & R0 & _). destruct r; discriminate R0.
  - assert (RU : rect (S nr) nc (upper f fr)) by (apply map_rect; exact RF). assert (RL : rect (S nr) nc (lower f fr)) by (apply map_rect; exact RF). assert (RA : rect (S nr) nc (add2 (upper f fr) (roll_up (lower f fr)))) by (unfold add2; apply map_rect, zip_rect; [exact RU|apply roll_up_rect; exact RL]).
    assert (RC : forall y, (r < nr)%nat -> (cell (roll_up (lower f fr)) r c y <-> cell (lower f fr) (S r) c y)). { intros y L. unfold cell. rewrite rollup_nth, (proj1 RL). destruct (Nat.ltb_spec (S r) (S nr)); [tauto|lia]. }
    split.
    + intros (n & CE & L). apply (zero_last_cell nr nc _ r c n RA) in CE. destruct CE as [(LT & CE)|(_ & _ & ->)]; [|lia]. apply add_cell in CE. destruct CE as (x & y & X & Y & ->). apply RC in Y; [|exact LT]. apply upper_cell in X. apply lower_cell in Y. destruct X as (_ & [(-> & X)|(-> & X)]), Y as (_ & [(-> & Y)|(-> & Y)]); try lia. auto.
    + intros (B & D). destruct (dark_cell _ _ _ _ D) as (v & CV). assert (LT : (S r < S nr)%nat) by (apply (proj1 (cell_in _ (S nr) nc fr (S r) c RF)); eauto). exists 2%nat. split; [|lia]. apply (zero_last_cell nr nc _ r c 2 RA). left. split; [lia|]. apply add_cell. exists 1%nat, 1%nat. split; [apply upper_cell; split; [exact (bright_cell _ _ _ _ B)|auto]|]. split; [|reflexivity]. apply RC; [lia|]. apply lower_cell. split; [eauto|auto].
Qed.
Theorem below_iff : forall nr nc f fr r c, rect nr nc fr -> (dipole_at (below f fr) r c = true <-> dipole_below f fr r c).
Proof.
  intros nr nc f fr r c RF. rewrite dipole_cell. unfold below, dipole_below. assert (RU : rect nr nc (upper f fr)) by (apply map_rect; exact RF). assert (RL : rect nr nc (lower f fr)) by (apply map_rect; exact RF). destruct r as [|r].
  - split; [intros (n & CE & L); apply zero_first_top in CE; lia|]. intros (_ & r' & E & _). discriminate E.
  - assert (RC : forall y, (S r < nr)%nat -> (cell (roll_down (lower f fr)) (S r) c y <-> cell (lower f fr) r c y)). { intros y L. unfold cell. rewrite rolldown_nth, (proj1 RL). destruct (Nat.ltb_spec (S r) nr); [tauto|lia]. }
    split.
    + intros (n & CE & L). apply zero_first_cell, add_cell in CE. destruct CE as (x & y & X & Y & ->). apply upper_cell in X. assert (LT : (S r < nr)%nat) by (apply (proj1 (cell_in _ nr nc fr (S r) c RF)); apply X). apply RC in Y; [|exact LT]. apply lower_cell in Y. destruct X as (_ & [(-> & X)|(-> & X)]), Y as (_ & [(-> & Y)|(-> & Y)]); try lia. eauto.
    + intros (B & r' & E & D). injection E as <-. assert (LT : (S r < nr)%nat) by (apply (proj1 (cell_in _ nr nc fr (S r) c RF)); exact (bright_cell _ _ _ _ B)). exists 2%nat. split; [|lia]. apply zero_first_cell, add_cell. exists 1%nat, 1%nat. split; [apply upper_cell; split; [exact (bright_cell _ _ _ _ B)|auto]|]. split; [|reflexivity]. apply RC; [exact LT|]. apply lower_cell. split; [exact (dark_cell _ _ _ _ D)|auto].
Qed.
