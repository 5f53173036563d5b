(** Proofs for the K gain calibration: the curve, the gains, clipping and mode, the whole. *)
From Coq Require Import List Arith Bool Reals ZArith String Lia Lra.
From Verif Require Import Base DqModel DqProofs AngleModel NearModel CombineModel CombineSpec CombineProofs ComboSpec ComboProofs FindModel FlatModel FlatSpec FlatProofs CtDataProofs ThruModel ThruSpec ThruProofs ThruTableProofs ThruRunProofs FrnModel FrnProofs FluxRunProofs KgainModel KgainSpec KgainProofs.
Import ListNotations.
Local Open Scope R_scope.

(** ** The curve *)
Lemma rltb_iff : forall x y, rltb x y = true <-> x < y.
Proof. intros x y. unfold rltb. destruct (Rlt_dec x y); split; intro H; try discriminate; try assumption; try reflexivity; contradiction. Qed.
Lemma inside_iff : forall lo hi q, inside_bin lo hi q = true <-> between lo hi q.
Proof.
  intros lo hi [[x|] v]; unfold inside_bin, between; cbn [fst].
  - rewrite andb_true_iff, !rltb_iff. split; [intros H; exists x; split; [reflexivity|lra]|intros (y & E & H); injection E as <-; lra].
  - split; [discriminate|intros (y & E & _); discriminate].
Qed.
Lemma level_iff : forall pts lo hi l, level_is pts lo hi l <-> l = level_of pts lo hi.
Proof.
  intros pts lo hi l. unfold level_is, level_of. split.
  - intros (s & S & V). apply (sieve_filter _ _ _ (inside_iff lo hi)) in S. rewrite <- S. destruct V as [(-> & ->)|(N & A & D & e & E1 & E2)]; [reflexivity|]. destruct s as [|q s]; [congruence|]. apply mean_iff in A, D. apply sample_iff in E1. destruct l as [la ld le]. cbn [l_avg l_dev l_err] in *. subst. reflexivity.
  - intros ->. exists (filter (inside_bin lo hi) pts). split; [apply (sieve_filter _ _ _ (inside_iff lo hi)); reflexivity|]. destruct (filter _ _) as [|q s]; [left; split; reflexivity|right]. split; [discriminate|]. cbn [l_avg l_dev l_err]. split; [apply mean_iff; reflexivity|]. split; [apply mean_iff; reflexivity|]. eexists. split; [apply sample_iff; reflexivity|reflexivity].
Qed.
Lemma least_fold : forall x t a, least (x :: t) a <-> a = fold_left Rmin t x.
Proof.
  intros x t a. destruct (fold_rmin t x) as (A & B & D). split.
  - intros (I & H). assert (H1 : fold_left Rmin t x <= a) by (destruct I as [<-|I]; [exact B|apply D, I]). assert (H2 : a <= fold_left Rmin t x) by (apply H; destruct A as [A|A]; [left; symmetry; exact A|right; exact A]). lra.
  - intros ->. split; [destruct A as [A|A]; [left; symmetry; exact A|right; exact A]|]. intros y [<-|I]; [exact B|apply D, I].
Qed.
Lemma greatest_fold : forall x t a, greatest (x :: t) a <-> a = fold_left Rmax t x.
Proof.
  intros x t a. destruct (fold_rmax t x) as (A & B & D). split.
  - intros (I & H). assert (H1 : a <= fold_left Rmax t x) by (destruct I as [<-|I]; [exact B|apply D, I]). assert (H2 : fold_left Rmax t x <= a) by (apply H; destruct A as [A|A]; [left; symmetry; exact A|right; exact A]). lra.
  - intros ->. split; [destruct A as [A|A]; [left; symmetry; exact A|right; exact A]|]. intros y [<-|I]; [exact B|apply D, I].
Qed.
Lemma intervals_eq : forall a b n, combine (0 :: linspace a b n) (tl (0 :: linspace a b n)) = map (ends a b n) (seq 0 n).
Proof.
  intros a b n. cbn [tl]. destruct n as [|[|n]]; [reflexivity|reflexivity|]. unfold linspace. set (N := Datatypes.S (Datatypes.S n)).
  set (h := fun k => a + INR k * ((b - a) / INR (N - 1))).
  assert (G : forall m i, combine (map h (seq i (Datatypes.S m))) (map h (seq (Datatypes.S i) m)) = map (ends a b N) (seq (Datatypes.S i) m)).
  { induction m as [|m IH]; intros i; [reflexivity|]. specialize (IH (Datatypes.S i)). cbn [seq map combine] in *. f_equal. exact IH. }
  change (combine (0 :: map h (0%nat :: seq 1 (Datatypes.S n))) (map h (0%nat :: seq 1 (Datatypes.S n))) = map (ends a b N) (0%nat :: seq 1 (Datatypes.S n))).
  change ((0, h 0%nat) :: combine (map h (seq 0 (Datatypes.S (Datatypes.S n)))) (map h (seq 1 (Datatypes.S n))) = ends a b N 0 :: map (ends a b N) (seq 1 (Datatypes.S n))).
  rewrite G. f_equal. cbn [ends]. unfold h. cbn [INR]. f_equal. ring.
Qed.
Lemma curve_iff : forall pts n t, curve pts n = Ok t <-> curve_of pts n t.
Proof.
  intros pts n t. unfold curve, curve_of. destruct pts as [|q pts]; [split; [discriminate|intros (H & _); congruence]|]. set (Q := q :: pts).
  destruct (n <? 0)%Z eqn:NZ; [split; [discriminate|intros (_ & H & _); apply Z.ltb_lt in NZ; lia]|]. apply Z.ltb_ge in NZ.
  destruct (all_some (map fst Q)) as [g|] eqn:E.
  - apply all_some_iff in E. destruct g as [|x g]; [discriminate|]. set (a := fold_left Rmin g x). set (b := fold_left Rmax g x). cbv zeta. rewrite intervals_eq, map_map.
    assert (LV : forall t, Forall2 (fun k l => level_is Q (fst (ends a b (Z.to_nat n) k)) (snd (ends a b (Z.to_nat n) k)) l) (seq 0 (Z.to_nat n)) t <-> t = map (fun k => level_of Q (fst (ends a b (Z.to_nat n) k)) (snd (ends a b (Z.to_nat n) k))) (seq 0 (Z.to_nat n))) by (intros t0; apply f2_fun; intros k l; apply level_iff).
    split.
    + intros H. split; [discriminate|]. split; [exact NZ|]. left. exists (x :: g), a, b. split; [exact E|]. split; [apply least_fold; reflexivity|]. split; [apply greatest_fold; reflexivity|]. apply LV. congruence.
    + intros (_ & _ & [(xs & a' & b' & E' & LA & GB & F)|(I & _)]).
      * rewrite E in E'. apply map_some_inj in E'. subst xs. apply least_fold in LA. apply greatest_fold in GB. subst a' b'. apply LV in F. rewrite F. reflexivity.
      * exfalso. rewrite E in I. apply in_map_iff in I. destruct I as (y & Y & _). discriminate.
  - apply all_some_none in E. assert (RP : map (fun _ : nat => mklevel None None None) (seq 0 (Z.to_nat n)) = repeat blank (Z.to_nat n)). { generalize 0%nat as i. induction (Z.to_nat n) as [|m IH]; intros i; [reflexivity|]. cbn [seq map repeat]. rewrite IH. reflexivity. }
    rewrite RP. split.
    + intros H. split; [discriminate|]. split; [exact NZ|]. right. split; [exact E|congruence].
    + intros (_ & _ & [(xs & a' & b' & E' & _)|(_ & ->)]); [|reflexivity]. exfalso. rewrite E' in E. apply in_map_iff in E. destruct E as (y & Y & _). discriminate.
Qed.
(** The averages of the bins lie in them *)
Lemma sum_between : forall lo hi g, g <> [] -> (forall x, In x g -> lo < x < hi) -> INR (List.length g) * lo < rsum g < INR (List.length g) * hi.
Proof.
  intros lo hi g N H. induction g as [|x g IH]; [congruence|]. cbn [rsum fold_right List.length]. rewrite S_INR. assert (X : lo < x < hi) by (apply H; left; reflexivity). destruct g as [|y g]; [cbn; lra|].
  assert (I : INR (List.length (y :: g)) * lo < rsum (y :: g) < INR (List.length (y :: g)) * hi) by (apply IH; [discriminate|intros z Z; apply H; right; exact Z]). unfold rsum in I. lra.
Qed.
Lemma mean_between : forall lo hi g m, is_mean g m -> (forall x, In x g -> lo < x < hi) -> lo < m < hi.
Proof.
  intros lo hi g m M H. apply is_mean_rmean in M. destruct M as (N & ->). pose proof (sum_between lo hi g N H) as (A & B). assert (P : 0 < INR (List.length g)) by (apply lt_0_INR; destruct g; [congruence|cbn; lia]).
  split; [apply Rmult_lt_reg_r with (INR (List.length g)); [exact P|]|apply Rmult_lt_reg_r with (INR (List.length g)); [exact P|]]; unfold Rdiv; rewrite Rmult_assoc, Rinv_l by lra; lra.
Qed.
Lemma level_between : forall pts lo hi l a, level_is pts lo hi l -> l_avg l = Some a -> lo < a < hi.
Proof.
  intros pts lo hi l a (s & S & [(-> & ->)|(N & M & _)]) E; [discriminate|]. rewrite E in M. destruct M as (g & G & M). apply (mean_between lo hi g a M). intros x X. assert (I : In (Some x) (map fst s)) by (rewrite G; apply in_map, X). apply in_map_iff in I. destruct I as (q & Q & I).
  apply (sieve_filter _ _ _ (inside_iff lo hi)) in S. subst s. apply filter_In in I. destruct I as (_ & I). apply inside_iff in I. destruct I as (y & Y & I). rewrite Q in Y. injection Y as <-. exact I.
Qed.
Lemma nth_f2 : forall A B (P : A -> B -> Prop) l t, Forall2 P l t -> forall i b, nth_error t i = Some b -> exists a, nth_error l i = Some a /\ P a b.
Proof. intros A B P l t F. induction F as [|a b l t H F IH]; intros [|i] c E; cbn [nth_error] in *; try discriminate; [injection E as <-; exists a; split; [reflexivity|exact H]|apply IH, E]. Qed.
Lemma nth_seq0 : forall n i k, nth_error (seq 0 n) i = Some k -> k = i /\ (i < n)%nat.
Proof. intros n i k E. assert (L : (i < n)%nat) by (rewrite <- (seq_length n 0); apply nth_error_Some; congruence). split; [|exact L]. apply (nth_error_nth _ _ 0%nat) in E. rewrite seq_nth in E by exact L. cbn in E. congruence. Qed.
Lemma first_empty : forall pts xs a l, map fst pts = map Some xs -> least xs a -> level_is pts 0 a l -> l = blank.
Proof.
  intros pts xs a l E (_ & L) (s & S & [(_ & H)|(N & _)]); [exact H|]. exfalso. apply (sieve_filter _ _ _ (inside_iff 0 a)) in S. destruct s as [|q s]; [congruence|]. assert (I : In q (filter (inside_bin 0 a) pts)) by (rewrite <- S; left; reflexivity). apply filter_In in I. destruct I as (I & B). apply inside_iff in B. destruct B as (x & X & B).
  assert (J : In (Some x) (map Some xs)) by (rewrite <- E, <- X; apply in_map, I). apply in_map_iff in J. destruct J as (y & Y & J). injection Y as ->. specialize (L x J). lra.
Qed.
Lemma curve_rising : forall pts n t, curve_of pts n t -> rising t.
Proof.
  intros pts n t (_ & _ & [(xs & a & b & E & LA & GB & F)|(_ & ->)]).
  - intros i j l l' u v IJ NI NJ U V. destruct (nth_f2 _ _ _ _ _ F i l NI) as (ki & KI & LI). destruct (nth_f2 _ _ _ _ _ F j l' NJ) as (kj & KJ & LJ). apply nth_seq0 in KI, KJ. destruct KI as (-> & BI), KJ as (-> & BJ).
    destruct i as [|i].
    { cbn [ends fst snd] in LI. apply (first_empty pts xs a l E LA) in LI. subst l. discriminate. }
    destruct j as [|j]; [lia|]. apply (level_between _ _ _ _ _ LI) in U. apply (level_between _ _ _ _ _ LJ) in V. cbn [ends fst snd] in U, V.
    assert (AB : a <= b) by (apply GB, LA). assert (D : 0 <= (b - a) / INR (Z.to_nat n - 1)). { apply Rmult_le_pos; [lra|]. apply Rlt_le, Rinv_0_lt_compat, lt_0_INR. lia. }
    assert (IJ' : INR (Datatypes.S i) <= INR j) by (apply le_INR; lia). assert (X : INR (Datatypes.S i) * ((b - a) / INR (Z.to_nat n - 1)) <= INR j * ((b - a) / INR (Z.to_nat n - 1))) by (apply Rmult_le_compat_r; assumption). lra.
  - intros i j l l' u v _ NI _ U _. apply nth_error_In in NI. apply repeat_spec in NI. subst l. discriminate.
Qed.

(** ** The gains *)
Lemma first_iff : forall A (q : A -> bool) l i, first_where q l = Some i -> (exists x, nth_error l i = Some x /\ q x = true) /\ forall j x, (j < i)%nat -> nth_error l j = Some x -> q x = false.
Proof.
  intros A q. induction l as [|a l IH]; intros i H; cbn [first_where] in H; [discriminate|]. destruct (q a) eqn:Q.
  - injection H as <-. split; [exists a; split; [reflexivity|exact Q]|intros; lia].
  - destruct (first_where q l) as [k|] eqn:E; [|discriminate]. injection H as <-. destruct (IH k eq_refl) as (P & N). split; [exact P|]. intros [|j] x L X; cbn [nth_error] in X; [injection X as <-; exact Q|]. apply (N j); [lia|exact X].
Qed.
Lemma first_none : forall A (q : A -> bool) l, first_where q l = None <-> forall x, In x l -> q x = false.
Proof.
  intros A q. induction l as [|a l IH]; cbn [first_where]; [split; [intros _ x []|reflexivity]|]. destruct (q a) eqn:Q.
  - split; [discriminate|]. intros H. specialize (H a (or_introl eq_refl)). congruence.
  - split.
    + intros H x [<-|I]; [exact Q|]. apply IH; [|exact I]. destruct (first_where q l); [discriminate|reflexivity].
    + intros H. rewrite (proj2 IH); [reflexivity|]. intros x I. apply H. right. exact I.
Qed.
Lemma last_none : forall A (q : A -> bool) l, last_where q l = None <-> forall x, In x l -> q x = false.
Proof.
  intros A q. induction l as [|a l IH]; cbn [last_where]; [split; [intros _ x []|reflexivity]|]. destruct (last_where q l) as [k|].
  - split; [discriminate|]. intros H. exfalso. assert (X : Some k = None) by (apply IH; intros x I; apply H; right; exact I). discriminate.
  - destruct (q a) eqn:Q.
    + split; [discriminate|]. intros H. specialize (H a (or_introl eq_refl)). congruence.
    + split; [|reflexivity]. intros _ x [<-|I]; [exact Q|]. apply IH; [reflexivity|exact I].
Qed.
Lemma last_iff : forall A (q : A -> bool) l i, last_where q l = Some i -> (exists x, nth_error l i = Some x /\ q x = true) /\ forall j x, (i < j)%nat -> nth_error l j = Some x -> q x = false.
Proof.
  intros A q. induction l as [|a l IH]; intros i H; cbn [last_where] in H; [discriminate|]. destruct (last_where q l) as [k|] eqn:E.
  - injection H as <-. destruct (IH k eq_refl) as (P & N). split; [exact P|]. intros [|j] x L X; [lia|]. apply (N j); [lia|exact X].
  - destruct (q a) eqn:Q; [|discriminate]. injection H as <-. split; [exists a; split; [reflexivity|exact Q]|]. intros [|j] x L X; [lia|]. cbn [nth_error] in X. apply (proj1 (last_none A q l) E). eapply nth_error_In. exact X.
Qed.
Lemma slice_flat : forall A B (g : A -> list B) l i n, flat_map g (firstn n (skipn i l)) = flat_map (fun j => match nth_error l j with Some x => g x | None => [] end) (seq i n).
Proof.
  intros A B g l i n. revert i. induction n as [|n IH]; intros i; [destruct (skipn i l); reflexivity|]. cbn [seq flat_map]. rewrite <- IH. destruct (nth_error l i) as [x|] eqn:E.
  - assert (SK : skipn i l = x :: skipn (Datatypes.S i) l). { clear - E. revert l E. induction i as [|i IH]; intros [|a l] E; try discriminate; [injection E as ->; reflexivity|]. cbn [skipn]. apply IH, E. }
    rewrite SK. reflexivity.
  - apply nth_error_None in E. rewrite !skipn_all2 by lia. destruct n; reflexivity.
Qed.
Lemma flat_filter : forall A B (q : A -> bool) (g : A -> list B) (P : A -> B -> Prop), (forall a, q a = true -> exists b, g a = [b] /\ forall b', P a b' <-> b' = b) -> (forall a, q a = false -> g a = []) ->
  forall l t, Forall2 P (filter q l) t <-> t = flat_map g l.
Proof.
  intros A B q g P HT HF. induction l as [|a l IH]; intros t; cbn [filter flat_map]; [split; [intros F; inversion F; reflexivity|intros ->; constructor]|]. destruct (q a) eqn:E.
  - destruct (HT a E) as (b & -> & PB). cbn [app]. split.
    + intros F. inversion F as [|? b' ? t' H1 H2]; subst. apply PB in H1. apply IH in H2. subst. reflexivity.
    + intros ->. constructor; [apply PB; reflexivity|apply IH; reflexivity].
  - rewrite (HF a E). apply IH.
Qed.
Lemma above_iff : forall x l, above x l = true <-> exists a, l_avg l = Some a /\ x < a.
Proof. intros x l. unfold above. destruct (l_avg l) as [a|]; [rewrite rltb_iff|]; split; [intros H; exists a; split; [reflexivity|exact H]|intros (b & E & H); injection E as ->; exact H|discriminate|intros (b & E & _); discriminate]. Qed.
Lemma below_iff : forall x l, below x l = true <-> exists a, l_avg l = Some a /\ a < x.
Proof. intros x l. unfold below. destruct (l_avg l) as [a|]; [rewrite rltb_iff|]; split; [intros H; exists a; split; [reflexivity|exact H]|intros (b & E & H); injection E as ->; exact H|discriminate|intros (b & E & _); discriminate]. Qed.
Definition uses (i j : nat) (t : list level) (k : nat) : bool :=
  (Nat.leb i k && Nat.ltb k j && match nth_error t k with Some l => match gain_at l with [] => false | _ => true end | None => false end)%bool.
Lemma seq_window : forall B (g : nat -> list B) n i j, (j <= n)%nat -> flat_map g (seq i (j - i)) = flat_map (fun k => if (Nat.leb i k && Nat.ltb k j)%bool then g k else []) (seq 0 n).
Proof.
  intros B g n i j L. destruct (le_lt_dec i j) as [IJ|IJ].
  - replace n with (i + ((j - i) + (n - j)))%nat by lia. rewrite !seq_app, !flat_map_app. cbn [Nat.add].
    assert (Z : forall a m, (forall k, (a <= k < a + m)%nat -> (Nat.leb i k && Nat.ltb k j)%bool = false) -> flat_map (fun k => if (Nat.leb i k && Nat.ltb k j)%bool then g k else []) (seq a m) = []).
    { intros a m. revert a. induction m as [|m IHm]; intros a H; [reflexivity|]. cbn [seq flat_map]. rewrite H by lia. cbn [app]. apply IHm. intros k K. apply H. lia. }
    rewrite (Z 0%nat i), (Z (i + (j - i))%nat (n - j)%nat); [rewrite app_nil_r; cbn [app]| |].
    + assert (Y : forall a m, (forall k, (a <= k < a + m)%nat -> (Nat.leb i k && Nat.ltb k j)%bool = true) -> flat_map g (seq a m) = flat_map (fun k => if (Nat.leb i k && Nat.ltb k j)%bool then g k else []) (seq a m)).
      { intros a m. revert a. induction m as [|m IHm]; intros a H; [reflexivity|]. cbn [seq flat_map]. rewrite (H a) by lia. f_equal. apply IHm. intros k K. apply H. lia. }
      apply Y. intros k K. apply andb_true_iff. split; [apply Nat.leb_le; lia|apply Nat.ltb_lt; lia].
    + intros k K. apply andb_false_iff. right. apply Nat.ltb_ge. lia.
    + intros k K. apply andb_false_iff. left. apply Nat.leb_gt. lia.
  - replace (j - i)%nat with 0%nat by lia. cbn [seq flat_map]. symmetry. generalize (seq 0 n) as l. induction l as [|k l IH]; [reflexivity|]. cbn [flat_map]. rewrite IH. destruct (Nat.leb i k) eqn:A; [|reflexivity]. destruct (Nat.ltb k j) eqn:B'; [|reflexivity]. apply Nat.leb_le in A. apply Nat.ltb_lt in B'. lia.
Qed.
Lemma gain_at_iff : forall l, (exists k, gain_at l = [k]) <-> exists a d e, l_avg l = Some a /\ l_dev l = Some d /\ l_err l = Some e /\ 0 <= a /\ 0 < d.
Proof.
  intros l. unfold gain_at. split.
  - intros (k & H). destruct (l_avg l) as [a|]; [|discriminate]. destruct (l_dev l) as [d|]; [|discriminate]. destruct (l_err l) as [e|]; [|discriminate]. destruct (Rle_dec 0 a) as [A|A]; [|discriminate]. destruct (Rlt_dec 0 d) as [D|D]; [|discriminate]. exists a, d, e. auto 9.
  - intros (a & d & e & -> & -> & -> & A & D). destruct (Rle_dec 0 a); [|contradiction]. destruct (Rlt_dec 0 d); [|contradiction]. eexists. reflexivity.
Qed.
Lemma gain_at_value : forall l k, gain_at l = [k] -> forall k', (exists a d, l_avg l = Some a /\ l_dev l = Some d /\ k' * d ^ 2 = a) <-> k' = k.
Proof.
  intros l k. unfold gain_at. destruct (l_avg l) as [a|]; [|discriminate]. destruct (l_dev l) as [d|]; [|discriminate]. destruct (l_err l) as [e|]; [|discriminate]. destruct (Rle_dec 0 a) as [A|A]; [|discriminate]. destruct (Rlt_dec 0 d) as [D|D]; [|discriminate]. intros H. assert (K : k = a / d ^ 2) by congruence. intros k'. split.
  - intros (a' & d' & EA & ED & E). assert (a' = a) by congruence. assert (d' = d) by congruence. subst. field. lra.
  - intros ->. exists a, d. split; [reflexivity|]. split; [reflexivity|]. rewrite K. field. lra.
Qed.
Lemma gain_at_short : forall l, gain_at l = [] \/ exists k, gain_at l = [k].
Proof. intros l. unfold gain_at. destruct (l_avg l) as [a|]; [|left; reflexivity]. destruct (l_dev l) as [d|]; [|left; reflexivity]. destruct (l_err l); [|left; reflexivity]. destruct (Rle_dec 0 a); [|left; reflexivity]. destruct (Rlt_dec 0 d); [right; eexists; reflexivity|left; reflexivity]. Qed.
Lemma gains_iff : forall lo hi t ks, 0 <= lo -> rising t -> (gains lo hi t = Ok ks <-> gains_of lo hi t ks).
Proof.
  intros lo hi t ks L0 RI. unfold gains, gains_of. destruct (first_where (above lo) t) as [i|] eqn:FI.
  2:{ split; [discriminate|]. intros ((l & a & I & A & H) & _). exfalso. pose proof (proj1 (first_none _ _ _) FI l I) as N. apply not_true_iff_false in N. apply N, above_iff. exists a. split; assumption. }
  destruct (last_where (below hi) t) as [j|] eqn:LJ.
  2:{ split; [discriminate|]. intros (_ & (l & a & I & A & H) & _). exfalso. pose proof (proj1 (last_none _ _ _) LJ l I) as N. apply not_true_iff_false in N. apply N, below_iff. exists a. split; assumption. }
  apply first_iff in FI. destruct FI as ((li & NI & AI) & FI). apply last_iff in LJ. destruct LJ as ((lj & NJ & BJ) & LJ). apply above_iff in AI. destruct AI as (ai & AI & AL). apply below_iff in BJ. destruct BJ as (bj & BJ & BL).
  assert (JN : (j < List.length t)%nat) by (apply nth_error_Some; congruence).
  assert (U : forall k, uses i j t k = true <-> usable lo hi t k).
  { intros k. unfold uses, usable. rewrite !andb_true_iff, Nat.leb_le, Nat.ltb_lt. split.
    - intros ((IK & KJ) & G). destruct (nth_error t k) as [l|] eqn:NK; [|discriminate]. destruct (gain_at_short l) as [Z|X]; [rewrite Z in G; discriminate|]. apply gain_at_iff in X. destruct X as (a & d & e & A & D & E & A0 & D0). exists l, a, d, e. split; [reflexivity|]. split; [exact A|]. split; [exact D|]. split; [exact E|]. split.
      { destruct (Nat.eq_dec i k) as [->|NE]; [assert (l = li) by congruence; subst; congruence|]. assert (ai < a) by (eapply (RI i k); eauto; lia). lra. }
      split; [exact D0|]. exists j, lj, bj. auto.
    - intros (l & a & d & e & NK & A & D & E & LA & D0 & j' & l' & b & KJ & NJ' & B & BH). rewrite NK. assert (G : exists x, gain_at l = [x]) by (apply gain_at_iff; exists a, d, e; repeat split; try assumption; lra). destruct G as (x & ->). split; [|reflexivity]. split.
      + destruct (le_lt_dec i k) as [H|H]; [exact H|]. exfalso. specialize (FI k l H NK). apply not_true_iff_false in FI. apply FI, above_iff. exists a. split; assumption.
      + destruct (le_lt_dec j' j) as [H|H]; [lia|]. exfalso. specialize (LJ j' l' H NJ'). apply not_true_iff_false in LJ. apply LJ, below_iff. exists b. split; assumption. }
  assert (K : forall ks, Forall2 (fun j k => exists l a d, nth_error t j = Some l /\ l_avg l = Some a /\ l_dev l = Some d /\ k * d ^ 2 = a) (filter (uses i j t) (seq 0 (List.length t))) ks <-> ks = flat_map gain_at (firstn (j - i) (skipn i t))).
  { intros ks0. rewrite slice_flat, (seq_window _ _ (List.length t)) by lia. apply flat_filter.
    - intros k UK. unfold uses in UK. apply andb_true_iff in UK. destruct UK as (W & G). rewrite W. destruct (nth_error t k) as [l|]; [|discriminate]. destruct (gain_at_short l) as [Z|(x & X)]; [rewrite Z in G; discriminate|]. exists x. split; [exact X|]. intros k'. rewrite <- (gain_at_value l x X k'). split.
      + intros (l0 & a & d & E & H). assert (l0 = l) by congruence. subst. exists a, d. exact H.
      + intros (a & d & H). exists l, a, d. split; [reflexivity|exact H].
    - intros k UK. unfold uses in UK. destruct (Nat.leb i k && Nat.ltb k j)%bool; [|reflexivity]. cbn [andb] in UK. destruct (nth_error t k) as [l|]; [|reflexivity]. destruct (gain_at l); [reflexivity|discriminate]. }
  split.
  - intros H. split; [exists li, ai; split; [eapply nth_error_In; exact NI|split; assumption]|]. split; [exists lj, bj; split; [eapply nth_error_In; exact NJ|split; assumption]|].
    exists (filter (uses i j t) (seq 0 (List.length t))). split; [apply (sieve_filter _ _ _ U); reflexivity|]. apply K. congruence.
  - intros (_ & _ & js & S & F). apply (sieve_filter _ _ _ U) in S. subst js. apply K in F. rewrite F. reflexivity.
Qed.
