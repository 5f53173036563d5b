(** Proofs for the K gain calibration: settings, means, cells, one set of frames. *)
From Coq Require Import List Arith Bool Reals ZArith String Lia Lra.
From Verif Require Import Base DqModel DqProofs AngleModel NearModel CombineModel CombineSpec CombineProofs ComboSpec ComboProofs FindModel FlatModel FlatSpec FlatProofs CtDataProofs ThruModel ThruSpec ThruProofs ThruTableProofs ThruRunProofs FrnModel FrnProofs FluxRunProofs KgainModel KgainSpec.
Import ListNotations.
Local Open Scope R_scope.

(** ** Settings *)
Lemma check_ok : forall d, check_kgain_params d = Ok tt <-> forall k, In k settings -> exists s, d k = Some s /\ s <> Other.
Proof.
  intros d. unfold check_kgain_params. change keys with settings.
  destruct (forallb (fun k => match d k with Some _ => true | None => false end) settings) eqn:A; cbn [negb].
  - destruct (forallb (fun k => match d k with Some s => number s | None => false end) settings) eqn:B; cbn [negb].
    + split; [intros _|reflexivity]. intros k K. rewrite forallb_forall in B. specialize (B k K). destruct (d k) as [s|]; [|discriminate]. exists s. split; [reflexivity|]. intros ->. discriminate.
    + split; [discriminate|]. intros H. exfalso. apply not_true_iff_false in B. apply B. apply forallb_forall. intros k K. destruct (H k K) as (s & -> & N). destruct s; [reflexivity|reflexivity|congruence].
  - split; [discriminate|]. intros H. exfalso. apply not_true_iff_false in A. apply A. apply forallb_forall. intros k K. destruct (H k K) as (s & -> & _). reflexivity.
Qed.
Lemma check_missing : forall d, check_kgain_params d = Raise ValueError <-> exists k, In k settings /\ d k = None.
Proof.
  intros d. unfold check_kgain_params. change keys with settings.
  destruct (forallb (fun k => match d k with Some _ => true | None => false end) settings) eqn:A; cbn [negb].
  - split.
    + destruct (forallb (fun k => match d k with Some s => number s | None => false end) settings); cbn [negb]; discriminate.
    + intros (k & K & N). rewrite forallb_forall in A. specialize (A k K). rewrite N in A. discriminate.
  - split; [intros _|reflexivity]. apply not_true_iff_false in A. destruct (Exists_dec (fun k => d k = None) settings) as [E|E].
    { intros k. destruct (d k); [right; discriminate|left; reflexivity]. }
    + apply Exists_exists in E. exact E.
    + exfalso. apply A, forallb_forall. intros k K. destruct (d k) eqn:D; [reflexivity|]. exfalso. apply E, Exists_exists. exists k. split; assumption.
Qed.
Lemma check_wrong : forall d, check_kgain_params d = Raise TypeError <-> (forall k, In k settings -> d k <> None) /\ exists k, In k settings /\ d k = Some Other.
Proof.
  intros d. pose proof (check_ok d) as CO. pose proof (check_missing d) as CM. split.
  - intros H. assert (N : forall k, In k settings -> d k <> None). { intros k K E. assert (X : check_kgain_params d = Raise ValueError) by (apply CM; exists k; split; assumption). congruence. }
    split; [exact N|]. destruct (Exists_dec (fun k => d k = Some Other) settings) as [E|E].
    { intros k. destruct (d k) as [[z|x|]|]; [right; discriminate|right; discriminate|left; reflexivity|right; discriminate]. }
    + apply Exists_exists in E. exact E.
    + exfalso. assert (X : check_kgain_params d = Ok tt); [|congruence]. apply CO. intros k K. destruct (d k) as [s|] eqn:D; [|exfalso; exact (N k K D)]. exists s. split; [reflexivity|]. intros ->. apply E, Exists_exists. exists k. split; assumption.
  - intros (N & k & K & O). unfold check_kgain_params. change keys with settings.
    destruct (forallb (fun k => match d k with Some _ => true | None => false end) settings) eqn:A; cbn [negb].
    + destruct (forallb (fun k => match d k with Some s => number s | None => false end) settings) eqn:B; cbn [negb]; [|reflexivity]. rewrite forallb_forall in B. specialize (B k K). rewrite O in B. discriminate.
    + exfalso. apply not_true_iff_false in A. apply A, forallb_forall. intros j J. specialize (N j J). destruct (d j); [reflexivity|congruence].
Qed.
Lemma whole_of_iff : forall d k z, whole_of d k = Ok z <-> is_int d k z.
Proof. intros d k z. unfold whole_of, is_int. destruct (d k) as [[y|x|]|]; cbn; split; intro H; try discriminate; injection H as ->; reflexivity. Qed.
Lemma real_of_iff : forall d k x, real_of d k = Ok x <-> is_num d k x.
Proof.
  intros d k x. unfold real_of, is_num. destruct (d k) as [[y|y|]|]; cbn; split; intro H; try discriminate.
  - right. exists y. split; [reflexivity|]. injection H as ->. reflexivity.
  - destruct H as [H|(z & H & ->)]; [discriminate|]. injection H as ->. reflexivity.
  - left. injection H as ->. reflexivity.
  - destruct H as [H|(z & H & ->)]; [|discriminate]. injection H as ->. reflexivity.
  - destruct H as [H|(z & H & _)]; discriminate.
  - destruct H as [H|(z & H & _)]; discriminate.
Qed.
Lemma read_iff : forall d p, read_params d = Ok p <-> reads_as d p.
Proof.
  intros d p. unfold read_params, reads_as. split.
  - destruct (check_kgain_params d); [cbn [bind]|discriminate].
    destruct (whole_of d "rowroi1") eqn:A1; [cbn [bind]|discriminate]. destruct (whole_of d "rowroi2") eqn:A2; [cbn [bind]|discriminate].
    destruct (whole_of d "colroi1") eqn:A3; [cbn [bind]|discriminate]. destruct (whole_of d "colroi2") eqn:A4; [cbn [bind]|discriminate].
    destruct (whole_of d "rn_bins1") eqn:A5; [cbn [bind]|discriminate]. destruct (whole_of d "rn_bins2") eqn:A6; [cbn [bind]|discriminate].
    destruct (real_of d "max_DN_val") eqn:A7; [cbn [bind]|discriminate]. destruct (whole_of d "signal_bins_N") eqn:A8; [cbn [bind]|discriminate].
    intros E. apply (f_equal (fun r => match r with Ok q => q | _ => p end)) in E. cbn beta iota in E. subst p. cbn [p_box p_rn p_top p_bins ymin ymax xmin xmax fst snd].
    apply whole_of_iff in A1, A2, A3, A4, A5, A6, A8. apply real_of_iff in A7. auto 9.
  - intros (A1 & A2 & A3 & A4 & A5 & A6 & A7 & A8). assert (C : check_kgain_params d = Ok tt).
    { apply check_ok. assert (NI : forall k z, is_int d k z -> exists s, d k = Some s /\ s <> Other) by (intros k z I; exists (Whole z); split; [exact I|discriminate]).
      assert (NX : forall k x, is_num d k x -> exists s, d k = Some s /\ s <> Other) by (intros k x [I|(z & I & _)]; eexists; (split; [exact I|discriminate])).
      unfold settings. cbn [In]. intros k [<-|[<-|[<-|[<-|[<-|[<-|[<-|[<-|[]]]]]]]]]; eauto. }
    rewrite C. cbn [bind]. apply whole_of_iff in A1, A2, A3, A4, A5, A6, A8. apply real_of_iff in A7. rewrite A1, A2, A3, A4, A5, A6, A7, A8. cbn [bind]. destruct p as [[? ? ? ?] [? ?] ? ?]. reflexivity.
Qed.

(** ** Means and deviations *)
Lemma somes_some : forall g, somes (map Some g) = g.
Proof. induction g as [|x g IH]; cbn [map somes]; [reflexivity|rewrite IH; reflexivity]. Qed.
Lemma all_some_none : forall (l : list val), all_some l = None <-> In None l.
Proof.
  intros l. split.
  - intros E. destruct (In_dec (fun a b : val => ltac:(destruct a as [x|], b as [y|]; [destruct (Req_EM_T x y) as [->|N]; [left; reflexivity|right; congruence]|right; discriminate|right; discriminate|left; reflexivity])) None l) as [I|I]; [exact I|].
    exfalso. assert (X : exists r, all_some l = Some r); [|destruct X; congruence]. clear E. induction l as [|[x|] l IH]; cbn [all_some]; [exists []; reflexivity| |exfalso; apply I; left; reflexivity].
    destruct IH as (r & ->); [intro J; apply I; right; exact J|]. exists (x :: r). reflexivity.
  - intros I. destruct (all_some l) as [r|] eqn:E; [|reflexivity]. apply all_some_iff in E. subst l. apply in_map_iff in I. destruct I as (x & E & _). discriminate.
Qed.
Lemma nanmean_some : forall g, g <> [] -> nanmean (map Some g) = Some (rsum g / INR (List.length g)).
Proof. intros g N. unfold nanmean. rewrite somes_some. destruct g; [congruence|reflexivity]. Qed.
Lemma is_mean_rmean : forall g m, is_mean g m <-> g <> [] /\ m = rsum g / INR (List.length g).
Proof.
  intros g m. unfold is_mean. split; intros (N & E); (split; [exact N|]).
  - unfold rsum. rewrite <- E. field. apply not_0_INR. destruct g; [congruence|discriminate].
  - rewrite E. unfold rsum. field. apply not_0_INR. destruct g; [congruence|discriminate].
Qed.
Lemma map_some_inj : forall (a b : list R), map Some a = map Some b -> a = b.
Proof. intros a b E. apply (f_equal somes) in E. rewrite !somes_some in E. exact E. Qed.
Lemma mean_iff : forall l v, mean_all l v <-> v = vmean l.
Proof.
  intros l v. unfold vmean. destruct (all_some l) as [g|] eqn:E.
  - apply all_some_iff in E. subst l. destruct g as [|x g].
    + cbn. destruct v as [m|]; cbn; [|split; [reflexivity|left; reflexivity]]. split; [|discriminate]. intros (g & E & N & _). destruct g; [congruence|discriminate].
    + rewrite nanmean_some by discriminate. destruct v as [m|]; cbn [mean_all].
      * split; [intros (g' & E & M)|intros E].
        { apply map_some_inj in E. subst g'. apply is_mean_rmean in M. destruct M as (_ & ->). reflexivity. }
        exists (x :: g). split; [reflexivity|]. apply is_mean_rmean. split; [discriminate|]. injection E as ->. reflexivity.
      * split; [intros [E|I]; [discriminate|]|discriminate]. apply in_map_iff in I. destruct I as (y & E & _). discriminate.
  - apply all_some_none in E. destruct v as [m|]; cbn [mean_all].
    + split; [|discriminate]. intros (g & -> & _). apply in_map_iff in E. destruct E as (y & E & _). discriminate.
    + split; [reflexivity|intros _; right; exact E].
Qed.
Lemma sumsq_nonneg : forall g m, 0 <= rsum (map (fun x => (x - m) ^ 2) g).
Proof. induction g as [|x g IH]; intros m; cbn [map rsum fold_right]; [lra|]. pose proof (pow2_ge_0 (x - m)). specialize (IH m). unfold rsum in IH. lra. Qed.
Lemma root_sq : forall x, 0 <= x -> sqrt x ^ 2 = x.
Proof. intros x H. cbn [pow]. rewrite Rmult_1_r. apply sqrt_sqrt, H. Qed.
Lemma sample_iff : forall l v, sample_dev l v <-> v = vstd 1 l.
Proof.
  intros l v. unfold vstd. destruct (all_some l) as [g|] eqn:E.
  - apply all_some_iff in E. subst l. destruct g as [|x g].
    + cbn [map nanmean somes]. change (nanmean []) with (@None R). cbn iota. destruct v as [s|]; cbn [sample_dev]; split; try discriminate; try (intros _; right; cbn; lia); try reflexivity. intros (_ & g & m & E & _ & L & _). destruct g; [cbn in L; lia|discriminate].
    + rewrite nanmean_some by discriminate. cbn iota. set (G := x :: g). set (m := rsum G / INR (List.length G)). assert (M : is_mean G m) by (apply is_mean_rmean; split; [discriminate|reflexivity]).
      destruct (Nat.ltb 1 (List.length G)) eqn:LT.
      * apply Nat.ltb_lt in LT. assert (P : 0 < INR (List.length G - 1)) by (apply lt_0_INR; lia). assert (PE : INR (List.length G - 1) = INR (List.length G) - 1) by (rewrite minus_INR by lia; cbn; ring).
        pose proof (sumsq_nonneg G m) as SN. assert (QN : 0 <= rsum (map (fun x => (x - m) ^ 2) G) / INR (List.length G - 1)) by (apply Rmult_le_pos; [exact SN|apply Rlt_le, Rinv_0_lt_compat, P]).
        destruct v as [s|]; cbn [sample_dev].
        { split.
          - intros (S0 & g' & m' & E & M' & L & V). apply map_some_inj in E. fold G in E. subst g'. assert (m' = m) by (eapply mean_unique; eauto). subst m'. f_equal. symmetry. apply Rsqr_inj; [apply sqrt_pos|exact S0|]. rewrite Rsqr_sqrt by exact QN. unfold Rsqr, rsum. replace (s * s) with (s ^ 2) by ring. rewrite <- V, PE. field. lra.
          - intros H. assert (HE : s = sqrt (rsum (map (fun x => (x - m) ^ 2) G) / INR (List.length G - 1))) by congruence. rewrite HE. split; [apply sqrt_pos|]. exists G, m. split; [reflexivity|]. split; [exact M|]. split; [lia|]. rewrite root_sq by exact QN. rewrite PE. unfold rsum. field. lra. }
        split; [|discriminate]. intros [I|L]; [apply in_map_iff in I; destruct I as (y & Y & _); discriminate|]. rewrite map_length in L. fold G in L. lia.
      * apply Nat.ltb_ge in LT. destruct v as [s|]; cbn [sample_dev].
        { split; [|discriminate]. intros (_ & g' & m' & E & _ & L & _). apply map_some_inj in E. fold G in E. subst g'. lia. }
        split; [reflexivity|intros _; right; rewrite map_length; fold G; lia].
  - apply all_some_none in E. destruct v as [s|]; cbn [sample_dev].
    + split; [|discriminate]. intros (_ & g & m & -> & _). apply in_map_iff in E. destruct E as (y & E & _). discriminate.
    + split; [reflexivity|intros _; left; exact E].
Qed.

(** ** Cells *)
Lemma groups_iff : forall n w g, (1 <= w)%nat -> (groups n w g <-> g = bins_of n w).
Proof.
  intros n w g W. unfold groups, bins_of. pose proof (Nat.div_mod (n + w - 1) w ltac:(lia)) as D. pose proof (Nat.mod_upper_bound (n + w - 1) w ltac:(lia)) as U. set (q := ((n + w - 1) / w)%nat) in *. set (r := ((n + w - 1) mod w)%nat) in *. split.
  - intros (A & [B|B]).
    + subst g. cbn in A. assert (n = 0%nat) by lia. subst n. destruct q; [reflexivity|nia].
    + destruct g as [|g]; [cbn in B; cbn in A; lia|]. replace (Datatypes.S g - 1)%nat with g in B by lia. nia.
  - intros ->. split; [nia|]. destruct (Nat.eq_dec q 0) as [Z|Z]; [left; exact Z|right]. destruct q as [|q']; [lia|]. replace (Datatypes.S q' - 1)%nat with q' by lia. nia.
Qed.
Lemma at_level_iff : forall d k v, at_level d k v = true <-> exists x, v = Some x /\ INR k * d <= x < (INR k + 1) * d.
Proof.
  intros d k [x|]; cbn [at_level]; [|split; [discriminate|intros (x & E & _); discriminate]]. replace ((INR k + 1) * d) with (INR k * d + d) by ring. rewrite andb_true_iff. unfold rltb. destruct (Rle_dec _ _) as [A|A], (Rlt_dec _ _) as [B|B]; split; intro H; try (destruct H; discriminate); try (split; reflexivity); try (exists x; split; [reflexivity|lra]); destruct H as (y & E & H); injection E as <-; lra.
Qed.
Lemma filter_combine_map : forall {A B C} (q : B -> bool) (f : C -> A) (g : C -> B) l, map fst (filter (fun p => q (snd p)) (combine (map f l) (map g l))) = map f (filter (fun c => q (g c)) l).
Proof. intros A B C q f g. induction l as [|c l IH]; [reflexivity|]. cbn [map combine filter snd]. destruct (q (g c)); cbn [map fst]; rewrite IH; reflexivity. Qed.
Lemma spots_places : forall f, spots f = places f.
Proof. reflexivity. Qed.
Lemma stat_eq : forall d k f (m : nat -> nat -> val),
  level_stat d k (values f) (map (fun p => m (fst p) (snd p)) (places f)) =
  match filter (fun p => at_level d k (m (fst p) (snd p))) (places f) with
  | [] => (Some 0, Some 0)
  | ps => (nanmean (map (fun q => pix f (fst q) (snd q)) ps), nanstd (map (fun q => pix f (fst q) (snd q)) ps))
  end.
Proof.
  intros d k f m. unfold level_stat, values. rewrite spots_places.
  pose proof (filter_combine_map (at_level d k) (fun p => pix f (fst p) (snd p)) (fun p => m (fst p) (snd p)) (places f)) as F.
  destruct (filter (fun p => at_level d k (snd p)) _) as [|a s].
  - symmetry in F. apply map_eq_nil in F. rewrite F. reflexivity.
  - rewrite F. destruct (filter (fun p => at_level d k (m (fst p) (snd p))) (places f)); [discriminate|reflexivity].
Qed.
Lemma nanmean_iff : forall l v, mean_of l v <-> v = nanmean l.
Proof.
  intros l v. split; [|intros ->; apply mean_value]. pose proof (mean_value l) as M. destruct v as [x|], (nanmean l) as [y|]; cbn [mean_of] in *; intro H.
  - f_equal. eapply mean_unique; eauto.
  - destruct H as (N & _). congruence.
  - destruct M as (N & _). congruence.
  - reflexivity.
Qed.
Lemma cell_iff : forall f m nr nc top p v,
  cell f m nr nc top p v <-> v = (if (Nat.ltb (fst p) (nr - 1) && Nat.ltb (snd p) (nc - 1))%bool
     then level_stat (top / INR (nr * nc)) (fst p * (nc - 1) + snd p + 1) (values f) (map (fun p => m (fst p) (snd p)) (places f)) else (Some 0, Some 0)).
Proof.
  intros f m nr nc top p v. unfold cell. rewrite stat_eq. set (d := top / INR (nr * nc)). set (k := (fst p * (nc - 1) + snd p + 1)%nat).
  destruct (Nat.ltb (fst p) (nr - 1) && Nat.ltb (snd p) (nc - 1))%bool eqn:B.
  - apply andb_true_iff in B. destruct B as (B1 & B2). apply Nat.ltb_lt in B1, B2. split.
    + intros [(_ & _ & ps & S & V)|([H|H] & _)]; [|exfalso; lia|exfalso; lia].
      apply (sieve_filter _ (lit m (INR k * d) ((INR k + 1) * d)) (fun q => at_level d k (m (fst q) (snd q)))) in S; [|intros q; apply at_level_iff]. rewrite <- S.
      destruct V as [(-> & ->)|(N & M & D)]; [reflexivity|]. destruct ps as [|q ps]; [congruence|]. apply nanmean_iff in M. apply spread_iff in D. rewrite (surjective_pairing v), M, D. reflexivity.
    + intros ->. left. split; [lia|]. split; [lia|]. exists (filter (fun q => at_level d k (m (fst q) (snd q))) (places f)). split.
      { apply (sieve_filter _ _ (fun q => at_level d k (m (fst q) (snd q)))); [intros q; apply at_level_iff|reflexivity]. }
      destruct (filter _ _) as [|q ps]; [left; split; reflexivity|right]. split; [discriminate|]. cbn [fst snd]. split; [apply nanmean_iff; reflexivity|apply spread_iff; reflexivity].
  - apply andb_false_iff in B. rewrite !Nat.ltb_ge in B. split.
    + intros [(A1 & A2 & _)|(_ & ->)]; [exfalso; lia|reflexivity].
    + intros ->. right. split; [lia|reflexivity].
Qed.
Lemma f2_fun : forall {A B} (g : A -> B) (Q : A -> B -> Prop), (forall a b, Q a b <-> b = g a) -> forall l t, Forall2 Q l t <-> t = map g l.
Proof.
  intros A B g Q H. induction l as [|a l IH]; intros t; cbn [map].
  - split; [intros F; inversion F; reflexivity|intros ->; constructor].
  - split; [intros F; inversion F; subst; f_equal; [apply H; assumption|apply IH; assumption]|intros ->; constructor; [apply H; reflexivity|apply IH; reflexivity]].
Qed.
Lemma ptc_iff : forall f g m w top t, (1 <= w)%nat -> rows g = rows f -> cols g = cols f -> (forall r c, pix g r c = m r c) ->
  (ptc_bin2 f g w top = Ok t <-> cells f m w top t).
Proof.
  intros f g m w top t W RG CG P. unfold ptc_bin2, cells.
  assert (VG : values g = map (fun p => m (fst p) (snd p)) (places f)). { unfold values, spots, places. rewrite RG, CG. apply map_ext. intros q. apply P. }
  rewrite VG. set (nr := bins_of (rows f) w). set (nc := bins_of (cols f) w). destruct (Nat.eqb (nr * nc) 0) eqn:Z.
  - apply Nat.eqb_eq in Z. split; [discriminate|]. intros (a & b & GA & GB & L & _). apply groups_iff in GA, GB; try assumption. fold nr in GA. fold nc in GB. subst. lia.
  - apply Nat.eqb_neq in Z. split.
    + intros E. exists nr, nc. split; [apply groups_iff; [exact W|reflexivity]|]. split; [apply groups_iff; [exact W|reflexivity]|]. split; [lia|]. apply (f2_fun _ _ (cell_iff f m nr nc top)). symmetry. apply (f_equal (fun r => match r with Ok q => q | _ => t end)) in E. exact E.
    + intros (a & b & GA & GB & L & F). apply groups_iff in GA, GB; try assumption. fold nr in GA. fold nc in GB. subst a b. apply (f2_fun _ _ (cell_iff f m nr nc top)) in F. rewrite F. reflexivity.
Qed.

(** ** The frames of a set *)
Lemma rev_seq_down : forall k a n, (a + k <= n)%nat -> map (fun o => (n - o)%nat) (seq a k) = rev (seq (n + 1 - a - k) k).
Proof.
  induction k as [|k IH]; intros a n L; [reflexivity|]. rewrite (seq_S k (n + 1 - a - Datatypes.S k)), rev_app_distr. cbn [seq map rev app]. rewrite IH by lia. f_equal; [lia|]. do 2 f_equal. lia.
Qed.
Lemma order_eq : forall n, (5 <= n)%nat -> map (fun o => (n - o)%nat) (offsets n) = order n.
Proof.
  intros n L. unfold offsets, order. rewrite map_app. cbn [map app]. do 5 f_equal. destruct (Nat.ltb 5 n) eqn:E.
  - apply Nat.ltb_lt in E. rewrite rev_seq_down by lia. f_equal. f_equal; lia.
  - apply Nat.ltb_ge in E. replace (n - 5)%nat with 0%nat by lia. reflexivity.
Qed.
Lemma steps_eq : forall n, (5 <= n)%nat -> pairs n = steps n.
Proof.
  intros n L. unfold pairs, steps. destruct (Nat.ltb 5 n) eqn:E.
  - apply Nat.ltb_lt in E. replace (n - 2)%nat with (3 + (n - 1 - 4))%nat by lia. rewrite seq_app, map_app. reflexivity.
  - apply Nat.ltb_ge in E. replace n with 5%nat by lia. reflexivity.
Qed.
Lemma region_eq : forall b f, crop b f = region b f.
Proof. intros b f. unfold crop, region. rewrite !bound_extent. rewrite (bound_start (rows f) (ymin b)), (bound_start (cols f) (xmin b)). reflexivity. Qed.
Lemma everywhere_eq : forall f, values f = everywhere f.
Proof. reflexivity. Qed.
Lemma shot_iff : forall s r v, shot_of s r v <-> v = shot r s.
Proof.
  intros [s|] [r|] v; cbn [shot_of shot]; try reflexivity. pose proof (Rabs_pos (s ^ 2 - r ^ 2)) as P. split.
  - intros (x & -> & X0 & E). f_equal. rewrite <- E. replace (x ^ 2) with (Rsqr x) by (unfold Rsqr; ring). symmetry. apply sqrt_Rsqr. exact X0.
  - intros ->. eexists. split; [reflexivity|]. split; [apply sqrt_pos|]. apply root_sq, P.
Qed.
Lemma ratio_iff : forall a b v, ratio a b v <-> v = vdiv a b.
Proof.
  intros [x|] [y|] v; cbn [ratio vdiv]; try reflexivity. destruct (Req_EM_T y 0) as [Z|Z].
  - split; [intros [(N & _)|(_ & ->)]; [congruence|reflexivity]|intros ->; right; split; [exact Z|reflexivity]].
  - split.
    + intros [(_ & q & -> & <-)|(E & _)]; [|congruence]. f_equal. field. exact Z.
    + intros ->. left. split; [exact Z|]. eexists. split; [reflexivity|]. field. exact Z.
Qed.

Section Run.
Variable prescan : img -> list val.
Variable width : Z * Z -> img -> result R.

Lemma pick_iff : forall A (l : list A) i x, NearModel.pick l i = Ok x <-> nth_error l i = Some x.
Proof using. intros A l i x. unfold NearModel.pick. destruct (nth_error l i); split; intro H; try discriminate; injection H as ->; reflexivity. Qed.
Lemma f2_iff : forall {A B} (P Q : A -> B -> Prop) l t, (forall a b, In a l -> (P a b <-> Q a b)) -> (Forall2 P l t <-> Forall2 Q l t).
Proof using.
  intros A B P Q. induction l as [|a l IH]; intros t H; [split; intros F; inversion F; constructor|].
  split; intros F; inversion F; subst; constructor; try (apply H; [left; reflexivity|assumption]); (apply IH; [intros; apply H; right; assumption|assumption]).
Qed.
Lemma f2_mapl : forall {A B C} (h : A -> C) (P : C -> B -> Prop) l t, Forall2 P (map h l) t <-> Forall2 (fun a b => P (h a) b) l t.
Proof using.
  intros A B C h P. induction l as [|a l IH]; intros t; cbn [map]; [split; intros F; inversion F; constructor|].
  split; intros F; inversion F; subst; constructor; try assumption; apply IH; assumption.
Qed.
Lemma bind_ok : forall A B (x : result A) (f : A -> result B) y, (do a <- x; f a) = Ok y <-> exists a, x = Ok a /\ f a = Ok y.
Proof using. intros A B [a|e] f y; cbn [bind]; split; [intros H; exists a; split; [reflexivity|exact H]|intros (b & E & H); injection E as <-; exact H|discriminate|intros (b & E & _); discriminate]. Qed.
Lemma f2_shape : forall (fs frames : list img) is h w, Forall2 (fun i g => nth_error fs i = Some g) is frames -> (forall f, In f fs -> rows f = h /\ cols f = w) -> forall g, In g frames -> rows g = h /\ cols g = w.
Proof using.
  intros fs frames is h w F S. induction F as [|i g is gs E F IH]; intros g' I; [destruct I|]. destruct I as [<-|I]; [apply S; eapply nth_error_In; exact E|apply IH, I].
Qed.
Lemma mean_image_eq : forall l f g, mean_image l f g -> rows g = rows f /\ cols g = cols f /\ forall r c, pix g r c = pix (average l f) r c.
Proof using. intros l f g (A & B & P). split; [exact A|]. split; [exact B|]. intros r c. specialize (P r c). apply mean_iff in P. exact P. Qed.
Lemma average_mean : forall l f, mean_image l f (average l f).
Proof using. intros l f. split; [reflexivity|]. split; [reflexivity|]. intros r c. apply mean_iff. reflexivity. Qed.
Lemma everywhere_ext : forall f g, rows g = rows f -> cols g = cols f -> (forall r c, pix g r c = pix f r c) -> everywhere g = everywhere f.
Proof using. intros f g A B P. unfold everywhere, places. rewrite A, B. apply map_ext. intros q. apply P. Qed.
Lemma region_ext : forall b f g, rows g = rows f -> cols g = cols f -> (forall r c, pix g r c = pix f r c) ->
  rows (region b g) = rows (region b f) /\ cols (region b g) = cols (region b f) /\ forall r c, pix (region b g) r c = pix (region b f) r c.
Proof using. intros b f g A B P. unfold region. cbn [rows cols pix]. rewrite A, B. split; [reflexivity|]. split; [reflexivity|]. intros r c. apply P. Qed.
Lemma cells_ext : forall f m m' w top t, (forall r c, m r c = m' r c) -> cells f m w top t -> cells f m' w top t.
Proof using.
  intros f m m' w top t E (nr & nc & A & B & L & F). exists nr, nc. split; [exact A|]. split; [exact B|]. split; [exact L|]. revert F. apply f2_iff. intros p v _. rewrite !cell_iff. assert (X : map (fun p => m (fst p) (snd p)) (places f) = map (fun p => m' (fst p) (snd p)) (places f)) by (apply map_ext; intros q; apply E). rewrite X. reflexivity.
Qed.
Lemma div_iff : forall x s, x * sqrt 2 = s <-> x = s / sqrt 2.
Proof using. intros x s. assert (P : 0 < sqrt 2) by (apply sqrt_lt_R0; lra). split; [intros <-; field; lra|intros ->; field; lra]. Qed.

Lemma set_iff : forall p w gm good fs pts rn h c, (1 <= w)%nat -> (5 <= List.length fs)%nat -> (forall f, In f fs -> rows f = h /\ cols f = c) -> rows gm = h -> cols gm = c ->
  rows good = rows (region (p_box p) gm) -> cols good = cols (region (p_box p) gm) ->
  (one_set prescan width p w good fs = Ok (pts, rn) <-> set_of prescan width p w good fs pts rn).
Proof using.
  intros p w gm good fs pts rn h c W L SH GH GC RG CG. unfold one_set, set_of. cbv zeta. set (n := List.length fs) in *.
  (* shapes *)
  assert (PTC : forall k f t, rows f = h -> cols f = c ->
    (ptc_bin2 (crop (p_box p) f) (mkimg (rows good) (cols good) (fun r c => vmul k (pix good r c))) w (p_top p) = Ok t <-> cells (region (p_box p) f) (fun r c => KgainSpec.times k (pix good r c)) w (p_top p) t)).
  { intros k f t RF CF. rewrite region_eq. apply ptc_iff; [exact W| | |].
    - cbn [rows]. rewrite RG. unfold region. cbn [rows]. rewrite GH, RF. reflexivity.
    - cbn [cols]. rewrite CG. unfold region. cbn [cols]. rewrite GC, CF. reflexivity.
    - intros r q. cbn [pix]. unfold vmul, KgainSpec.times. reflexivity. }
  assert (FR : forall frames, mapR (fun o => NearModel.pick fs (n - o)) (offsets n) = Ok frames <-> Forall2 (fun i g => nth_error fs i = Some g) (order n) frames).
  { intros frames. rewrite mapR_f2, <- order_eq by exact L. rewrite f2_mapl. apply f2_iff. intros o g _. apply pick_iff. }
  assert (DF : forall frames diffs, mapR (fun jk => do a <- NearModel.pick frames (fst jk); do b <- NearModel.pick frames (snd jk); Ok (KgainModel.minus a b)) (pairs n) = Ok diffs
     <-> Forall2 (fun jk d => exists g h, nth_error frames (fst jk) = Some g /\ nth_error frames (snd jk) = Some h /\ d = difference g h) (steps n) diffs).
  { intros frames diffs. rewrite mapR_f2, steps_eq by exact L. apply f2_iff. intros jk d _. rewrite bind_ok. split.
    - intros (a & PA & E). apply bind_ok in E. destruct E as (b & PB & E). apply pick_iff in PA, PB. exists a, b. split; [exact PA|]. split; [exact PB|]. apply (f_equal (fun r => match r with Ok q => q | _ => d end)) in E. symmetry. exact E.
    - intros (a & b & PA & PB & ->). exists a. split; [apply pick_iff, PA|]. apply bind_ok. exists b. split; [apply pick_iff, PB|reflexivity]. }
  assert (RN : forall diffs rn, mapR (fun d => do s <- width (p_rn p) d; Ok (s / sqrt 2)) diffs = Ok rn <-> Forall2 (fun d x => exists s, width (p_rn p) d = Ok s /\ x * sqrt 2 = s) diffs rn).
  { intros diffs rn0. rewrite mapR_f2. apply f2_iff. intros d x _. rewrite bind_ok. split.
    - intros (s & E & H). exists s. split; [exact E|]. apply div_iff. congruence.
    - intros (s & E & H). exists s. split; [exact E|]. apply div_iff in H. congruence. }
  assert (AV : forall k frames avs, (forall f, In f frames -> rows f = h /\ cols f = c) ->
    (mapR (fun f => do t <- ptc_bin2 (crop (p_box p) f) (mkimg (rows good) (cols good) (fun r c => vmul k (pix good r c))) w (p_top p); Ok (map fst t)) frames = Ok avs
     <-> Forall2 (fun g av => exists t, cells (region (p_box p) g) (fun r c => KgainSpec.times k (pix good r c)) w (p_top p) t /\ av = map fst t) frames avs)).
  { intros k frames avs S. rewrite mapR_f2. apply f2_iff. intros f av I. destruct (S f I) as (RF & CF). rewrite bind_ok. split.
    - intros (t & E & H). exists t. split; [apply PTC; assumption|]. congruence.
    - intros (t & E & ->). exists t. split; [apply PTC; assumption|reflexivity]. }
  assert (DV : forall k diffs devs, (forall f, In f diffs -> rows f = h /\ cols f = c) ->
    (mapR (fun d => do t <- ptc_bin2 (crop (p_box p) d) (mkimg (rows good) (cols good) (fun r c => vmul k (pix good r c))) w (p_top p); Ok (map (fun x => shot (diff2std prescan d) (half (snd x))) t)) diffs = Ok devs
     <-> Forall2 (fun d dv => exists t s, cells (region (p_box p) d) (fun r c => KgainSpec.times k (pix good r c)) w (p_top p) t
                            /\ sample_dev (prescan d) s /\ Forall2 (fun x v => shot_of (root2 (snd x)) (root2 s) v) t dv) diffs devs)).
  { intros k diffs devs S. rewrite mapR_f2. apply f2_iff. intros f dv I. destruct (S f I) as (RF & CF). rewrite bind_ok. split.
    - intros (t & E & H). exists t, (vstd 1 (prescan f)). split; [apply PTC; assumption|]. split; [apply sample_iff; reflexivity|]. apply (f2_fun (fun x => shot (diff2std prescan f) (half (snd x)))); [|congruence]. intros x v. apply shot_iff.
    - intros (t & s & E & SD & F). apply sample_iff in SD. subst s. exists t. split; [apply PTC; assumption|]. apply (f2_fun (fun x => shot (diff2std prescan f) (half (snd x)))) in F; [congruence|]. intros x v. apply shot_iff. }
  assert (DSH : forall frames diffs, (forall f, In f frames -> rows f = h /\ cols f = c) ->
     Forall2 (fun jk d => exists g h, nth_error frames (fst jk) = Some g /\ nth_error frames (snd jk) = Some h /\ d = difference g h) (steps n) diffs -> forall f, In f diffs -> rows f = h /\ cols f = c).
  { intros frames diffs S F. clear - F S. induction F as [|jk d js ds (g & g' & G & _ & ->) F IH]; intros f I; [destruct I|]. destruct I as [<-|I]; [|apply IH, I]. cbn [rows cols difference]. apply S. eapply nth_error_In. exact G. }
  split.
  - intros H. apply bind_ok in H. destruct H as (frames & F1 & H). apply bind_ok in H. destruct H as (diffs & F2 & H). apply bind_ok in H. destruct H as (rn' & F3 & H). apply bind_ok in H. destruct H as (f & F4 & H).
    apply bind_ok in H. destruct H as (avs & F5 & H). apply bind_ok in H. destruct H as (devs & F6 & H). apply FR in F1. apply DF in F2. apply RN in F3. apply pick_iff in F4.
    pose proof (f2_shape _ _ _ h c F1 SH) as S1. pose proof (DSH _ _ S1 F2) as S2. apply AV in F5; [|exact S1]. apply DV in F6; [|exact S2].
    exists frames, diffs, f, (average frames f). eexists. eexists. eexists. exists avs, devs. split; [exact F1|]. split; [exact F2|]. assert (ER : rn' = rn) by congruence. subst rn'. split; [exact F3|]. split; [exact F4|]. split; [apply average_mean|].
    split; [apply mean_iff; reflexivity|]. split; [apply mean_iff; reflexivity|]. split; [apply ratio_iff; reflexivity|]. rewrite region_eq in F5, F6. split; [exact F5|]. split; [exact F6|]. congruence.
  - intros (frames & diffs & f & whole & a & b & k & avs & devs & F1 & F2 & F3 & F4 & MI & MA & MB & RT & F5 & F6 & ->).
    pose proof (f2_shape _ _ _ h c F1 SH) as S1. pose proof (DSH _ _ S1 F2) as S2. apply FR in F1. rewrite F1. cbn [bind]. apply DF in F2. rewrite F2. cbn [bind]. apply RN in F3. rewrite F3. cbn [bind]. apply pick_iff in F4. rewrite F4. cbn [bind].
    apply mean_image_eq in MI. destruct MI as (R1 & C1 & P1). destruct (region_ext (p_box p) (average frames f) whole R1 C1 P1) as (R2 & C2 & P2). apply mean_iff in MA. rewrite (everywhere_ext _ _ R2 C2 P2) in MA. apply mean_iff in MB. apply ratio_iff in RT.
    assert (KE : vdiv (vmean (values (crop (p_box p) (average frames f)))) (vmean (values good)) = k) by (rewrite region_eq, RT, MA, MB; reflexivity). rewrite KE.
    apply (proj2 (AV k frames avs S1)) in F5. rewrite F5. cbn [bind]. apply (proj2 (DV k diffs devs S2)) in F6. rewrite F6. cbn [bind]. reflexivity.
Qed.
End Run.
