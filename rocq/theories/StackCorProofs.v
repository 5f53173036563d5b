(** Consequences of the descriptions of the calibration stacks. *)
From Coq Require Import List Arith Bool QArith ZArith String Sorted Permutation Lia Lqa.
From Verif Require Import Base CosmicModel CosmicSpec StackModel StackSpec StackProofs StackKgProofs.
Import ListNotations.
Local Open Scope list_scope.
Local Open Scope nat_scope.

Lemma Forall2_length : forall X Y (P : X -> Y -> Prop) l m, Forall2 P l m -> List.length l = List.length m.
Proof. intros X Y P l m H. induction H; [reflexivity|cbn; lia]. Qed.
Lemma partition_perm : forall X (p : X -> bool) l, Permutation l (filter p l ++ filter (fun x => negb (p x)) l).
Proof.
  intros X p. induction l as [|x t IH]; [constructor|]. cbn [filter]. destruct (p x); cbn [negb app]; [constructor; exact IH|].
  eapply Permutation_trans; [apply perm_skip; exact IH|]. apply Permutation_middle.
Qed.
Lemma partition_perm2 : forall X (p q : X -> bool) l, (forall x, In x l -> q x = negb (p x)) -> Permutation l (filter p l ++ filter q l).
Proof.
  intros X p q l H. replace (filter q l) with (filter (fun x => negb (p x)) l); [apply partition_perm|]. apply filter_ext_in. intros x I. symmetry. exact (H x I).
Qed.

(** [ks] covers each of [fs] exactly once *)
Lemma cover_perm : forall F (p : Q -> F -> bool) ks fs, (forall f, In f fs -> exists k1 k k2, ks = k1 ++ k :: k2 /\ p k f = true /\ (forall k', In k' (k1 ++ k2) -> p k' f = false)) ->
  Permutation (List.concat (map (fun k => filter (p k) fs) ks)) fs.
Proof.
  intros F p ks. induction fs as [|f fs IH]; intros H.
  - replace (List.concat (map (fun k => filter (p k) []) ks)) with (@nil F); [constructor|]. clear. induction ks; [reflexivity|]. cbn. exact IHks.
  - destruct (H f (or_introl eq_refl)) as (k1 & k & k2 & E & T & N). rewrite <- (IH (fun g I => H g (or_intror I))) at 1. rewrite E, !map_app, !concat_app. cbn [map List.concat].
    assert (Z : forall kk, (forall k', In k' kk -> p k' f = false) -> map (fun k => filter (p k) (f :: fs)) kk = map (fun k => filter (p k) fs) kk).
    { intros kk Hk. apply map_ext_in. intros a I. cbn [filter]. rewrite (Hk a I). reflexivity. }
    rewrite (Z k1), (Z k2) by (intros k' I; apply N; apply in_or_app; auto).
    replace (filter (p k) (f :: fs)) with (f :: filter (p k) fs) by (cbn [filter]; rewrite T; reflexivity).
    cbn [app]. symmetry. apply Permutation_middle.
Qed.
Lemma grouped_concat_perm : forall F (key : F -> option Q) fs ks gs, grouped key fs ks gs -> Permutation (List.concat gs) fs.
Proof.
  intros F key fs ks gs (SS & CV & F2).
  set (p := fun k f => match key f with Some q => Qeq_bool q k | None => false end).
  assert (E : gs = map (fun k => filter (p k) fs) ks). { clear - F2. induction F2 as [|k g ks gs [_ ->] F2 IH]; [reflexivity|]. cbn. rewrite <- IH. reflexivity. }
  rewrite E. apply cover_perm. intros f I. destruct (CV f I) as (q & Kq & k & Ik & Ek). destruct (in_split _ _ Ik) as (k1 & k2 & ->). exists k1, k, k2. split; [reflexivity|].
  split; [unfold p; rewrite Kq; apply Qeq_bool_iff; symmetry; exact Ek|]. intros k' Ik'. unfold p. rewrite Kq. apply Qeq_bool_false. intros EQ.
  assert (B : (k' < k \/ k < k')%Q).
  { clear - SS Ik'. revert SS Ik'. induction k1 as [|a t IH]; intros SS Ik'; cbn [app] in *.
    - right. apply StronglySorted_inv in SS. destruct SS as [_ FA]. exact (proj1 (Forall_forall _ _) FA k' Ik').
    - apply StronglySorted_inv in SS. destruct SS as [SS FA]. destruct Ik' as [<-|I]; [left; apply (proj1 (Forall_forall _ _) FA); apply in_or_app; right; left; reflexivity|exact (IH SS I)]. }
  Lqa.lra.
Qed.
Lemma filter_perm : forall X (p : X -> bool) l m, Permutation l m -> Permutation (filter p l) (filter p m).
Proof.
  intros X p l m H. induction H; cbn [filter]; [constructor| | |eapply Permutation_trans; eassumption].
  - destruct (p x); [constructor|]; assumption.
  - destruct (p x), (p y); try apply Permutation_refl. apply perm_swap.
Qed.

Section Cor.
Context {A : Type}.
Notation sframe := (sframe A).

Lemma nl_conserves : forall (fs : list sframe) o, nl_result fs o ->
  Permutation (o_cal o ++ o_mean o) (map sf_px fs) /\ Permutation (o_cal o) (map sf_px (cals fs)) /\ Permutation (o_mean o) (map sf_px (means fs))
  /\ fold_right Nat.add 0 (o_len o) = List.length (o_cal o) /\ List.length (o_times o) = List.length (o_cal o) /\ List.length (o_dts o) = List.length (o_cal o)
  /\ Forall (fun n => 1 <= n) (o_len o).
Proof.
  intros fs o (ks & gs & G & KN & _ & _ & EM & _ & EC & FT & FD & _ & EL & _).
  assert (P := grouped_concat_perm _ _ _ _ _ G).
  assert (PC : Permutation (o_cal o) (map sf_px (cals fs))) by (rewrite EC, cals_concat; apply Permutation_map, filter_perm; exact P).
  assert (PM : Permutation (o_mean o) (map sf_px (means fs))) by (rewrite EM, means_concat; apply Permutation_map, filter_perm; exact P).
  split. { rewrite PC, PM, <- map_app. apply Permutation_map. symmetry. apply partition_perm2. intros f I. destruct (KN f I) as [J|J]; apply filter_In in J; destruct J as [_ J]; fold (isM f) in *; fold (isC f) in *.
    - rewrite J, (isM_not_isC f J). reflexivity.
    - rewrite J. destruct (isM f) eqn:E; [rewrite (isM_not_isC f E) in J; discriminate|reflexivity]. }
  split; [exact PC|]. split; [exact PM|]. split.
  { rewrite EL, EC, map_length. clear. induction (map cals gs) as [|g t IH]; [reflexivity|]. cbn [filter List.concat]. rewrite app_length, <- IH. destruct g as [|x g]; [reflexivity|]. cbn [List.length Nat.eqb negb map fold_right]. reflexivity. }
  split; [rewrite EC, map_length; symmetry; exact (Forall2_length _ _ _ _ _ FT)|]. split; [rewrite EC, map_length; symmetry; exact (Forall2_length _ _ _ _ _ FD)|].
  rewrite EL. apply Forall_forall. intros n I. apply in_map_iff in I. destruct I as (g & <- & I). apply filter_In in I. destruct I as [_ I]. destruct g; [discriminate|cbn; lia].
Qed.

Lemma kg_conserves : forall (fs : list sframe) st mn ga, kg_result fs st mn ga ->
  Permutation (List.concat st ++ mn) (map sf_px fs) /\ Permutation mn (map sf_px (means fs)) /\ exists n, 0 < n /\ Forall (fun p => List.length p = n) st.
Proof.
  intros fs st mn ga (ks & gs & n & G & _ & _ & EM & _ & _ & _ & IN & _ & _ & FP & EC & _).
  assert (P := grouped_concat_perm _ _ _ _ _ G).
  assert (PM : Permutation mn (map sf_px (means fs))) by (rewrite EM, means_concat; apply Permutation_map, filter_perm; exact P).
  split. { rewrite EC, PM, others_concat, <- map_app. apply Permutation_map. eapply Permutation_trans; [apply Permutation_app_tail, filter_perm; exact P|]. eapply Permutation_trans; [apply Permutation_app_comm|]. symmetry. apply partition_perm. }
  split; [exact PM|]. exists n. split; [|exact FP]. apply in_map_iff in IN. destruct IN as (g & <- & I). apply filter_In in I. destruct I as [_ I]. destruct g; [discriminate|cbn; lia].
Qed.

Lemma recorded_unmeasured : forall (l : list sframe) gl, recorded l gl -> (forall f, In f l -> h_gm (sf_h f) = None) ->
  match l with [] => gl = [] | f :: _ => exists g, gl = [g] /\ gain_of (sf_h f) g end.
Proof. intros l gl H N. destruct H as [|f t g l E H|f t g E G]; [reflexivity| |exists g; split; [reflexivity|exact G]]. rewrite (N f (or_introl eq_refl)) in E. discriminate. Qed.
Lemma recorded_measured : forall (l : list sframe) gl, recorded l gl -> (forall f, In f l -> h_gm (sf_h f) <> None) -> Forall2 (fun f g => h_gm (sf_h f) = Some g) l gl.
Proof.
  intros l gl H. induction H as [|f t g l E H IH|f t g E G]; intros N; [constructor| |].
  - constructor; [exact E|]. apply IH. intros f' I. exact (N f' (or_intror I)).
  - exfalso. exact (N f (or_introl eq_refl) E).
Qed.
Lemma first_gains : forall (ls : list (list sframe)) gl, Forall2 recorded ls gl -> (forall l f, In l ls -> In f l -> h_gm (sf_h f) = None) ->
  Forall2 (fun g x => exists f t, g = f :: t /\ gain_of (sf_h f) x) (filter (fun g => negb (Nat.eqb (List.length g) 0)) ls) (List.concat gl).
Proof.
  intros ls gl H. induction H as [|l g ls gl R H IH]; intros N; [constructor|].
  assert (X := recorded_unmeasured l g R (fun f I => N l f (or_introl eq_refl) I)). assert (Y := IH (fun l' f I J => N l' f (or_intror I) J)).
  destruct l as [|f t]; cbn [filter List.length Nat.eqb negb List.concat]; [rewrite X; exact Y|]. destruct X as (x & -> & G). cbn [app]. constructor; [exists f, t; split; [reflexivity|exact G]|exact Y].
Qed.
Lemma all_gains : forall (ls : list (list sframe)) gl, Forall2 recorded ls gl -> (forall l f, In l ls -> In f l -> h_gm (sf_h f) <> None) ->
  Forall2 (fun f g => h_gm (sf_h f) = Some g) (List.concat ls) (List.concat gl).
Proof.
  intros ls gl H. induction H as [|l g ls gl R H IH]; intros N; [constructor|]. cbn [List.concat]. apply Forall2_app2.
  - apply recorded_measured; [exact R|]. intros f I. exact (N l f (or_introl eq_refl) I).
  - apply IH. intros l' f I J. exact (N l' f (or_intror I) J).
Qed.

Lemma in_cals : forall key (fs : list sframe) ks gs p l f, grouped key fs ks gs -> In l (map (filter p) gs) -> In f l -> In f (filter p fs).
Proof.
  intros key fs ks gs p l f G I J. apply (in_filter_grouped key p fs ks gs f G). rewrite filter_concat. apply in_concat. exists l. split; assumption.
Qed.

(** No measured gain: one gain for each set, the one of its first frame. *)
Lemma nl_unmeasured : forall (fs : list sframe) o, nl_result fs o -> (forall f, In f (cals fs) -> h_gm (sf_h f) = None) ->
  exists sets, Permutation (List.concat sets) (cals fs) /\ map sf_px (List.concat sets) = o_cal o /\ map (@List.length _) sets = o_len o
  /\ (forall g f f', In g sets -> In f g -> In f' g -> exists q q', h_gc (sf_h f) = Some q /\ h_gc (sf_h f') = Some q' /\ (q == q')%Q)
  /\ Forall2 (fun g x => exists f t, g = f :: t /\ gain_of (sf_h f) x) sets (o_gains o).
Proof.
  intros fs o (ks & gs & G & _ & _ & _ & _ & _ & EC & _ & _ & _ & EL & _ & gl & R & EG & _) N.
  exists (filter (fun g => negb (Nat.eqb (List.length g) 0)) (map cals gs)).
  assert (EQ : List.concat (filter (fun g : list sframe => negb (Nat.eqb (List.length g) 0)) (map cals gs)) = List.concat (map cals gs)).
  { clear. induction (map cals gs) as [|g t IH]; [reflexivity|]. destruct g; cbn [filter List.length Nat.eqb negb List.concat]; rewrite IH; reflexivity. }
  split. { rewrite EQ, cals_concat. apply filter_perm. exact (grouped_concat_perm _ _ _ _ _ G). }
  split; [rewrite EQ, EC; reflexivity|]. split; [rewrite EL; reflexivity|]. split.
  - intros g f f' I J J'. apply filter_In in I. destruct I as [I _]. apply in_map_iff in I. destruct I as (g0 & <- & I). apply filter_In in J, J'. destruct J as [J _], J' as [J' _].
    destruct G as (_ & _ & F2). assert (X : exists k, g0 = filter (fun f => match h_gc (sf_h f) with Some q => Qeq_bool q k | None => false end) fs).
    { clear - F2 I. induction F2 as [|k g ks gs [_ E] F2 IH]; [contradiction|]. destruct I as [<-|I]; [exists k; exact E|exact (IH I)]. }
    destruct X as [k ->]. apply filter_In in J, J'. destruct J as [_ J], J' as [_ J']. destruct (h_gc (sf_h f)) as [q|]; [|discriminate]. destruct (h_gc (sf_h f')) as [q'|]; [|discriminate].
    exists q, q'. apply Qeq_bool_iff in J, J'. split; [reflexivity|]. split; [reflexivity|Lqa.lra].
  - rewrite EG. apply first_gains; [exact R|]. intros l f I J. apply N. exact (in_cals _ _ _ _ _ _ _ G I J).
Qed.
Lemma nl_measured : forall (fs : list sframe) o, nl_result fs o -> (forall f, In f (cals fs) -> h_gm (sf_h f) <> None) ->
  List.length (o_gains o) = List.length (o_cal o).
Proof.
  intros fs o (ks & gs & G & _ & _ & _ & _ & _ & EC & _ & _ & _ & EL & _ & gl & R & EG & _) N.
  rewrite EG, EC, map_length. symmetry. apply (Forall2_length _ _ _ _ _ (all_gains _ _ R (fun l f I J => N f (in_cals _ _ _ _ _ _ _ G I J)))).
Qed.
Lemma sum_ge : forall n l, Forall (fun k => n <= k) l -> n * List.length l <= fold_right Nat.add 0 l.
Proof. intros n l H. induction H as [|k t L H IH]; cbn [fold_right List.length]; lia. Qed.
Lemma nl_checks_measured : forall (fs : list sframe) o n_cal n_mean mn, nl_result fs o -> (forall f, In f (cals fs) -> h_gm (sf_h f) <> None) -> 2 <= n_cal ->
  nonlin_checks n_cal n_mean mn o = Raise PyException.
Proof.
  intros fs o n_cal n_mean mn R N L. assert (M := nl_measured fs o R N). destruct (nl_conserves fs o R) as (_ & _ & _ & SUM & _).
  unfold nonlin_checks. destruct (Nat.ltb _ 1) eqn:E1; [reflexivity|]. destruct (negb _); [reflexivity|]. destruct (existsb (fun n => Nat.ltb n n_cal) (o_len o)) eqn:E2; [reflexivity|].
  destruct (Nat.ltb _ n_mean); [reflexivity|]. destruct (existsb _ (o_times o)); [reflexivity|].
  destruct (Nat.eqb (List.length (o_len o)) (List.length (o_gains o))) eqn:E3; [|reflexivity]. exfalso. apply Nat.eqb_eq in E3. apply Nat.ltb_ge in E1.
  assert (F : Forall (fun k => n_cal <= k) (o_len o)).
  { apply Forall_forall. intros k I. destruct (Nat.ltb k n_cal) eqn:E; [|apply Nat.ltb_ge; exact E]. assert (X : existsb (fun n => Nat.ltb n n_cal) (o_len o) = true) by (apply existsb_exists; exists k; split; assumption). congruence. }
  assert (S' := sum_ge n_cal (o_len o) F). nia.
Qed.
Lemma nl_checks_unmeasured : forall (fs : list sframe) o n_cal n_mean mn, nl_result fs o -> (forall f, In f (cals fs) -> h_gm (sf_h f) = None) ->
  (nonlin_checks n_cal n_mean mn o = Ok tt <-> Forall (fun n => n_cal <= n) (o_len o) /\ n_mean <= List.length (means fs) /\ Forall (fun t => (mn < t)%Q) (o_times o)).
Proof.
  intros fs o n_cal n_mean mn R N. destruct (nl_unmeasured fs o R N) as (sets & _ & _ & EL & _ & F2). destruct (nl_conserves fs o R) as (_ & PC & PM & SUM & _).
  assert (LG : List.length (o_len o) = List.length (o_gains o)) by (rewrite <- EL, map_length; exact (Forall2_length _ _ _ _ _ F2)).
  assert (L1 : 1 <= List.length (o_len o)).
  { destruct R as (ks & gs & _ & _ & _ & _ & _ & CN & _). assert (X := Permutation_length PC). rewrite map_length in X. destruct (cals fs); [contradiction|]. destruct (o_len o); [cbn in SUM; cbn in X; lia|cbn; lia]. }
  assert (LM : List.length (o_mean o) = List.length (means fs)) by (rewrite (Permutation_length PM), map_length; reflexivity).
  unfold nonlin_checks. rewrite (proj2 (Nat.ltb_ge _ _) L1), SUM, Nat.eqb_refl, LG, Nat.eqb_refl, LM. cbn [negb].
  assert (B1 : existsb (fun n => Nat.ltb n n_cal) (o_len o) = false <-> Forall (fun n => n_cal <= n) (o_len o)).
  { rewrite Forall_forall. split; intros H.
    - intros n I. apply Nat.ltb_ge. destruct (Nat.ltb n n_cal) eqn:E; [|reflexivity]. assert (X : existsb (fun n => Nat.ltb n n_cal) (o_len o) = true) by (apply existsb_exists; exists n; split; assumption). congruence.
    - destruct (existsb _ _) eqn:E; [|reflexivity]. apply existsb_exists in E. destruct E as (n & I & E). apply Nat.ltb_lt in E. specialize (H n I). lia. }
  assert (B2 : existsb (fun t => Qle_bool t mn) (o_times o) = false <-> Forall (fun t => (mn < t)%Q) (o_times o)).
  { rewrite Forall_forall. split; intros H.
    - intros n I. apply Qle_bool_false. destruct (Qle_bool n mn) eqn:E; [|reflexivity]. assert (X : existsb (fun t => Qle_bool t mn) (o_times o) = true) by (apply existsb_exists; exists n; split; assumption). congruence.
    - destruct (existsb _ (o_times o)) eqn:E; [|reflexivity]. apply existsb_exists in E. destruct E as (n & I & E). apply Qle_bool_iff in E. specialize (H n I). Lqa.lra. }
  rewrite <- B1, <- B2, <- Nat.ltb_ge. destruct (existsb _ (o_len o)); [split; [discriminate|intros (H & _); discriminate]|]. destruct (Nat.ltb (List.length (means fs)) n_mean); [split; [discriminate|intros (_ & H & _); discriminate]|].
  destruct (existsb _ (o_times o)); [split; [discriminate|intros (_ & _ & H); discriminate]|]. split; [intros _; repeat split|reflexivity].
Qed.

(** * K-gain *)
Lemma kg_measured : forall (fs : list sframe) st mn ga, kg_result fs st mn ga -> (forall f, In f (others fs) -> h_gm (sf_h f) <> None) ->
  exists fr gl, Permutation fr (others fs) /\ Forall2 (fun f g => h_gm (sf_h f) = Some g) fr gl /\ gl <> [] /\ (ga * inject_Z (Z.of_nat (List.length gl)) == fold_right Qplus 0 gl)%Q.
Proof.
  intros fs st mn ga (ks & gs & n & G & _ & _ & _ & _ & _ & _ & _ & _ & _ & _ & _ & gl & R & _ & NE & ->) N.
  exists (List.concat (map others gs)), (List.concat gl). split; [rewrite others_concat; apply filter_perm; exact (grouped_concat_perm _ _ _ _ _ G)|].
  split; [apply all_gains; [exact R|]; intros l f I J; exact (N f (in_cals _ _ _ _ _ _ _ G I J))|]. split; [exact NE|].
  field. change 0%Q with (inject_Z 0). rewrite inject_Z_injective. destruct (List.concat gl); [contradiction|cbn; lia].
Qed.
Lemma kg_unmeasured : forall (fs : list sframe) st mn ga, kg_result fs st mn ga -> (forall f, In f (others fs) -> h_gm (sf_h f) = None) ->
  exists sets gl, Permutation (List.concat sets) (others fs)
  /\ (forall g f f', In g sets -> In f g -> In f' g -> exists q q', sf_time f = Some q /\ sf_time f' = Some q' /\ (q == q')%Q)
  /\ Forall2 (fun g x => exists f t, g = f :: t /\ gain_of (sf_h f) x) sets gl /\ gl <> [] /\ (ga * inject_Z (Z.of_nat (List.length gl)) == fold_right Qplus 0 gl)%Q.
Proof.
  intros fs st mn ga (ks & gs & n & G & _ & _ & _ & _ & _ & _ & _ & _ & _ & _ & _ & gl & R & _ & NE & ->) N.
  exists (filter (fun g => negb (Nat.eqb (List.length g) 0)) (map others gs)), (List.concat gl).
  assert (EQ : List.concat (filter (fun g : list sframe => negb (Nat.eqb (List.length g) 0)) (map others gs)) = List.concat (map others gs)).
  { clear. induction (map others gs) as [|g t IH]; [reflexivity|]. destruct g; cbn [filter List.length Nat.eqb negb List.concat]; rewrite IH; reflexivity. }
  split. { rewrite EQ, others_concat. apply filter_perm. exact (grouped_concat_perm _ _ _ _ _ G). }
  split.
  { intros g f f' I J J'. apply filter_In in I. destruct I as [I _]. apply in_map_iff in I. destruct I as (g0 & <- & I). apply filter_In in J, J'. destruct J as [J _], J' as [J' _].
    destruct G as (_ & _ & F2). assert (X : exists k, g0 = filter (fun f => match sf_time f with Some q => Qeq_bool q k | None => false end) fs).
    { clear - F2 I. induction F2 as [|k g ks gs [_ E] F2 IH]; [contradiction|]. destruct I as [<-|I]; [exists k; exact E|exact (IH I)]. }
    destruct X as [k ->]. apply filter_In in J, J'. destruct J as [_ J], J' as [_ J']. destruct (sf_time f) as [q|]; [|discriminate]. destruct (sf_time f') as [q'|]; [|discriminate].
    exists q, q'. apply Qeq_bool_iff in J, J'. split; [reflexivity|]. split; [reflexivity|Lqa.lra]. }
  split; [apply first_gains; [exact R|]; intros l f I J; exact (N f (in_cals _ _ _ _ _ _ _ G I J))|]. split; [exact NE|].
  field. change 0%Q with (inject_Z 0). rewrite inject_Z_injective. destruct (List.concat gl); [contradiction|cbn; lia].
Qed.

(** A mean frame sharing the exposure time of the smallest calibration set. *)
Lemma kg_shared : forall (fs : list sframe) t fm fo, In fm (means fs) -> In fo (others fs) -> sf_time fm = Some t -> sf_time fo = Some t ->
  (forall f q, In f (others fs) -> sf_time f = Some q -> List.length (same_time t fs) <= List.length (same_time q fs)) ->
  forall r, kgain_dataset_2_list fs <> Ok r.
Proof.
  intros fs t fm fo Im Io Tm To MIN [[st mn] ga] E. apply kg_iff in E. destruct E as (ks & gs & n & G & _ & _ & _ & _ & _ & _ & IN & NLE & MUL & _).
  assert (GR : forall g, In g gs -> exists k, g = same_time k fs). { destruct G as (_ & _ & F2). intros g I. clear - F2 I. induction F2 as [|k g' ks gs [_ E] F2 IH]; [contradiction|]. destruct I as [<-|I]; [exists k; exact E|exact (IH I)]. }
  assert (EXT : forall a b, (a == b)%Q -> same_time a fs = same_time b fs). { intros a b Eab. apply filter_ext. intros f. destruct (sf_time f); [apply Qeq_bool_ext; exact Eab|reflexivity]. }
  assert (GT : In (same_time t fs) gs).
  { assert (Ifs : In fo fs) by (apply filter_In in Io; exact (proj1 Io)). assert (J := proj2 (grouped_in _ fs ks gs fo G) Ifs). apply in_concat in J. destruct J as (g & Ig & If).
    destruct (GR g Ig) as [k Ek]. rewrite Ek in If. apply filter_In in If. destruct If as [_ If]. rewrite To in If. apply Qeq_bool_iff in If. rewrite (EXT t k If), <- Ek. exact Ig. }
  assert (SM : In fm (same_time t fs)) by (apply filter_In; split; [apply filter_In in Im; exact (proj1 Im)|rewrite Tm; apply Qeq_bool_refl]).
  assert (SO : In fo (others (same_time t fs))).
  { apply filter_In in Io. apply filter_In. split; [|exact (proj2 Io)]. apply filter_In. split; [exact (proj1 Io)|rewrite To; apply Qeq_bool_refl]. }
  assert (N1 : List.length (same_time t fs) <= n).
  { apply in_map_iff in IN. destruct IN as (g & <- & I). apply filter_In in I. destruct I as [I Z]. destruct (GR g I) as [k Ek].
    destruct (others g) as [|f u] eqn:Eo; [discriminate|]. assert (J : In f (others g)) by (rewrite Eo; left; reflexivity). apply filter_In in J. destruct J as [J1 J2]. rewrite Ek in J1. apply filter_In in J1. destruct J1 as [J0 J1].
    destruct (sf_time f) as [q|] eqn:Eq; [|discriminate]. apply Qeq_bool_iff in J1. rewrite Ek, <- (EXT q k J1). apply (MIN f q); [apply filter_In; split; assumption|exact Eq]. }
  destruct (MUL _ GT) as [k Hk].
  assert (LT : List.length (others (same_time t fs)) < List.length (same_time t fs)).
  { assert (P := partition_perm _ (obs_is ["MNFRAME"%string]) (same_time t fs)). apply Permutation_length in P. rewrite app_length in P. fold (others (same_time t fs)) in P.
    assert (X : In fm (filter (obs_is ["MNFRAME"%string]) (same_time t fs))) by (apply filter_In; split; [exact SM|apply filter_In in Im; exact (proj2 Im)]). destruct (filter (obs_is ["MNFRAME"%string]) (same_time t fs)); [contradiction|]. cbn [List.length] in P. unfold others in *. lia. }
  assert (GE : 0 < List.length (others (same_time t fs))) by (destruct (others (same_time t fs)); [contradiction|cbn; lia]). destruct k as [|k]; cbn [Nat.mul] in Hk; lia.
Qed.
End Cor.
