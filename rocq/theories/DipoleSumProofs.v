(** Proofs on the search for dipoles: phase times, the dictionaries. *)
From Coq Require Import List Arith Bool Reals ZArith Lia Lra Permutation.
From Verif Require Import Base DqModel DqProofs AngleModel CombineModel CombineSpec CombineProofs BpmSpec BpmProofs FindModel FindProofs SortGroupProofs ComboSpec ComboProofs IllModel IllProofs DipoleModel DipoleSpec DipoleProofs.
Import ListNotations.
Local Open Scope R_scope.

(** ** Regrouping *)
Lemma rsum_zero : forall A (f : A -> R) l, (forall x, In x l -> f x = 0) -> rsum (map f l) = 0.
Proof. intros A f. induction l as [|x l IH]; intros H; [reflexivity|]. cbn. rewrite (H x (or_introl eq_refl)). unfold rsum in IH. rewrite IH by (intros; apply H; right; assumption). lra. Qed.
Lemma rsum_plus : forall A (f g : A -> R) l, rsum (map (fun x => f x + g x) l) = rsum (map f l) + rsum (map g l).
Proof. intros A f g. unfold rsum. induction l as [|x l IH]; cbn; [lra|]. rewrite IH. lra. Qed.
Lemma rsum_ext : forall A (f g : A -> R) l, (forall x, In x l -> f x = g x) -> rsum (map f l) = rsum (map g l).
Proof. intros A f g l H. f_equal. apply map_ext_in. exact H. Qed.
Lemma rsum_one : forall (w : R -> R) t0 ts, NoDup ts -> In t0 ts -> rsum (map (fun t => if Req_EM_T t0 t then w t else 0) ts) = w t0.
Proof.
  intros w t0. induction ts as [|t ts IH]; intros N I; [destruct I|]. inversion N as [|x l NI N']; subst. cbn [map rsum fold_right]. destruct (Req_EM_T t0 t) as [<-|NE].
  - fold (rsum (map (fun t => if Req_EM_T t0 t then w t else 0) ts)). rewrite rsum_zero; [lra|]. intros x I'. destruct (Req_EM_T t0 x) as [<-|]; [contradiction|reflexivity].
  - fold (rsum (map (fun t => if Req_EM_T t0 t then w t else 0) ts)). destruct I as [I|I]; [congruence|]. rewrite (IH N' I). lra.
Qed.
Lemma regroup : forall (w : R -> R) ts, NoDup ts -> forall l : list (bool * R), (forall p, In p l -> In (snd p) ts) ->
  rsum (map (fun p : bool * R => (if fst p then 1 else 0) * w (snd p)) l) = rsum (map (fun t => INR (List.length (filter fst (at_time t l))) * w t) ts).
Proof.
  intros w ts N. induction l as [|(b & t0) l IH]; intros H.
  - cbn [map rsum fold_right]. symmetry. apply rsum_zero. intros t _. cbn. lra.
  - cbn [map rsum fold_right fst snd]. fold (rsum (map (fun p : bool * R => (if fst p then 1 else 0) * w (snd p)) l)). rewrite IH by (intros; apply H; right; assumption).
    rewrite (rsum_ext _ (fun t => INR (List.length (filter fst (at_time t ((b, t0) :: l)))) * w t) (fun t => (if Req_EM_T t0 t then (if b then 1 else 0) * w t else 0) + INR (List.length (filter fst (at_time t l))) * w t)).
    + rewrite (rsum_plus _ (fun t => if Req_EM_T t0 t then (if b then 1 else 0) * w t else 0)). f_equal. symmetry. apply (rsum_one (fun t => (if b then 1 else 0) * w t) t0 ts N). exact (H (b, t0) (or_introl eq_refl)).
    + intros t _. unfold at_time. cbn [filter snd]. destruct (Req_EM_T t0 t); cbn [filter fst]; [destruct b; cbn [List.length]; [rewrite S_INR|]; lra|lra].
Qed.
Lemma marked_is : forall D (p : list (list R) -> bool) stack times l, (forall fr, In fr stack -> (p fr = true <-> D fr)) -> (marked D stack times l <-> List.length times = List.length stack /\ l = combine (map p stack) times).
Proof.
  intros D p stack. induction stack as [|fr stack IH]; intros times l H; split.
  - intros (<- & F). inversion F; subst. auto.
  - intros (L & ->). destruct times; [|discriminate L]. split; constructor.
  - intros (<- & F). inversion F as [|a q s l' E F']; subst. destruct (proj1 (IH (map snd l') l' (fun fr I => H fr (or_intror I)))) as (L & EL); [split; [reflexivity|exact F']|]. split; [cbn; lia|]. cbn [map combine]. rewrite <- EL. f_equal. specialize (H fr (or_introl eq_refl)). destruct q as (b & t). cbn [fst snd] in *. f_equal. destruct b, (p fr); intuition congruence.
  - intros (L & ->). destruct times as [|t times]; [discriminate L|]. destruct (proj2 (IH times (combine (map p stack) times) (fun fr I => H fr (or_intror I)))) as (M & F); [split; [cbn in L; lia|reflexivity]|]. cbn [map combine]. split; [cbn [map snd]; f_equal; exact M|]. constructor; [cbn [fst]; apply H; left; reflexivity|exact F].
Qed.
Lemma combine_map_l : forall A B D (g : A -> B) (a : list A) (b : list D), combine (map g a) b = map (fun p => (g (fst p), snd p)) (combine a b).
Proof. intros A B D g. induction a as [|x a IH]; intros [|y b]; cbn; try reflexivity. f_equal. apply IH. Qed.
Lemma snd_combine : forall A B (a : list A) (b : list B), List.length b = List.length a -> map snd (combine a b) = b.
Proof. intros A B. induction a as [|x a IH]; intros [|y b] L; try discriminate L; [reflexivity|]. cbn. f_equal. apply IH. cbn in L. lia. Qed.
Lemma count_at : forall t l, time_count (map snd l) t = List.length (at_time t l).
Proof. intros t. unfold time_count, at_time. induction l as [|(b & u) l IH]; [reflexivity|]. cbn [map snd filter]. destruct (Req_EM_T u t); cbn [List.length]; rewrite IH; reflexivity. Qed.
Lemma score_shares : forall (d : list (list R) -> list (list nat)) r c stack times ts l, List.length times = List.length stack -> phase_times times ts -> l = combine (map (fun fr => dipole_at (d fr) r c) stack) times ->
  score (map d stack) times r c = total (map (fun t => share t l) ts).
Proof.
  intros d r c stack times ts l L (N & P) ->. set (l := combine _ times). assert (ML : map snd l = times) by (apply snd_combine; rewrite map_length; exact L).
  unfold score. rewrite combine_map_l, map_map. unfold l in *. rewrite combine_map_l in *. set (l0 := combine stack times) in *.
  change (total (map (fun t => share t (map (fun p => (dipole_at (d (fst p)) r c, snd p)) l0)) ts)) with (rsum (map (fun t => share t (map (fun p => (dipole_at (d (fst p)) r c, snd p)) l0)) ts)). set (l1 := map (fun p => (dipole_at (d (fst p)) r c, snd p)) l0) in *.
  transitivity (rsum (map (fun p : bool * R => (if fst p then 1 else 0) * / INR (time_count times (snd p))) l1)).
  - unfold l1. rewrite map_map. apply rsum_ext. intros p _. reflexivity.
  - rewrite (regroup (fun t => / INR (time_count times t)) ts N); [|intros p I; apply P; rewrite <- ML; apply in_map; exact I]. apply rsum_ext. intros t _. unfold share. rewrite <- (count_at t l1), ML. reflexivity.
Qed.
Lemma times_exist : forall times, exists ts, phase_times times ts.
Proof. intros times. exists (nodup Req_EM_T times). split; [apply NoDup_nodup|]. intros t. apply nodup_In. Qed.
Lemma ceil_ge : forall x (z : Z), (z <= ceil x)%Z <-> IZR z - 1 < x.
Proof.
  intros x z. pose proof (proj1 (ceil_iff x (ceil x)) eq_refl) as (A & B). set (k := ceil x) in *. clearbody k. split; intros H.
  - apply IZR_le in H. lra.
  - assert (IZR (z - 1) < IZR k) by (rewrite minus_IZR; lra). apply lt_IZR in H0. lia.
Qed.
Theorem enough_iff : forall D d r c stack times limit, List.length times = List.length stack -> (forall fr, In fr stack -> (dipole_at (d fr) r c = true <-> D fr)) ->
  (enough (map d stack) times limit (r, c) = true <-> qualifies D stack times limit).
Proof.
  intros D d r c stack times limit L H. unfold enough. cbn [fst snd]. rewrite Z.leb_le, ceil_ge. split.
  - intros E. destruct (times_exist times) as (ts & P). exists (combine (map (fun fr => dipole_at (d fr) r c) stack) times), ts. split; [apply (marked_is D (fun fr => dipole_at (d fr) r c) stack times _ H); auto|]. split; [exact P|]. rewrite <- (score_shares d r c stack times ts _ L P eq_refl). exact E.
  - intros (l & ts & M & P & E). apply (marked_is D (fun fr => dipole_at (d fr) r c) stack times _ H) in M. destruct M as (_ & M). rewrite (score_shares d r c stack times ts l L P M). exact E.
Qed.

(** ** Shares and numbers of phase times *)
Lemma filter_le : forall A (p : A -> bool) l, (List.length (filter p l) <= List.length l)%nat.
Proof. intros A p. induction l as [|x l IH]; [reflexivity|]. cbn. destruct (p x); cbn; lia. Qed.
Lemma share_bounds : forall t l, 0 <= share t l <= 1.
Proof.
  intros t l. unfold share. pose proof (filter_le _ fst (at_time t l)) as F. destruct (List.length (at_time t l)) as [|n] eqn:E.
  - replace (List.length (filter fst (at_time t l))) with 0%nat by lia. cbn. unfold Rdiv. rewrite Rmult_0_l. lra.
  - assert (P : 0 < INR (S n)) by (apply lt_0_INR; lia). apply le_INR in F. pose proof (pos_INR (List.length (filter fst (at_time t l)))). split; [apply Rmult_le_pos; [lra|apply Rlt_le, Rinv_0_lt_compat; exact P]|]. apply Rmult_le_reg_r with (INR (S n)); [exact P|]. unfold Rdiv. rewrite Rmult_assoc, Rinv_l by lra. lra.
Qed.
Lemma share_pos : forall t l, 0 < share t l -> exists p, In p l /\ snd p = t /\ fst p = true.
Proof.
  intros t l P. unfold share in P. destruct (filter fst (at_time t l)) as [|p q] eqn:E.
  - cbn in P. unfold Rdiv in P. rewrite Rmult_0_l in P. lra.
  - assert (I : In p (filter fst (at_time t l))) by (rewrite E; left; reflexivity). apply filter_In in I. destruct I as (I & F). unfold at_time in I. apply filter_In in I. destruct I as (I & T). exists p. split; [exact I|]. split; [destruct (Req_EM_T (snd p) t); [assumption|discriminate T]|exact F].
Qed.
Lemma share_one : forall t l, (exists p, In p l /\ snd p = t) -> (forall p, In p l -> snd p = t -> fst p = true) -> share t l = 1.
Proof.
  intros t l (p & I & T) H. unfold share. assert (E : filter fst (at_time t l) = at_time t l). { unfold at_time. clear I p T. induction l as [|(b & u) l IH]; [reflexivity|]. cbn [filter snd]. specialize (IH (fun p I => H p (or_intror I))). destruct (Req_EM_T u t) as [->|]; [|exact IH]. cbn [filter fst]. pose proof (H (b, t) (or_introl eq_refl) eq_refl) as B. cbn [fst] in B. rewrite B, IH. reflexivity. }
  rewrite E. apply Rinv_r. assert (I' : In p (at_time t l)) by (apply filter_In; split; [exact I|destruct (Req_EM_T (snd p) t); [reflexivity|contradiction]]). destruct (at_time t l) as [|q m]; [destruct I'|]. apply not_0_INR. discriminate.
Qed.
Lemma share_zero : forall t l, (forall p, In p l -> snd p = t -> fst p = false) -> share t l = 0.
Proof.
  intros t l H. destruct (share_bounds t l) as (A & _). destruct (Rle_lt_or_eq_dec 0 (share t l) A) as [P|E]; [|auto]. destruct (share_pos t l P) as (p & I & T & F). rewrite (H p I T) in F. discriminate F.
Qed.
Lemma total_bound : forall (f : R -> R) ts, (forall t, 0 <= f t <= 1) -> total (map f ts) <= INR (List.length (filter (fun t => if Rlt_dec 0 (f t) then true else false) ts)).
Proof.
  intros f ts B. induction ts as [|t ts IH]; [cbn; lra|]. cbn [map total fold_right filter] in *. unfold total in IH. specialize (B t). destruct (Rlt_dec 0 (f t)); cbn [List.length]; [rewrite S_INR; lra|lra].
Qed.
(** A pixel is only reported if the dipole shows at that many phase times. *)
Theorem at_least : forall D stack times limit, qualifies D stack times limit -> exists ts, NoDup ts /\ (limit <= Z.of_nat (List.length ts))%Z /\ forall t, In t ts -> exists fr, In (fr, t) (combine stack times) /\ D fr.
Proof.
  intros D stack times limit (l & ts & (ML & F) & (N & P) & E). set (g := fun t => if Rlt_dec 0 (share t l) then true else false). exists (filter g ts). split; [apply NoDup_filter; exact N|]. split.
  - pose proof (total_bound (fun t => share t l) ts (fun t => share_bounds t l)) as T. cbv beta in T. fold g in T. assert (H : IZR (limit - 1) < IZR (Z.of_nat (List.length (filter g ts)))) by (rewrite minus_IZR, <- INR_IZR_INZ; lra). apply lt_IZR in H. lia.
  - intros t I. apply filter_In in I. destruct I as (_ & G). unfold g in G. destruct (Rlt_dec 0 (share t l)) as [S0|]; [|discriminate G]. destruct (share_pos t l S0) as (p & I & T & B). apply In_nth_error in I. destruct I as (i & I). destruct (Forall2_nth' _ _ _ _ _ i p F I) as (fr & FR & H). exists fr. split; [|apply H; exact B].
    apply nth_error_In with i. rewrite <- ML, <- T. clear - FR I. revert stack l FR I. induction i as [|i IH]; intros [|a s] [|q l] FR I; try discriminate; cbn in *; [congruence|]. apply IH; assumption.
Qed.
(** If the frames of a phase time agree, as when each has one frame, that is also enough. *)
Theorem agreeing : forall D stack times limit ts, List.length times = List.length stack -> (forall fr, In fr stack -> D fr \/ ~ D fr) ->
  (forall fr fr' t, In (fr, t) (combine stack times) -> In (fr', t) (combine stack times) -> D fr -> D fr') ->
  NoDup ts -> (limit <= Z.of_nat (List.length ts))%Z -> (forall t, In t ts -> exists fr, In (fr, t) (combine stack times) /\ D fr) -> qualifies D stack times limit.
Proof.
  intros D stack times limit ts L DD AG N LE H.
  assert (DEC : exists l, marked D stack times l). { clear AG H. revert times L. induction stack as [|fr stack IH]; intros [|t times] L; try discriminate L; [exists []; split; constructor|]. destruct (IH (fun x I => DD x (or_intror I)) times ltac:(cbn in L; lia)) as (l & M & F). destruct (DD fr (or_introl eq_refl)) as [Y|Y]; [exists ((true, t) :: l)|exists ((false, t) :: l)]; (split; [cbn [map snd]; rewrite M; reflexivity|]; constructor; [cbn [fst]; split; [intros E; try discriminate E; exact Y|intros E; try contradiction; reflexivity]|exact F]). }
  destruct DEC as (l & M). destruct (times_exist times) as (us & NU & PU). exists l, us. split; [exact M|]. split; [split; assumption|]. destruct M as (ML & F).
  assert (PAIR : forall p, In p l -> exists fr, In (fr, snd p) (combine stack times) /\ (fst p = true <-> D fr)).
  { intros p I. apply In_nth_error in I. destruct I as (i & I). destruct (Forall2_nth' _ _ _ _ _ i p F I) as (fr & FR & HH). exists fr. split; [|exact HH]. apply nth_error_In with i. rewrite <- ML. clear - FR I. revert stack l FR I. induction i as [|i IH]; intros [|a s] [|q l] FR I; try discriminate; cbn in *; [congruence|]. apply IH; assumption. }
  assert (ONE : forall t, In t ts -> share t l = 1).
  { intros t I. destruct (H t I) as (fr & C & DF). apply share_one.
    - assert (It : In t times) by exact (in_combine_r _ _ _ _ C). rewrite <- ML in It. apply in_map_iff in It. destruct It as (p & E & IP). eauto.
    - intros p IP E. destruct (PAIR p IP) as (fr' & C' & B). apply B. rewrite E in C'. exact (AG fr fr' t C C' DF). }
  assert (INC : incl ts us) by (intros t I; apply PU; destruct (H t I) as (fr & C & _); exact (in_combine_r _ _ _ _ C)).
  assert (SUM : forall us, NoDup us -> forall ts, NoDup ts -> incl ts us -> (forall t, In t ts -> share t l = 1) -> INR (List.length ts) <= total (map (fun t => share t l) us)).
  { clear. induction us as [|u us IH]; intros NU ts NT INC ONE; [destruct ts as [|t ts]; [cbn; lra|destruct (INC t (or_introl eq_refl))]|]. inversion NU as [|x y NI NU']; subst. cbn [map total fold_right]. fold (total (map (fun t => share t l) us)).
    destruct (in_dec Req_EM_T u ts) as [I|NIN].
    - apply in_split in I. destruct I as (a & b & ->). rewrite (ONE u) by (apply in_or_app; right; left; reflexivity). apply NoDup_remove in NT. destruct NT as (NT & NIab). specialize (IH NU' (a ++ b) NT). rewrite app_length in *. cbn [List.length]. rewrite Nat.add_succ_r, S_INR. enough (INR (List.length a + List.length b) <= total (map (fun t => share t l) us)) by lra. apply IH.
      + intros t I. assert (I' : In t (a ++ u :: b)) by (apply in_app_or in I; apply in_or_app; destruct I; [left|right; right]; assumption). destruct (INC t I') as [<-|I'']; [contradiction|exact I''].
      + intros t I. apply ONE. apply in_app_or in I. apply in_or_app. destruct I; [left|right; right]; assumption.
    - destruct (share_bounds u l) as (B & _). enough (INR (List.length ts) <= total (map (fun t => share t l) us)) by lra. apply IH; [exact NU'|exact NT| |exact ONE]. intros t I. destruct (INC t I) as [<-|I']; [contradiction|exact I']. }
  pose proof (SUM us NU ts N INC ONE) as S0. apply IZR_le in LE. rewrite <- INR_IZR_INZ in LE. lra.
Qed.
