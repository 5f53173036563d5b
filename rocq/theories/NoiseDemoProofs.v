(** Noise maps: small datasets. *)
From Verif Require CtDataProofs.
From Coq Require Import List Arith Bool Reals ZArith Lia Lra Sorting.Sorted Sorting.Permutation String.
From Verif Require Import Base CombineModel CombineSpec CombineProofs ComboSpec ComboProofs DqModel DqProofs GeomModel GeomSpec FlatModel FlatSpec FlatProofs FlatTopProofs NoiseModel NoiseSpec NoiseFitProofs NoiseProofs NoiseTopProofs NoiseMainProofs NoiseLawProofs NoiseMoreProofs.
Import ListNotations.
Local Open Scope R_scope.

Definition sooner (p q : R * R) : Prop := snd p < snd q \/ snd p = snd q /\ fst p < fst q.
Lemma sieve_none : forall A (P : A -> Prop) l, (forall x, In x l -> ~ P x) -> sieve P l [].
Proof. intros A P l H. induction l as [|x l IH]; [constructor|]. constructor; [apply H; left; reflexivity|apply IH; intros y Y; apply H; right; exact Y]. Qed.
Lemma sieve_single : forall A (P : A -> Prop) l f, In f l -> (forall x, In x l -> (P x <-> x = f)) -> NoDup l -> sieve P l [f].
Proof.
  intros A P l f I H N. induction l as [|x l IH]; [destruct I|]. inversion N as [|? ? N1 N2]; subst. destruct I as [->|I].
  - constructor; [apply (H f (or_introl eq_refl)); reflexivity|]. apply sieve_none. intros y Y Z. apply (H y (or_intror Y)) in Z. subst. contradiction.
  - constructor; [intros Z; apply (H x (or_introl eq_refl)) in Z; subst; contradiction|]. apply IH; [exact I| |exact N2]. intros y Y. apply H. right. exact Y.
Qed.
Lemma splits_shots : forall l v q, StronglySorted sooner l -> splits (shots l v q) (map (fun f => [f]) (shots l v q)).
Proof.
  intros l v q SS. set (sh := fun p => shot (v p) (q p) p).
  assert (ND : NoDup (map sh l)). { induction SS as [|p l SS IH F]; cbn [map]; constructor; [|exact IH]. intros I. apply in_map_iff in I as (p' & E & I). rewrite Forall_forall in F. specialize (F p' I).
    pose proof (f_equal f_time E) as E1. pose proof (f_equal f_gain E) as E2. cbn [sh shot f_time f_gain] in E1, E2. destruct F as [F|[_ F]]; lra. }
  assert (INJ : forall p p', In p l -> In p' l -> fst p = fst p' -> snd p = snd p' -> sh p = sh p') by (intros [a b] [c d] _ _ A B; cbn [fst snd] in A, B; subst; reflexivity).
  split; [|split].
  - apply Forall_forall. intros s I. apply in_map_iff in I as (f & <- & I). exists f. split; [left; reflexivity|]. apply sieve_single; [exact I| |exact ND]. intros x X. unfold shots in I, X. fold sh in I, X. apply in_map_iff in I as (p & <- & I). apply in_map_iff in X as (p' & <- & X). split.
    + intros (A & B & _). apply INJ; [exact X|exact I| |]; symmetry; assumption.
    + intros ->. unfold alike. auto.
  - intros f I. exists [f]. split; [apply in_map_iff; exists f; auto|left; reflexivity].
  - unfold shots. fold sh. rewrite map_map. clear ND INJ. induction SS as [|p l SS IH F]; cbn [map]; constructor; [exact IH|]. apply Forall_forall. intros s I. apply in_map_iff in I as (p' & <- & I). intros f f' [<-|[]] [<-|[]]. rewrite Forall_forall in F. specialize (F p' I). unfold before. cbn [sh shot f_time f_gain f_kgain].
    destruct F as [F|[E F]]; [left; exact F|right; split; [exact E|left; exact F]].
Qed.
Lemma settings_shots : forall l v q, Forall (fun p => 0 < fst p) l -> settings (map (fun f => [f]) (shots l v q)) l (map (fun _ => 1) l).
Proof.
  intros l v q P. unfold shots. split.
  - induction P as [|p l X P IH]; cbn [map]; constructor; [|exact IH]. exists (shot (v p) (q p) p), []. split; [reflexivity|]. split; [|reflexivity]. right. split; [reflexivity|]. exists (fst p). split; [reflexivity|]. left. split; [exact X|reflexivity].
  - induction P as [|p l X P IH]; cbn [map]; constructor; [|exact IH]. exists (shot (v p) (q p) p), []. split; reflexivity.
Qed.
Definition tiny_area : area := mkarea 2 2 [("image"%string, sec 1 1 0 1); ("prescan"%string, sec 2 1 0 0); ("parallel_overscan"%string, sec 1 1 1 1); ("serial_overscan"%string, sec 2 0 0 2)].
Lemma tiny_shielded : shielded tiny_area 0 1 1 1.
Proof. exists (sec 2 1 0 0), (sec 2 0 0 2), (sec 1 1 1 1), (sec 1 1 0 1). repeat split; reflexivity. Qed.
Lemma tiny_box : forall r c, in_box 2 2 0 1 1 1 (r, c) <-> r = 0%nat /\ c = 1%nat.
Proof. intros r c. unfold in_box, within, norm. cbn [fst snd]. change (0 + 1)%Z with 1%Z. change (1 + 1)%Z with 2%Z. cbn [Z.ltb Z.compare]. lia. Qed.
Lemma tiny_prescan : forall r c, in_section 2 2 (sec 2 1 0 0) (r, c) <-> (r < 2)%nat /\ c = 0%nat.
Proof. intros r c. unfold in_section, in_box, within, norm, sec. cbn [fst snd s_r0 s_c0 s_rows s_cols]. change (0 + 2)%Z with 2%Z. change (0 + 1)%Z with 1%Z. cbn [Z.ltb Z.compare]. lia. Qed.
Lemma tiny_telemetry : forall r, telemetry bottom 2 r <-> r = 1%nat.
Proof. intros r. unfold telemetry, bottom, within, norm. cbn [fst snd]. change (Z.of_nat 2) with 2%Z. change (-1 + 2)%Z with 1%Z. cbn [Z.ltb Z.compare]. lia. Qed.
Lemma tiny_readable : forall v q p, v 0%nat 1%nat <> None -> readable bottom (sec 1 1 0 1) (shot v q p).
Proof.
  intros v q p N. assert (B : forall x, in_section 2 2 (sec 1 1 0 1) x <-> x = (0%nat, 1%nat)).
  { intros [r c]. change (in_section 2 2 (sec 1 1 0 1) (r, c)) with (in_box 2 2 0 1 1 1 (r, c)). rewrite tiny_box. split; [intros [-> ->]; reflexivity|intros E; injection E as -> ->; auto]. }
  split; [exists (0%nat, 1%nat); apply B; reflexivity|]. intros x X. apply B in X. subst x. cbn [shot f_img rows pix fst snd]. split; [|exact N]. intros T. apply tiny_telemetry in T. discriminate T.
Qed.
Lemma shot_mean : forall v q p r c, ~ telemetry bottom 2 r -> mean_pix bottom [shot v q p] r c = if Z.eqb (q r c) 0 then v r c else Some 0.
Proof.
  intros v q p r c NT. assert (V : value bottom (shot v q p) r c = v r c). { unfold value. change (rows (f_img (shot v q p))) with 2%nat. destruct (among (telem bottom 2) r) eqn:T; [apply telem_iff in T; contradiction|reflexivity]. }
  unfold mean_pix, good. cbn [filter]. change (f_dq (shot v q p) r c) with (q r c). destruct (q r c =? 0)%Z; [|reflexivity]. cbn [map]. rewrite V. unfold average. destruct (v r c) as [x|]; [|reflexivity]. cbn. f_equal. field.
Qed.
Lemma shot_err : forall v q p r c, v r c <> None -> total_err bottom [shot v q p] r c = Some (if Z.eqb (q r c) 0 then 1 else 0).
Proof.
  intros v q p r c N. unfold total_err, mean_err, stat_std, good. cbn [filter]. change (f_dq (shot v q p) r c) with (q r c). destruct (q r c =? 0)%Z.
  - assert (X : exists x, value bottom (shot v q p) r c = Some x). { unfold value. cbn [shot f_img rows pix]. destruct (among _ r); [exists 0; reflexivity|]. destruct (v r c) as [x|]; [exists x; reflexivity|congruence]. }
    destruct X as (x & X). cbn [map]. rewrite X. change (f_err (shot v q p) r c) with (Some 1). cbn [average allsome forallb isnone negb andb somes option_map rsum fold_right List.length map].
    change (INR 1) with 1. f_equal. replace ((1 ^ 2 + 0) / 1) with 1 by field. replace ((((x - (x + 0) / 1) ^ 2) + 0) / 1) with 0 by field. rewrite sqrt_1, sqrt_0. replace (1 ^ 2 + (0 / 1) ^ 2) with 1 by field. apply sqrt_1.
  - cbn [map average option_map]. rewrite sqrt_0. f_equal. replace (0 ^ 2 + 0 ^ 2) with 0 by ring. apply sqrt_0.
Qed.
Lemma shots_work : forall l v q, StronglySorted sooner l -> (3 < List.length l)%nat -> admissible l (map (fun _ => 1) l) -> gain_above l -> determined l ->
  (forall p r c, In p l -> v p r c <> None) -> exists m, calibrate_darks tiny bottom (shots l v q) = Ok m.
Proof.
  intros l v q SS L AD GA DT NN. apply works_iff. exists (map (fun f => [f]) (shots l v q)), tiny_area, (sec 1 1 0 1), (sec 2 1 0 0), l, (map (fun _ => 1) l), 0%Z, 1%Z, 1%Z, 1%Z, (0%nat, 0%nat).
  split; [apply splits_shots; exact SS|]. split; [unfold shots; rewrite !map_length; exact L|]. split; [reflexivity|]. split; [reflexivity|]. split; [reflexivity|]. split; [apply tiny_shielded|].
  split. { intros s s' I J. apply in_map_iff in I as (f & <- & _). apply in_map_iff in J as (f' & <- & _). reflexivity. }
  split. { apply Forall_forall. intros f I. apply in_map_iff in I as (p & <- & I). split; [apply tiny_readable; apply NN; exact I|]. split; reflexivity. }
  split; [apply settings_shots; destruct AD as (_ & _ & AD & _); revert AD; apply Forall_impl; intros p [X _]; lra|]. split; [exact AD|]. split; [exact GA|]. split; [exact DT|].
  split; [apply tiny_prescan; split; [lia|reflexivity]|]. split; [intros T; apply tiny_telemetry in T; discriminate T|].
  intros s I. apply in_map_iff in I as (f & <- & I). apply in_map_iff in I as (p & <- & I). exists (if Z.eqb (q p 0%nat 0%nat) 0 then 1 else 0). apply stack_err_iff. symmetry. apply shot_err. apply NN. exact I.
Qed.
Ltac sorted_tac := repeat (constructor; [|repeat (constructor; [unfold sooner; cbn [fst snd]; lra|]); constructor]); constructor.
Lemma five_sorted : StronglySorted sooner five.
Proof. unfold five. sorted_tac. Qed.
Lemma five_admissible : admissible five (map (fun _ => 1) five).
Proof.
  unfold five. split; [exists (1, 0), (2, 0); cbn; split; [tauto|split; [tauto|lra]]|]. split; [exists (1, 0), (1, 1); cbn; split; [tauto|split; [tauto|lra]]|]. split; [repeat (constructor; [cbn [fst snd]; lra|]); constructor|]. split; [cbn [map]; repeat (constructor; [lra|]); constructor|].
  assert (D : forall a b c d : R, (a, b) = (c, d) -> a = c /\ b = d) by (intros a b c d E; injection E; auto).
  repeat constructor; cbn [In]; intros H; repeat (destruct H as [H|H]; [apply D in H; lra|]); destruct H.
Qed.
Lemma five_above : gain_above five.
Proof. exists [], (1, 0), [(2, 0); (1, 1); (2, 1); (3, 1)], (2, 0). split; [reflexivity|]. split; [constructor|]. split; [repeat (constructor; [cbn [fst snd]; lra|]); constructor|]. split; [right; left; reflexivity|cbn [fst snd]; lra]. Qed.
Lemma five_determined : determined five.
Proof.
  intros [[F C0] D] H. pose proof (H (1, 0) (or_introl eq_refl)) as A. pose proof (H (2, 0) (or_intror (or_introl eq_refl))) as B. pose proof (H (1, 1) (or_intror (or_intror (or_introl eq_refl)))) as E. unfold predicted in A, B, E. cbn [fst snd] in A, B, E.
  assert (F = 0) by lra. assert (C0 = 0) by lra. assert (D = 0) by lra. subst. reflexivity.
Qed.
Lemma five_works : forall v q, (forall p r c, v p r c <> None) -> exists m, calibrate_darks tiny bottom (shots five v q) = Ok m.
Proof. intros v q N. apply shots_work; [apply five_sorted|cbn; lia|apply five_admissible|apply five_above|apply five_determined|]. intros p r c _. apply N. Qed.
Lemma ok_rows : forall l v q m, calibrate_darks tiny bottom (shots l v q) = Ok m -> m_rows m = 2%nat /\ m_cols m = 2%nat.
Proof. intros l v q m Q. apply calibrate_ok in Q as (a & si & sp & gs & r0 & c0 & h & w & b & up & low & _ & A & _ & _ & _ & _ & _ & _ & _ & _ & _ & _ & _ & ->). cbn in A. injection A as <-. split; reflexivity. Qed.
Lemma obeys_shots : forall l v r c F C0 D, StronglySorted sooner l -> Forall (fun p => 0 < fst p) l -> (forall p, In p l -> v p r c = Some (predicted p (F, C0, D))) -> obeys (shots l v no_flag) r c F C0 D.
Proof.
  intros l v r c F C0 D SS P H. exists (map (fun f => [f]) (shots l v no_flag)), l, (map (fun _ => 1) l). split; [apply splits_shots; exact SS|]. split; [apply settings_shots; exact P|].
  unfold shots. clear SS P. induction l as [|p l IH]; cbn [map]; constructor.
  - split; [intros X; apply used_iff in X; discriminate X|]. intros f [<-|[]] _. cbn [shot f_img pix]. apply H. left. reflexivity.
  - apply IH. intros p' I. apply H. right. exact I.
Qed.
Lemma five_pos : Forall (fun p : R * R => 0 < fst p) five.
Proof. unfold five. repeat (constructor; [cbn [fst]; lra|]). constructor. Qed.

Lemma settings_one : forall ss gts gts' ks ks', settings ss gts ks -> settings ss gts' ks' -> gts = gts' /\ ks = ks'.
Proof.
  intros ss gts gts' ks ks' H H'. apply settings_split in H as (gs & G & -> & ->). apply settings_split in H' as (gs' & G' & -> & ->). split; [|reflexivity]. f_equal.
  revert gs' G'. induction G as [|s g ss gs (f & t & -> & X) G IH]; intros gs' G'; inversion G' as [|? g' ? gs1 (f' & t' & E & X') G1]; subst; [reflexivity|]. injection E as <- <-. f_equal; [|apply IH; exact G1]. apply gain_used_iff in X, X'. congruence.
Qed.
Lemma shots_maps : forall l v q m, StronglySorted sooner l -> Forall (fun p => 0 < fst p) l -> calibrate_darks tiny bottom (shots l v q) = Ok m -> let ss := map (fun f => [f]) (shots l v q) in
  forall r c, m_fpn m r c = option_map (fun q => fst (fst (fst q))) (parts bottom 2 l ss r c)
    /\ e_cic m r c = match parts bottom 2 l ss r c, stacks_err bottom ss r c with Some q, Some e => Some (sqrt (snd (fst (snd q)) ^ 2 + e ^ 2)) | _, _ => None end /\ m_dq m r c = flag ss r c.
Proof.
  intros l v q m SO P Q. apply calibrate_ok in Q as (a & si & sp & gs & r0 & c0 & h & w & b & up & low & L & A & SI & PRE & SH & G & SB & NG & DN & PN & B & U & LO & ->). cbn in A. injection A as <-.
  apply (gather_iff tiny bottom tiny_area si _ None gs eq_refl SI) in G as (GS & RD & EQ & _).
  assert (SS : substacks (shots l v q) = map (fun f => [f]) (shots l v q)) by (symmetry; apply splits_iff; apply splits_shots; exact SO).
  assert (GT : combine gs (times (substacks (shots l v q))) = l).
  { rewrite SS in *. destruct (settings_one (map (fun f => [f]) (shots l v q)) (combine gs (times (map (fun f => [f]) (shots l v q)))) l (kgains (map (fun f => [f]) (shots l v q))) (map (fun _ => 1) l)) as [E _]; [|apply settings_shots; exact P|exact E]. apply settings_split. exists gs. auto. }
  intros ss r c. cbn [product m_fpn e_cic m_dq]. rewrite GT, SS. change (Z.to_nat (a_rows tiny_area)) with 2%nat. split; [reflexivity|]. split; reflexivity.
Qed.
(** A pixel flagged in every frame of one setting enters the fit there with the value 0. *)
Theorem lost_is_zero : exists m, calibrate_darks tiny bottom (shots five (all_same 6) flag_last) = Ok m
  /\ (forall f, In f (shots five (all_same 6) flag_last) -> f_dq f 0%nat 1%nat = 0%Z -> pix (f_img f) 0%nat 1%nat = Some 6)
  /\ m_dq m 0%nat 1%nat = 0%Z /\ exists x, m_fpn m 0%nat 1%nat = Some x /\ x <> 6.
Proof.
  destruct (five_works (all_same 6) flag_last) as (m & Q); [discriminate|]. exists m. split; [exact Q|]. split; [intros f I _; apply in_map_iff in I as (p & <- & _); reflexivity|].
  destruct (shots_maps five _ _ m five_sorted five_pos Q 0%nat 1%nat) as (E1 & _ & E2). rewrite E1, E2. clear E1 E2 Q.
  assert (FL : forall p, flag_last p 0%nat 1%nat = if Req_EM_T (fst p) 3 then 4%Z else 0%Z) by reflexivity. split.
  - unfold flag, unfittable, unreliable, good, shots, five. cbn [map filter shot f_dq]. rewrite !FL. cbn [fst]. repeat (destruct (Req_EM_T _ 3); try lra). reflexivity.
  - unfold parts, observed. destruct (among (telem bottom 2) 0) eqn:T; [apply telem_iff, tiny_telemetry in T; discriminate T|].
    assert (MM : map (fun s => mean_pix bottom s 0 1) (map (fun f => [f]) (shots five (all_same 6) flag_last)) = map Some [6; 6; 6; 6; 0]).
    { unfold shots, five. cbn [map]. assert (NT : ~ telemetry bottom 2 0) by (intros X; apply tiny_telemetry in X; discriminate X). rewrite !shot_mean by exact NT. rewrite !FL. cbn [fst]. repeat (destruct (Req_EM_T _ 3); try lra). reflexivity. }
    rewrite MM, allsome_map, somes_map. cbn [option_map]. eexists. split; [reflexivity|]. cbn [fst snd]. unfold fit. cbn [fst snd]. unfold det, k11, k12, k13, normal_of, sum, sumy, rsum, five. cbn [n11 n12 n13 n22 n23 n33 map combine fold_right fst snd].
    match goal with |- ?x <> _ => assert (E : x = 96 / 11) by field end. rewrite E. lra.
Qed.
(** The error common to all sub-stacks, 1 here, grows when it is pooled. *)
Theorem pooled_grows : exists m, calibrate_darks tiny bottom (shots five (all_same 6) no_flag) = Ok m
  /\ (forall s, In s (map (fun f => [f]) (shots five (all_same 6) no_flag)) -> stack_err bottom s 0 1 (Some 1)) /\ exists e, e_cic m 0%nat 1%nat = Some e /\ 1 < e.
Proof.
  destruct (five_works (all_same 6) no_flag) as (m & Q); [discriminate|]. exists m. split; [exact Q|].
  assert (TE : forall s, In s (map (fun f => [f]) (shots five (all_same 6) no_flag)) -> total_err bottom s 0 1 = Some 1) by (intros s I; apply in_map_iff in I as (f & <- & I); apply in_map_iff in I as (p & <- & I); apply shot_err; discriminate).
  split; [intros s I; apply stack_err_iff; symmetry; apply TE; exact I|]. destruct (shots_maps five _ _ m five_sorted five_pos Q 0%nat 1%nat) as (_ & E1 & _). rewrite E1. clear E1 Q.
  unfold parts, observed. destruct (among (telem bottom 2) 0) eqn:T; [apply telem_iff, tiny_telemetry in T; discriminate T|].
  assert (MM : map (fun s => mean_pix bottom s 0 1) (map (fun f => [f]) (shots five (all_same 6) no_flag)) = map Some [6; 6; 6; 6; 6]).
  { unfold shots, five. cbn [map]. assert (NT : ~ telemetry bottom 2 0) by (intros X; apply tiny_telemetry in X; discriminate X). rewrite !shot_mean by exact NT. reflexivity. }
  rewrite MM, allsome_map, somes_map. unfold stacks_err. assert (EE : map (fun s => total_err bottom s 0 1) (map (fun f => [f]) (shots five (all_same 6) no_flag)) = map Some [1; 1; 1; 1; 1]) by (unfold shots, five; cbn [map]; rewrite !shot_err by discriminate; reflexivity).
  rewrite EE, allsome_map, somes_map. eexists. split; [reflexivity|]. cbn [fst snd].
  match goal with |- 1 < sqrt (?a ^ 2 + ?e ^ 2) => set (A := a); set (E := e) end. assert (A0 : 0 <= A ^ 2) by apply pow2_ge_0.
  assert (E2 : E ^ 2 = sqrt 5). { unfold E. unfold rsum, shots, five. cbn [map fold_right List.length]. replace (INR 5) with 5 by (cbn; ring). replace (1 ^ 2 + (1 ^ 2 + (1 ^ 2 + (1 ^ 2 + (1 ^ 2 + 0))))) with (sqrt 5 * sqrt 5) by (rewrite sqrt_sqrt by lra; ring).
    assert (0 < sqrt 5) by (apply sqrt_lt_R0; lra). replace (sqrt 5 * sqrt 5 / sqrt 5) with (sqrt 5) by (field; lra). apply pow2_sqrt. lra. }
  rewrite E2. rewrite <- sqrt_1 at 1. apply sqrt_lt_1; [lra|pose proof (sqrt_pos 5); lra|]. assert (1 < sqrt 5) by (rewrite <- sqrt_1; apply sqrt_lt_1; lra). lra.
Qed.
(** Values exactly linear: the fixed pattern stays negative, the other two are raised to 0. *)
Theorem negative_pattern : exists m, calibrate_darks tiny bottom (shots five (linear (-1) (-2) (-3)) no_flag) = Ok m /\ m_fpn m 0%nat 1%nat = Some (-1) /\ m_cic m 0%nat 1%nat = Some 0 /\ m_dc m 0%nat 1%nat = Some 0.
Proof.
  destruct (five_works (linear (-1) (-2) (-3)) no_flag) as (m & Q); [discriminate|]. exists m. split; [exact Q|]. destruct (ok_rows _ _ _ _ Q) as [R0 C0].
  destruct (exact_recovered tiny bottom _ m 0%nat 1%nat (-1) (-2) (-3) Q) as (E1 & E2 & _ & E3).
  - apply obeys_shots; [apply five_sorted|apply five_pos|]. intros p _. reflexivity.
  - rewrite R0. intros X. apply tiny_telemetry in X. discriminate X.
  - rewrite E1, E2. destruct (E3 tiny_area 0%Z 1%Z 1%Z 1%Z eq_refl tiny_shielded) as [E4 _]; [rewrite R0, C0; apply tiny_box; split; reflexivity|]. rewrite E4. rewrite !Rmax_left by lra. repeat split; reflexivity.
Qed.
(** A level of 6 in the prescan (and everywhere else): no bias offset. *)
Theorem level_unseen : exists m, calibrate_darks tiny bottom (shots five (all_same 6) no_flag) = Ok m /\ m_off m = 0 /\ m_fpn m 0%nat 0%nat = Some 6.
Proof.
  destruct (five_works (all_same 6) no_flag) as (m & Q); [discriminate|]. exists m. split; [exact Q|]. destruct (ok_rows _ _ _ _ Q) as [R0 C0]. split.
  - apply (plain_prescan tiny bottom (shots five (all_same 6) no_flag) m (map (fun f => [f]) (shots five (all_same 6) no_flag)) five (map (fun _ => 1) five) tiny_area (sec 2 1 0 0) 1 Q); [apply splits_shots; apply five_sorted|apply settings_shots; apply five_pos|cbn; repeat constructor|reflexivity|reflexivity|].
    rewrite R0, C0. intros s p q v I _ _ NP NQ H. apply in_map_iff in I as (f & <- & I). apply in_map_iff in I as (x & <- & I). apply stack_mean_iff in H. apply stack_mean_iff. rewrite shot_mean in H by exact NP. rewrite shot_mean by exact NQ. exact H.
  - destruct (exact_recovered tiny bottom _ m 0%nat 0%nat 6 0 0 Q) as (E1 & _); [|rewrite R0; intros X; apply tiny_telemetry in X; discriminate X|exact E1].
    apply obeys_shots; [apply five_sorted|apply five_pos|]. intros p _. unfold all_same, predicted. cbn [fst snd]. f_equal. ring.
Qed.
(** One flagged NaN in the image area. *)
Lemma step1 : forall l v q a, StronglySorted sooner l -> (3 < List.length l)%nat -> get_area tiny "SCI" = Ok a ->
  calibrate_darks tiny bottom (shots l v q) = bind (gather tiny bottom a None (map (fun f => [f]) (shots l v q))) (fun gs => calibrate_darks tiny bottom (shots l v q)).
Proof.
  intros l v q a SO L A. assert (SS : substacks (shots l v q) = map (fun f => [f]) (shots l v q)) by (symmetry; apply splits_iff; apply splits_shots; exact SO).
  destruct (gather tiny bottom a None (map (fun f => [f]) (shots l v q))) as [gs|e] eqn:G; [reflexivity|]. cbn [bind]. unfold calibrate_darks. rewrite SS. destruct (Nat.leb_spec (List.length (map (fun f => [f]) (shots l v q))) 3) as [X|_]; [unfold shots in X; rewrite !map_length in X; lia|]. rewrite A. cbn [bind]. rewrite G. reflexivity.
Qed.
Lemma gather_ok : forall l v q prev, Forall (fun p => 0 < fst p) l -> (forall p, In p l -> v p 0%nat 1%nat <> None) -> prev = None \/ prev = Some 1%nat -> gather tiny bottom tiny_area prev (map (fun f => [f]) (shots l v q)) = Ok (map fst l).
Proof.
  intros l v q prev P N PV. apply (gather_iff tiny bottom tiny_area (sec 1 1 0 1) _ prev (map fst l) eq_refl eq_refl). split; [|split; [|split]].
  - clear N. unfold shots. induction P as [|p l X P IH]; cbn [map]; constructor; [|exact IH]. exists (shot (v p) (q p) p), []. split; [reflexivity|]. right. split; [reflexivity|]. exists (fst p). split; [reflexivity|]. left. split; [exact X|reflexivity].
  - apply Forall_forall. intros s I. apply in_map_iff in I as (f & <- & I). apply in_map_iff in I as (p & <- & I). constructor; [|constructor]. split; [apply tiny_readable; apply N; exact I|]. split; reflexivity.
  - intros s s' I J. apply in_map_iff in I as (f & <- & _). apply in_map_iff in J as (f' & <- & _). reflexivity.
  - intros n s E I. apply in_map_iff in I as (f & <- & _). destruct PV as [->| ->]; [discriminate E|]. injection E as <-. reflexivity.
Qed.
Theorem flagged_nan : exists m, calibrate_darks tiny bottom (shots five (all_same 6) flag_last) = Ok m
  /\ (forall p r c, one_nan p r c = all_same 6 p r c \/ flag_last p r c <> 0%Z) /\ calibrate_darks tiny bottom (shots five one_nan flag_last) = Raise ValueError.
Proof.
  destruct (five_works (all_same 6) flag_last) as (m & Q); [discriminate|]. exists m. split; [exact Q|]. split.
  - intros p r c. unfold one_nan, flag_last, all_same. destruct (Nat.eqb r 0 && Nat.eqb c 1); [|left; reflexivity]. destruct (Req_EM_T (fst p) 3); [right; discriminate|left; reflexivity].
  - rewrite (step1 five one_nan flag_last tiny_area five_sorted); [|cbn; lia|reflexivity].
    assert (G : gather tiny bottom tiny_area None (map (fun f => [f]) (shots five one_nan flag_last)) = Raise ValueError).
    { assert (CK : forall v q p, v 0%nat 1%nat = None -> check_frame tiny bottom (shot v q p) = Raise ValueError).
      { intros v q p N. unfold check_frame. change (unpack_geom tiny "SCI" "image") with (Ok (sec 1 1 0 1)). cbn [bind]. change (cells (f_img (shot v q p)) (sec 1 1 0 1)) with [(0%nat, 1%nat)]. cbn [existsb fst snd shot f_img pix]. rewrite N. cbn [isnone]. rewrite !orb_true_r. reflexivity. }
      assert (OKC : forall v q p, v 0%nat 1%nat <> None -> check_frame tiny bottom (shot v q p) = Ok tt) by (intros v q p N; apply (check_frame_iff tiny bottom tiny_area (sec 1 1 0 1) (shot v q p) eq_refl eq_refl); apply tiny_readable; exact N).
      assert (V1 : forall x, fst x <> 3 -> one_nan x 0%nat 1%nat <> None) by (intros x X; unfold one_nan; cbn [Nat.eqb andb]; destruct (Req_EM_T (fst x) 3); [contradiction|discriminate]).
      assert (V2 : forall x, fst x = 3 -> one_nan x 0%nat 1%nat = None) by (intros x X; unfold one_nan; cbn [Nat.eqb andb]; destruct (Req_EM_T (fst x) 3); [reflexivity|contradiction]).
      assert (GU : forall v q p, 0 < fst p -> gain_used (shot v q p) = Ok (fst p)) by (intros v q p X; unfold gain_used; cbn [shot f_measured f_applied]; destruct (Rlt_dec 0 (fst p)); [reflexivity|lra]).
      unfold shots, five. cbn [map gather List.length Nat.eqb bind mapR].
      repeat (rewrite GU by (cbn [fst]; lra); cbn [bind]; rewrite OKC by (apply V1; cbn [fst]; lra); cbn [bind];
        match goal with |- context [forallb ?h [shot ?v ?q ?p]] => change (forallb h [shot v q p]) with true end; cbv iota).
      rewrite GU by (cbn [fst]; lra). cbn [bind]. rewrite CK by (apply V2; reflexivity). reflexivity. }
    rewrite G. reflexivity.
Qed.
Lemma step2 : forall l v q, StronglySorted sooner l -> (3 < List.length l)%nat -> admissible l (map (fun _ => 1) l) -> (forall p, In p l -> v p 0%nat 1%nat <> None) ->
  (no_gain_above l = true -> calibrate_darks tiny bottom (shots l v q) = Raise ValueError) /\ (no_gain_above l = false -> det (normal_of l) = 0 -> calibrate_darks tiny bottom (shots l v q) = Raise PyException).
Proof.
  intros l v q SO L AD N. assert (P : Forall (fun p : R * R => 0 < fst p) l) by (destruct AD as (_ & _ & AD & _); revert AD; apply Forall_impl; intros p [X _]; lra).
  assert (SS : substacks (shots l v q) = map (fun f => [f]) (shots l v q)) by (symmetry; apply splits_iff; apply splits_shots; exact SO).
  pose proof (gather_ok l v q None P N (or_introl eq_refl)) as G.
  assert (TM : map (fun s : list frame => match s with f :: _ => f_time f | [] => 0 end) (map (fun f => [f]) (shots l v q)) = map snd l) by (unfold shots; rewrite !map_map; reflexivity).
  assert (KM : map (fun s : list frame => match s with f :: _ => f_kgain f | [] => 0 end) (map (fun f => [f]) (shots l v q)) = map (fun _ => 1) l) by (unfold shots; rewrite !map_map; reflexivity).
  assert (CB : combine (map fst l) (map snd l) = l) by (clear; induction l as [|[a b] l IH]; [reflexivity|]; cbn [map combine fst snd]; rewrite IH; reflexivity).
  assert (SB : settings_bad (map fst l) (map snd l) (map (fun _ => 1) l) = false) by (apply settings_iff; [rewrite !map_length; reflexivity|rewrite CB; exact AD]).
  unfold calibrate_darks. rewrite SS. destruct (Nat.leb_spec (List.length (map (fun f => [f]) (shots l v q))) 3) as [X|_]; [unfold shots in X; rewrite !map_length in X; lia|]. change (get_area tiny "SCI") with (Ok tiny_area). cbn [bind]. rewrite G. cbn [bind]. rewrite TM, KM, SB, CB. split.
  - intros NG. rewrite NG. reflexivity.
  - intros NG D. rewrite NG. change (imaging_area_geom tiny "SCI") with (Ok (1%Z, 1%Z, 0%Z, 1%Z)). cbn [bind]. destruct (Req_EM_T (det (normal_of l)) 0); [reflexivity|contradiction].
Qed.
(** The least product belongs to the largest gain. *)
Theorem steep_refused : admissible steep (map (fun _ => 1) steep) /\ determined steep /\ calibrate_darks tiny bottom (shots steep (all_same 6) no_flag) = Raise ValueError.
Proof.
  assert (D2 : forall a b c d : R, (a, b) = (c, d) -> a = c /\ b = d) by (intros a b c d E; injection E; auto).
  assert (AD : admissible steep (map (fun _ => 1) steep)).
  { unfold steep. split; [exists (3, 0), (2, 1); cbn; split; [tauto|split; [tauto|lra]]|]. split; [exists (3, 0), (1, 1); cbn; split; [tauto|split; [tauto|lra]]|]. split; [repeat (constructor; [cbn [fst snd]; lra|]); constructor|]. split; [cbn [map]; repeat (constructor; [lra|]); constructor|].
    repeat constructor; cbn [In]; intros H; repeat (destruct H as [H|H]; [apply D2 in H; lra|]); destruct H. }
  assert (SO : StronglySorted sooner steep) by (unfold steep; sorted_tac). split; [exact AD|]. split.
  - intros [[F C0] D] H. pose proof (H (3, 0) (or_introl eq_refl)) as A. pose proof (H (1, 1) (or_intror (or_introl eq_refl))) as B. pose proof (H (1, 2) (or_intror (or_intror (or_intror (or_introl eq_refl))))) as E. pose proof (H (2, 1) (or_intror (or_intror (or_introl eq_refl)))) as G. unfold predicted in A, B, E, G. cbn [fst snd] in A, B, E, G.
    assert (D = 0) by lra. assert (C0 = 0) by lra. assert (F = 0) by lra. subst. reflexivity.
  - apply (proj1 (step2 steep (all_same 6) no_flag SO ltac:(cbn; lia) AD ltac:(discriminate))). destruct (no_gain_above steep) eqn:E; [reflexivity|]. exfalso. apply gain_above_iff in E as (l & p & m & q & E & F1 & F2 & Q & LT).
    assert (P : p = (3, 0)). { symmetry. apply (least_one [] (3, 0) [(1, 1); (2, 1); (1, 2)] l p m); [exact E|constructor| |exact F1|exact F2]. repeat (constructor; [cbn [fst snd]; lra|]). constructor. }
    subst p. cbn [fst] in LT. unfold steep in Q. cbn [In] in Q. repeat (destruct Q as [Q|Q]; [subst q; cbn [fst] in LT; lra|]). destruct Q.
Qed.
(** Gains and products in line. *)
Theorem line_refused : admissible in_line (map (fun _ => 1) in_line) /\ gain_above in_line /\ calibrate_darks tiny bottom (shots in_line (all_same 6) no_flag) = Raise PyException.
Proof.
  assert (D2 : forall a b c d : R, (a, b) = (c, d) -> a = c /\ b = d) by (intros a b c d E; injection E; auto).
  assert (AD : admissible in_line (map (fun _ => 1) in_line)).
  { unfold in_line. split; [exists (1, 1), (2, 3 / 2); cbn; split; [tauto|split; [tauto|lra]]|]. split; [exists (1, 1), (2, 3 / 2); cbn; split; [tauto|split; [tauto|lra]]|]. split; [repeat (constructor; [cbn [fst snd]; lra|]); constructor|]. split; [cbn [map]; repeat (constructor; [lra|]); constructor|].
    repeat constructor; cbn [In]; intros H; repeat (destruct H as [H|H]; [apply D2 in H; lra|]); destruct H. }
  assert (SO : StronglySorted sooner in_line) by (unfold in_line; sorted_tac).
  assert (GA : gain_above in_line). { exists [], (1, 1), [(2, 3 / 2); (3, 5 / 3); (4, 7 / 4)], (2, 3 / 2). split; [reflexivity|]. split; [constructor|]. split; [repeat (constructor; [cbn [fst snd]; lra|]); constructor|]. split; [right; left; reflexivity|cbn [fst snd]; lra]. }
  split; [exact AD|]. split; [exact GA|]. apply (proj2 (step2 in_line (all_same 6) no_flag SO ltac:(cbn; lia) AD ltac:(discriminate))); [apply gain_above_iff; exact GA|].
  unfold det, k11, k12, k13, normal_of, sum, rsum, in_line. cbn [n11 n12 n13 n22 n23 n33 map fold_right fst snd]. field.
Qed.
(** Two frames per setting, of which one has a measured gain of 1/2. *)
Definition weak (p : R * R) : frame := mkframe (mkimg 2 2 (all_same 6 p)) (fun _ _ => Some 1) (no_flag p) (snd p) (fst p) 1 (Some (1 / 2)) (Some (fst p)).
Definition strong (p : R * R) : frame := shot (all_same 6 p) (no_flag p) p.
Lemma sieve_cat : forall A (P : A -> Prop) l l' m m', sieve P l m -> sieve P l' m' -> sieve P (l ++ l') (m ++ m').
Proof. intros A P l l' m m' H H'. induction H; cbn [app]; [exact H'|constructor; assumption|constructor; assumption]. Qed.
Lemma sieve_keyed : forall (h : R * R -> frame) l f p, (forall p, f_time (h p) = snd p /\ f_gain (h p) = fst p /\ f_kgain (h p) = 1) -> StronglySorted sooner l -> In p l -> f_time f = snd p -> f_gain f = fst p -> f_kgain f = 1 -> sieve (alike f) (map h l) [h p].
Proof.
  intros h l f p K SS I T G KG. apply sieve_single; [apply in_map; exact I| |].
  - intros x X. apply in_map_iff in X as (p' & <- & X). destruct (K p') as (A & B & C0). destruct (K p) as (A' & B' & C'). split.
    + intros (E1 & E2 & _). f_equal. destruct p as [a b], p' as [c d]. cbn [fst snd] in *. f_equal; congruence.
    + intros E. rewrite E. unfold alike. rewrite A', B', C'. auto.
  - clear I. induction SS as [|q l SS IH F]; cbn [map]; constructor; [|exact IH]. intros I. apply in_map_iff in I as (p' & E & I). rewrite Forall_forall in F. specialize (F p' I). destruct (K q) as (A & B & _). destruct (K p') as (A' & B' & _).
    pose proof (f_equal f_time E) as E1. pose proof (f_equal f_gain E) as E2. rewrite A, A' in E1. rewrite B, B' in E2. destruct F as [F|[_ F]]; lra.
Qed.
Lemma pairs_split : splits (map strong five ++ map weak five) (map (fun p => [strong p; weak p]) five).
Proof.
  assert (KS : forall p, f_time (strong p) = snd p /\ f_gain (strong p) = fst p /\ f_kgain (strong p) = 1) by (intros p; repeat split; reflexivity). assert (KW : forall p, f_time (weak p) = snd p /\ f_gain (weak p) = fst p /\ f_kgain (weak p) = 1) by (intros p; repeat split; reflexivity).
  split; [|split].
  - apply Forall_forall. intros s I. apply in_map_iff in I as (p & <- & I). exists (strong p). split; [left; reflexivity|]. change [strong p; weak p] with ([strong p] ++ [weak p]).
    apply sieve_cat; apply sieve_keyed; try exact I; try exact five_sorted; try assumption; reflexivity.
  - intros f I. apply in_app_or in I as [I|I]; apply in_map_iff in I as (p & <- & I); exists [strong p; weak p]; (split; [apply in_map_iff; exists p; auto|cbn; auto]).
  - pose proof five_sorted as SS. induction SS as [|p l SS IH F]; cbn [map]; constructor; [exact IH|]. apply Forall_forall. intros s I. apply in_map_iff in I as (p' & <- & I). rewrite Forall_forall in F. specialize (F p' I).
    intros f f' [<-|[<-|[]]] [<-|[<-|[]]]; unfold before; cbn [strong weak shot f_time f_gain f_kgain]; destruct F as [F|[E F]]; auto.
Qed.
Theorem order_matters : exists fs fs' m, Permutation fs fs' /\ calibrate_darks tiny bottom fs = Ok m /\ forall m', calibrate_darks tiny bottom fs' <> Ok m'.
Proof.
  assert (WK : exists m, calibrate_darks tiny bottom (map strong five ++ map weak five) = Ok m).
  { apply works_iff. exists (map (fun p => [strong p; weak p]) five), tiny_area, (sec 1 1 0 1), (sec 2 1 0 0), five, (map (fun _ => 1) five), 0%Z, 1%Z, 1%Z, 1%Z, (0%nat, 0%nat).
    split; [exact pairs_split|]. split; [cbn; lia|]. split; [reflexivity|]. split; [reflexivity|]. split; [reflexivity|]. split; [apply tiny_shielded|].
    split. { intros s s' I J. apply in_map_iff in I as (f & <- & _). apply in_map_iff in J as (f' & <- & _). reflexivity. }
    split. { apply Forall_forall. intros f I. assert (R0 : forall p, readable bottom (sec 1 1 0 1) (strong p)) by (intros p; apply tiny_readable; discriminate). apply in_app_or in I as [I|I]; apply in_map_iff in I as (p & <- & I); (split; [exact (R0 p)|split; reflexivity]). }
    split. { pose proof five_pos as P. unfold settings. split; (induction P as [|p l X P IH]; cbn [map]; constructor; [|exact IH]); exists (strong p), [weak p]; (split; [reflexivity|]); [|reflexivity]. split; [|reflexivity]. right. split; [reflexivity|]. exists (fst p). split; [reflexivity|]. left. split; [exact X|reflexivity]. }
    split; [exact five_admissible|]. split; [exact five_above|]. split; [exact five_determined|]. split; [apply tiny_prescan; split; [lia|reflexivity]|]. split; [intros T; apply tiny_telemetry in T; discriminate T|].
    intros s I. apply in_map_iff in I as (p & <- & I). assert (X : total_err bottom [strong p; weak p] 0 0 <> None).
    { unfold total_err, mean_err, stat_std, good. cbn [filter strong weak shot f_dq]. change (no_flag p 0 0 =? 0)%Z with true. cbv iota. cbn [map]. assert (V : value bottom (weak p) 0 0 = Some 6 /\ value bottom (strong p) 0 0 = Some 6) by (unfold value; destruct (among (telem bottom 2) 0) eqn:T; [apply telem_iff, tiny_telemetry in T; discriminate T|]; cbn [weak strong shot f_img rows pix]; rewrite T; split; reflexivity).
      destruct V as [V1 V2]. change (mkframe (mkimg 2 2 (all_same 6 p)) (fun _ _ : nat => Some 1) (no_flag p) (snd p) (fst p) 1 (Some (1 / 2)) (Some (fst p))) with (weak p). change (shot (all_same 6 p) (no_flag p) p) with (strong p). rewrite V1, V2. discriminate. }
    destruct (total_err bottom [strong p; weak p] 0 0) as [e|] eqn:E; [|congruence]. exists e. apply stack_err_iff. symmetry. exact E. }
  destruct WK as (m & Q). exists (map strong five ++ map weak five), (map weak five ++ map strong five), m. split; [apply Permutation_app_comm|]. split; [exact Q|]. intros m' Q'.
  assert (W : workable tiny bottom (map weak five ++ map strong five)) by (apply works_iff; exists m'; exact Q').
  destruct W as (ss & a & si & sp & gts & ks & r0 & c0 & h & w & p & (SV & _ & _) & L & _ & _ & _ & _ & _ & _ & [ST _] & AD & _). destruct ss as [|s ss]; [cbn in L; lia|]. inversion SV as [|? ? (f & F1 & F2) _]; subst. inversion ST as [|? g ? gts' (f0 & t & E & GI & _) _]; subst.
  assert (H : forall l k, (exists x, In x l /\ alike f x) -> Forall (fun x => f_measured x = Some (1 / 2)) l -> sieve (alike f) (l ++ k) (f0 :: t) -> f_measured f0 = Some (1 / 2)).
  { clear. intros l k (x & X & AX) FA. revert X. induction FA as [|y l Y FA IH]; intros X SV; [destruct X|]. cbn [app] in SV. inversion SV as [|? ? ? A B|? ? ? A B]; subst; [exact Y|]. apply IH; [|exact B]. destruct X as [->|X]; [contradiction|exact X]. }
  assert (M : f_measured f0 = Some (1 / 2)).
  { apply (H (map weak five) (map strong five)); [|apply Forall_forall; intros x X; apply in_map_iff in X as (q & <- & _); reflexivity|exact F2].
    assert (IF : forall l m, sieve (alike f) l m -> In f m -> In f l) by (clear; intros l m SV; induction SV; intros I; [destruct I|destruct I as [->|I]; [left; reflexivity|right; auto]|right; auto]).
    specialize (IF _ _ F2 F1). apply in_app_or in IF as [I|I]; apply in_map_iff in I as (q & <- & I); exists (weak q); (split; [apply in_map; exact I|unfold alike; cbn; auto]). }
  destruct AD as (_ & _ & AD & _). inversion AD as [|? ? [X _] _]; subst. destruct GI as [GI|[GI _]]; rewrite M in GI; [|discriminate GI]. assert (fst g = 1 / 2) by (pose proof (f_equal (fun o => match o with Some y => y | None => 0 end) GI) as E; cbn in E; congruence). lra.
Qed.
