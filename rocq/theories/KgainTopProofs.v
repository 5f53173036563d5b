(** Laws, limits and a whole run of the K gain calibration. *)
From Coq Require Import List Arith Bool Reals ZArith String Permutation Lia Lra.
From Verif Require Import Base DqModel DqProofs AngleModel NearModel CombineModel CombineSpec CombineProofs ComboSpec ComboProofs FindModel FlatModel FlatSpec FlatProofs CtDataProofs ThruModel ThruSpec ThruProofs ThruTableProofs ThruRunProofs FrnModel FrnProofs FluxRunProofs KgainModel KgainSpec KgainProofs KgainCurveProofs KgainRunProofs KgainLawProofs.
Import ListNotations.
Local Open Scope R_scope.

Lemma five_used : Permutation (order 5) (seq 0 5).
Proof. cbn. apply NoDup_Permutation; [repeat constructor; cbn; lia|repeat constructor; cbn; lia|]. intros x. cbn. lia. Qed.
Lemma mapR_same : forall A B (f g : A -> result B) l, (forall x, In x l -> f x = g x) -> mapR f l = mapR g l.
Proof. intros A B f g. induction l as [|x l IH]; intros H; cbn [mapR]; [reflexivity|]. rewrite (H x) by (left; reflexivity). destruct (g x); cbn [bind]; [|reflexivity]. rewrite IH; [reflexivity|]. intros y Y. apply H. right. exact Y. Qed.
Lemma first_unused : forall prescan width p w good f f' fs, (5 <= List.length fs)%nat -> one_set prescan width p w good (f :: fs) = one_set prescan width p w good (f' :: fs).
Proof.
  intros prescan width p w good f f' fs L. unfold one_set. cbv zeta. cbn [List.length]. set (n := Datatypes.S (List.length fs)).
  rewrite (mapR_same _ _ (fun o => NearModel.pick (f :: fs) (n - o)) (fun o => NearModel.pick (f' :: fs) (n - o))); [reflexivity|].
  intros o O. assert (B : (o < n)%nat). { unfold offsets in O. apply in_app_iff in O. destruct O as [O|O]; [cbn in O; unfold n; lia|]. destruct (Nat.ltb 5 n); [|destruct O]. apply in_seq in O. unfold n in *. lia. }
  destruct (n - o)%nat as [|m] eqn:E; [lia|reflexivity].
Qed.
Lemma top_unused : forall a b n k x, a <= b -> (k < n)%nat -> fst (ends a b n k) < x < snd (ends a b n k) -> x < b.
Proof.
  intros a b n k x AB K H. destruct k as [|k]; cbn [ends fst snd] in H; [lra|]. assert (P : 0 < INR (n - 1)) by (apply lt_0_INR; lia). assert (B : INR (Datatypes.S k) * ((b - a) / INR (n - 1)) <= b - a); [|lra].
  assert (D : 0 <= (b - a) / INR (n - 1)) by (apply Rmult_le_pos; [lra|apply Rlt_le, Rinv_0_lt_compat, P]). assert (LK : INR (Datatypes.S k) <= INR (n - 1)) by (apply le_INR; lia). assert (E : INR (n - 1) * ((b - a) / INR (n - 1)) = b - a) by (field; lra). pose proof (Rmult_le_compat_r _ _ _ D LK). lra.
Qed.
Lemma brightest_lost : forall pts xs b n t, curve_of pts n t -> map fst pts = map Some xs -> greatest xs b ->
  forall k l a, nth_error t k = Some l -> l_avg l = Some a -> a < b.
Proof.
  intros pts xs b n t (_ & _ & [(xs' & a & b' & E & LA & GB & F)|(_ & ->)]) E' G k l u NK U.
  - rewrite E in E'. apply map_some_inj in E'. subst xs'. pose proof (greatest_unique _ _ _ GB G). subst b'. destruct (nth_f2 _ _ _ _ _ F k l NK) as (k' & K & L). apply nth_seq0 in K. destruct K as (-> & K). apply (top_unused a b (Z.to_nat n) k); [apply GB, LA|exact K|]. eapply level_between; eauto.
  - apply nth_error_In, repeat_spec in NK. subst l. discriminate.
Qed.
Lemma last_lost : exists lo hi t j l a d e, rising t /\ nth_error t j = Some l /\ l_avg l = Some a /\ l_dev l = Some d /\ l_err l = Some e /\ lo < a < hi /\ 0 < d /\ ~ usable lo hi t j.
Proof.
  exists 1, 3, [mklevel (Some 2) (Some 1) (Some 0)], 0%nat. do 4 eexists. split; [|split; [reflexivity|]].
  - intros i j l l' a b IJ NI NJ _ _. destruct j as [|[|j]]; [lia|discriminate|discriminate].
  - repeat split; try reflexivity; try lra. intros (l & a & d & e & _ & _ & _ & _ & _ & _ & j' & l' & b & J & NJ & _). destruct j' as [|[|j']]; [lia|discriminate|discriminate].
Qed.
Lemma quiet_noise : forall s r v, 0 <= s < r -> shot_of (Some s) (Some r) v -> exists x, v = Some x /\ 0 < x.
Proof. intros s r v H (x & -> & X0 & E). exists x. split; [reflexivity|]. assert (D : s ^ 2 - r ^ 2 < 0) by nra. rewrite Rabs_left in E by exact D. destruct (Rle_lt_or_eq_dec 0 x X0) as [L|Z]; [exact L|]. subst x. lra. Qed.
Lemma gains_positive : forall lo hi t ks, 0 <= lo -> gains_of lo hi t ks -> forall k, In k ks -> 0 < k.
Proof.
  intros lo hi t ks L (_ & _ & js & S & F) k K. apply In_nth_error in K. destruct K as (i & K). destruct (nth_f2 _ _ _ _ _ F i k K) as (j & J & l & a & d & N & A & D & E). assert (U : usable lo hi t j).
  { apply nth_error_In in J. clear - S J. induction S as [|x q m P S IH|x q m P S IH]; [destruct J| |apply IH, J]. destruct J as [<-|J]; [exact P|apply IH, J]. }
  destruct U as (l' & a' & d' & e & N' & A' & D' & _ & LA & D0 & _). assert (l' = l) by congruence. subst l'. assert (a' = a) by congruence. assert (d' = d) by congruence. subst a' d'. assert (0 < d ^ 2) by (apply pow_lt; exact D0). destruct (Rle_dec k 0) as [Z|Z]; [|lra]. exfalso. nra.
Qed.
Lemma mode_bounds : forall l v a b, mode_is l v -> least l a -> greatest l b -> a < v < b + (if Req_EM_T a b then 1 / 10 else 0).
Proof.
  intros l v a b M LA GB. destruct (Req_EM_T a b) as [E|E].
  - assert (V : v = a + 1 / 20) by (apply (mode_constant l); [exact M|]; intros y Y; destruct LA as (_ & LA), GB as (_ & GB); specialize (LA y Y); specialize (GB y Y); lra). lra.
  - destruct M as (p & q & k & n & SP & K & M & -> & H). destruct SP as (p' & q' & LP & GQ & C). pose proof (least_unique _ _ _ LP LA). pose proof (greatest_unique _ _ _ GQ GB). subst p' q'. destruct C as [(X & -> & ->)|(X & _)]; [|contradiction]. assert (K0 : 0 <= INR k) by apply pos_INR. assert (K9 : INR k <= 9) by (replace 9 with (INR 9) by (cbn; ring); apply le_INR; lia). nra.
Qed.

Section Run.
Variable prescan : img -> list val.
Variable width : Z * Z -> img -> result R.

Lemma positive : forall d sets means gain n_cal n_mean smin smax sw out, calibrated prescan width d sets means gain n_cal n_mean smin smax sw out -> 0 < k_gain out.
Proof using.
  intros d sets means gain n_cal n_mean smin smax sw out (p & a & b & w & m & good & per & t & ks & pts & rn & RP & AC & PM & MG & F & CV & GN & LE & FN). destruct FN as (c & m' & r & s & C & M & _). destruct AC as (_ & _ & _ & _ & _ & _ & _ & _ & _ & _ & (P1 & _) & _).
  pose proof M as (p0 & q0 & _ & _ & SP & _). destruct SP as (x & y & LX & GY & _). destruct (mode_bounds c (k_gain out) x y M LX GY) as (B & _). assert (0 < x); [|lra]. apply (gains_positive (IZR a) (IZR b) t ks); [apply IZR_le; lia|exact GN|]. apply (clip_sub _ _ _ _ C), LX.
Qed.
(** The read noise is that of the last set *)
Lemma mapR_app_last : forall A B (f : A -> result B) l x r, mapR f (l ++ [x]) = Ok r -> exists r0 y, r = r0 ++ [y] /\ mapR f l = Ok r0 /\ f x = Ok y.
Proof using.
  intros A B f. induction l as [|a l IH]; intros x r H; cbn [app mapR] in H.
  - destruct (f x) as [y|]; [|discriminate]. cbn [bind] in H. exists [], y. split; [cbn [app]; congruence|]. split; reflexivity.
  - destruct (f a) as [b|] eqn:E; [|discriminate]. cbn [bind] in H. destruct (mapR f (l ++ [x])) as [r'|] eqn:R; [|discriminate]. cbn [bind] in H. destruct (IH x r' R) as (r0 & y & -> & M & Y). exists (b :: r0), y. split; [cbn [app]; congruence|]. split; [|exact Y]. cbn [mapR]. rewrite E. cbn [bind]. rewrite M. reflexivity.
Qed.
Lemma last_set : forall d sets sets' x means gain gain' n_cal n_cal' n_mean n_mean' smin smax smin' smax' sw out out',
  calibrate_kgain prescan width d (sets ++ [x]) means gain n_cal n_mean smin smax sw = Ok out ->
  calibrate_kgain prescan width d (sets' ++ [x]) means gain' n_cal' n_mean' smin' smax' sw = Ok out' ->
  k_rn out * k_gain out' = k_rn out' * k_gain out.
Proof using.
  assert (G : forall d sets x means gain n_cal n_mean smin smax sw out, calibrate_kgain prescan width d (sets ++ [x]) means gain n_cal n_mean smin smax sw = Ok out ->
    exists w p m q, sw = Whole w /\ read_params d = Ok p /\ NearModel.pick means 0 = Ok m /\ one_set prescan width p (Z.to_nat w) (crop (p_box p) (average means m)) x = Ok q /\ k_rn out = rmean (snd q) * k_gain out).
  { intros d sets x means gain n_cal n_mean smin smax sw out H. unfold calibrate_kgain in H. cbv zeta in H. apply bind_ok in H. destruct H as (u & CK & H). apply bind_ok in H. destruct H as (q & AC & H). apply accept_iff in AC. destruct AC as (a & b & w & AC & ->). cbn [fst snd] in H. apply bind_ok in H. destruct H as (p & RP & H). apply bind_ok in H. destruct H as (m & PM & H).
    apply bind_ok in H. destruct H as (per & PER & H). apply bind_ok in H. destruct H as (t & CV & H). apply bind_ok in H. destruct H as (ks & GN & H). apply bind_ok in H. destruct H as (fin & LF & H). apply mapR_app_last in PER. destruct PER as (per0 & y & -> & _ & Y). exists w, p, m, y. destruct AC as (_ & _ & _ & _ & _ & _ & _ & _ & _ & SW & _). split; [exact SW|]. split; [exact RP|]. split; [exact PM|]. split; [exact Y|].
    rewrite app_length in LF. cbn [List.length] in LF. replace (List.length per0 + 1 - 1)%nat with (List.length per0) in LF by lia. rewrite nth_error_app2, Nat.sub_diag in LF by lia. cbn [nth_error getkey] in LF. assert (fin = y) by congruence. subst fin. unfold finish in H. destruct (sigma_clip _ _ _) as [|z c]; [discriminate|]. cbv zeta in H. apply (f_equal (fun r => match r with Ok q => q | _ => out end)) in H. cbn beta iota in H. rewrite <- H. reflexivity. }
  intros d sets sets' x means gain gain' n_cal n_cal' n_mean n_mean' smin smax smin' smax' sw out out' H H'. destruct (G _ _ _ _ _ _ _ _ _ _ _ H) as (w & p & m & q & W & P & M & Q & E). destruct (G _ _ _ _ _ _ _ _ _ _ _ H') as (w' & p' & m' & q' & W' & P' & M' & Q' & E').
  assert (w' = w) by congruence. assert (p' = p) by congruence. assert (m' = m) by congruence. subst w' p' m'. assert (q' = q) by congruence. subst q'. rewrite E, E'. ring.
Qed.
(** In sets of more than five frames the first frame of each does not matter *)
Lemma first_frames : forall d sets sets' means gain n_cal n_mean smin smax sw, Forall2 (fun s s' => exists f f' t, s = f :: t /\ s' = f' :: t /\ (5 <= List.length t)%nat) sets sets' ->
  calibrate_kgain prescan width d sets means gain n_cal n_mean smin smax sw = calibrate_kgain prescan width d sets' means gain n_cal n_mean smin smax sw.
Proof using.
  intros d sets sets' means gain n_cal n_mean smin smax sw F. unfold calibrate_kgain. cbv zeta.
  assert (LS : map (@List.length img) sets = map (@List.length img) sets') by (induction F as [|s s' l l' (f & f' & t & -> & -> & _) F IH]; [reflexivity|cbn [map List.length]; rewrite IH; reflexivity]).
  assert (AC : accept sets means gain n_cal n_mean smin smax sw = accept sets' means gain n_cal n_mean smin smax sw).
  { unfold accept. rewrite (f2_len _ _ _ _ _ F). assert (EX : forall g : nat -> bool, existsb (fun s => g (List.length s)) sets = existsb (fun s => g (List.length s)) sets'). { intros g. clear - LS. revert sets' LS. induction sets as [|s l IH]; intros [|s' l'] E; try discriminate; [reflexivity|]. cbn [map] in E. injection E as E1 E2. cbn [existsb]. rewrite E1, (IH l' E2). reflexivity. }
    assert (FX : forall g : nat -> bool, forallb (fun s => g (List.length s)) sets = forallb (fun s => g (List.length s)) sets'). { intros g. clear - LS. revert sets' LS. induction sets as [|s l IH]; intros [|s' l'] E; try discriminate; [reflexivity|]. cbn [map] in E. injection E as E1 E2. cbn [forallb]. rewrite E1, (IH l' E2). reflexivity. }
    assert (HD : List.length (hd [] sets) = List.length (hd [] sets')) by (destruct sets, sets'; try discriminate; [reflexivity|cbn in LS; injection LS as E _; exact E]).
    rewrite (EX (fun n => Nat.ltb n 5)), HD, (FX (fun n => Nat.eqb n (List.length (hd [] sets')))). reflexivity. }
  rewrite AC. assert (PR : forall p w good, mapR (one_set prescan width p w good) sets = mapR (one_set prescan width p w good) sets').
  { intros p w good. clear - F. induction F as [|s s' l l' (f & f' & t & -> & -> & L) F IH]; [reflexivity|]. cbn [mapR]. rewrite (first_unused prescan width p w good f f' t L), IH. reflexivity. }
  destruct (check_kgain_params d); [cbn [bind]|reflexivity]. destruct (accept sets' means gain n_cal n_mean smin smax sw) as [q|]; [cbn [bind]|reflexivity]. destruct (read_params d) as [p|]; [cbn [bind]|reflexivity]. destruct (NearModel.pick means 0) as [m|]; [cbn [bind]|reflexivity]. rewrite PR. reflexivity.
Qed.
End Run.

(** ** A whole run: five frames, 11 by 11 pixels *)
Definition stripe (r : nat) : R := match r with 0%nat => 1 | 1%nat => -1 | _ => 0 end.
Definition plate (a b : R) : img := mkimg 11 11 (fun r _ => Some (a + b * stripe r)).
Definition dict0 (k : string) : option setting :=
  if String.eqb k "max_DN_val" then Some (Float 400) else if String.eqb k "signal_bins_N" then Some (Whole 3)
  else if String.eqb k "rowroi2" then Some (Whole 11) else if String.eqb k "colroi2" then Some (Whole 11)
  else if existsb (String.eqb k) ["rowroi1"; "colroi1"; "rn_bins1"; "rn_bins2"]%string then Some (Whole 0) else None.
Definition frames0 : list img := [plate 170 3; plate 200 0; plate 110 2; plate 100 0; plate 120 1].

Lemma rsum_affine : forall A (h : A -> R) a b l, rsum (map (fun p => a + b * h p) l) = INR (List.length l) * a + b * rsum (map h l).
Proof. intros A h a b. induction l as [|x l IH]; [cbn; lra|]. cbn [map List.length]. rewrite S_INR. unfold rsum in *. cbn [fold_right]. rewrite IH. lra. Qed.
Definition grid : list (nat * nat) := list_prod (seq 0 11) (seq 0 11).
Lemma grid_len : INR (List.length grid) = 121.
Proof. change (List.length grid) with (11 * 11)%nat. rewrite mult_INR. replace (INR 11) with 11 by (cbn; ring). ring. Qed.
Lemma grid_stripe : rsum (map (fun p : nat * nat => stripe (fst p)) grid) = 0 /\ rsum (map (fun p : nat * nat => stripe (fst p) ^ 2) grid) = 22.
Proof. split; cbv [grid list_prod seq map app fst snd rsum fold_right stripe]; lra. Qed.
Section Plate.
Variables (f : img) (a b : R).
Hypothesis RF : rows f = 11%nat.
Hypothesis CF : cols f = 11%nat.
Hypothesis PF : forall r c, pix f r c = Some (a + b * stripe r).
Lemma plate_values : values f = map Some (map (fun p => a + b * stripe (fst p)) grid).
Proof using RF CF PF. unfold values, spots. rewrite RF, CF. fold grid. rewrite map_map. apply map_ext. intros p. apply PF. Qed.
Lemma plate_is_mean : is_mean (map (fun p : nat * nat => a + b * stripe (fst p)) grid) a.
Proof using. apply is_mean_rmean. split; [discriminate|]. rewrite (rsum_affine _ (fun p : nat * nat => stripe (fst p))), map_length, grid_len, (proj1 grid_stripe). field. Qed.
Lemma plate_mean : vmean (values f) = Some a.
Proof using RF CF PF. symmetry. apply mean_iff. rewrite plate_values. eexists. split; [reflexivity|]. apply plate_is_mean. Qed.
Lemma plate_nanmean : nanmean (values f) = Some a.
Proof using RF CF PF. symmetry. apply nanmean_iff. rewrite plate_values. cbn [mean_of]. rewrite somes_some. apply plate_is_mean. Qed.
Lemma plate_std : nanstd (values f) = Some (Rabs b * sqrt (2 / 11)).
Proof using RF CF PF.
  symmetry. apply spread_iff. rewrite plate_values. cbn [spread_of]. rewrite somes_some. split; [apply Rmult_le_pos; [apply Rabs_pos|apply sqrt_pos]|]. exists a. split; [apply plate_is_mean|]. rewrite map_map. apply is_mean_rmean. split; [discriminate|].
  rewrite Rpow_mult_distr, pow2_abs, root_sq by lra. erewrite map_ext; [|intros p; replace ((a + b * stripe (fst p) - a) ^ 2) with (0 + b ^ 2 * stripe (fst p) ^ 2) by ring; reflexivity]. rewrite (rsum_affine _ (fun p : nat * nat => stripe (fst p) ^ 2)), map_length, grid_len, (proj2 grid_stripe). field.
Qed.
Lemma plate_cells : forall g, rows g = 11%nat -> cols g = 11%nat -> (forall r c, pix g r c = Some 140) -> ptc_bin2 f g 10 400 = Ok [(Some a, Some (Rabs b * sqrt (2 / 11)))].
Proof using RF CF PF.
  intros g RG CG PG. unfold ptc_bin2. rewrite RF, CF. change (bins_of 11 10) with 2%nat. change (Nat.eqb (2 * 2) 0) with false. cbv iota zeta. change (list_prod (seq 0 (11 / 10)) (seq 0 (11 / 10))) with [(0%nat, 0%nat)]. cbn [map fst snd]. change (Nat.ltb 0 (2 - 1) && Nat.ltb 0 (2 - 1))%bool with true. cbv iota.
  assert (VG : values g = map (fun p : nat * nat => pix g (fst p) (snd p)) (places f)). { unfold values, spots, places. rewrite RG, CG, RF, CF. reflexivity. }
  rewrite VG, (stat_eq _ _ f (pix g)). assert (AL : at_level (400 / INR (2 * 2)) (0 * (2 - 1) + 0 + 1) (Some 140) = true). { apply at_level_iff. exists 140. split; [reflexivity|]. cbn. lra. }
  rewrite (filter_ext _ (fun _ => true)) by (intros p; rewrite PG; exact AL). assert (FT : forall A (l : list A), filter (fun _ => true) l = l) by (intros A; induction l as [|x l IH]; [reflexivity|cbn [filter]; rewrite IH; reflexivity]). rewrite FT. assert (PL : places f = grid) by (unfold places; rewrite RF, CF; reflexivity). 
  assert (MS : (nanmean (map (fun q => pix f (fst q) (snd q)) (places f)), nanstd (map (fun q => pix f (fst q) (snd q)) (places f))) = (Some a, Some (Rabs b * sqrt (2 / 11)))) by (rewrite <- plate_nanmean, <- plate_std; reflexivity).
  rewrite PL in *. change grid with ((0%nat, 0%nat) :: tl grid) in *. exact (f_equal (fun v => Ok [v]) MS).
Qed.
End Plate.

Definition box0 : box := mkbox 0 11 0 11.
Definition params0 : params := mkparams box0 (0%Z, 0%Z) 400 3.
Definition good0 : img := crop box0 (average [plate 100 0] (plate 100 0)).
Definition prescan0 (_ : img) : list val := [Some 0; Some 0].
Definition width0 (_ : Z * Z) (_ : img) : result R := Ok 7.
Definition step0 (b : R) : val := shot (half (vstd 1 [Some 0; Some 0])) (half (Some (Rabs b * sqrt (2 / 11)))).
Lemma over_sq : forall x y, y <> 0 -> (x / y) ^ 2 = x ^ 2 / y ^ 2.
Proof. intros x y Y. field. exact Y. Qed.
Lemma step0_eq : forall b, step0 b = Some (Rabs b / sqrt 11).
Proof.
  intros b. symmetry. apply shot_iff. assert (SD : vstd 1 [Some 0; Some 0] = Some 0). { symmetry. apply sample_iff. split; [lra|]. exists [0; 0], 0. split; [reflexivity|]. split; [split; [discriminate|cbn; lra]|]. split; [cbn; lia|]. cbn. lra. }
  rewrite SD. cbn [half option_map shot_of]. assert (S11 : 0 < sqrt 11) by (apply sqrt_lt_R0; lra). assert (S2 : 0 < sqrt 2) by (apply sqrt_lt_R0; lra). exists (Rabs b / sqrt 11). split; [reflexivity|]. split; [apply Rmult_le_pos; [apply Rabs_pos|apply Rlt_le, Rinv_0_lt_compat, S11]|].
  replace ((0 / sqrt 2) ^ 2) with 0 by (field; lra). rewrite Rminus_0_r, (Rabs_pos_eq (_ ^ 2)) by apply pow2_ge_0. rewrite !over_sq, Rpow_mult_distr, !root_sq by lra. field.
Qed.
Lemma set0 : one_set prescan0 width0 params0 10 good0 frames0 =
  Ok ([(Some 100, step0 (0 - 2)); (Some 110, step0 (0 - 1)); (Some 120, step0 (2 - 1)); (Some 200, step0 (1 - 0)); (Some 170, step0 (0 - 3))], [7 / sqrt 2; 7 / sqrt 2; 7 / sqrt 2; 7 / sqrt 2; 7 / sqrt 2]).
Proof.
  unfold one_set. cbv zeta. change (mapR (fun o => NearModel.pick frames0 (List.length frames0 - o)) (offsets (List.length frames0))) with (Ok [plate 100 0; plate 110 2; plate 120 1; plate 200 0; plate 170 3]). cbn [bind].
  set (frames := [plate 100 0; plate 110 2; plate 120 1; plate 200 0; plate 170 3]).
  change (mapR (fun jk => do a <- NearModel.pick frames (fst jk); do b <- NearModel.pick frames (snd jk); Ok (KgainModel.minus a b)) (pairs (List.length frames0))) with (Ok [KgainModel.minus (plate 100 0) (plate 110 2); KgainModel.minus (plate 100 0) (plate 120 1); KgainModel.minus (plate 110 2) (plate 120 1); KgainModel.minus (plate 120 1) (plate 200 0); KgainModel.minus (plate 200 0) (plate 170 3)]). cbn [bind].
  change (NearModel.pick frames 0) with (Ok (plate 100 0)). cbn [mapR width0 bind].
  assert (A0 : forall r c, pix (crop box0 (average frames (plate 100 0))) r c = Some (140 + 6 / 5 * stripe r)).
  { intros r c. change (vmean (map (fun g => pix g r c) frames) = Some (140 + 6 / 5 * stripe r)). symmetry. apply mean_iff. eexists. split; [unfold frames; cbn [map plate pix]; change [Some ?u; Some ?v; Some ?w; Some ?x; Some ?y] with (map Some [u; v; w; x; y]); reflexivity|]. split; [discriminate|]. cbn. lra. }
  assert (G0 : forall r c, pix good0 r c = Some (100 + 0 * stripe r)).
  { intros r c. change (vmean [Some (100 + 0 * stripe r)] = Some (100 + 0 * stripe r)). symmetry. apply mean_iff. exists [100 + 0 * stripe r]. split; [reflexivity|]. split; [discriminate|]. cbn. lra. }
  change (p_box params0) with box0. change (p_top params0) with 400. rewrite (plate_mean (crop box0 (average frames (plate 100 0))) 140 (6 / 5) eq_refl eq_refl A0), (plate_mean good0 100 0 eq_refl eq_refl G0). cbn [vdiv]. destruct (Req_EM_T 100 0) as [Z|_]; [lra|].
  set (sc := mkimg (rows good0) (cols good0) (fun r c => vmul (Some (140 / 100)) (pix good0 r c))).
  assert (S0 : forall r c, pix sc r c = Some 140) by (intros r c; unfold sc; cbn [pix]; rewrite G0; cbn [vmul]; f_equal; field).
  assert (PC : forall a b, ptc_bin2 (crop box0 (plate a b)) sc 10 400 = Ok [(Some a, Some (Rabs b * sqrt (2 / 11)))]) by (intros a b; apply plate_cells; try reflexivity; exact S0).
  assert (MC : forall a b a' b', ptc_bin2 (crop box0 (KgainModel.minus (plate a b) (plate a' b'))) sc 10 400 = Ok [(Some (a - a'), Some (Rabs (b - b') * sqrt (2 / 11)))]).
  { intros a b a' b'. apply plate_cells; try reflexivity; [|exact S0]. intros r c. change (Some (a + b * stripe r - (a' + b' * stripe r)) = Some (a - a' + (b - b') * stripe r)). f_equal. ring. }
  unfold frames. cbn [mapR]. rewrite !PC, !MC. cbn [bind map fst snd List.concat app combine]. reflexivity.
Qed.
Definition curve0 : list level := [blank; mklevel (Some 115) (Some (1 / sqrt 11)) (Some 0); mklevel (Some 170) (Some (3 / sqrt 11)) None].
Lemma points0 : curve_of [(Some 100, Some (2 / sqrt 11)); (Some 110, Some (1 / sqrt 11)); (Some 120, Some (1 / sqrt 11)); (Some 200, Some (1 / sqrt 11)); (Some 170, Some (3 / sqrt 11))] 3 curve0.
Proof.
  split; [discriminate|]. split; [lia|]. left. exists [100; 110; 120; 200; 170], 100, 200. split; [reflexivity|]. split; [split; [left; reflexivity|cbn; intros x X; lra]|]. split; [split; [do 3 right; left; reflexivity|cbn; intros x X; lra]|].
  change (Z.to_nat 3) with 3%nat. change (seq 0 3) with [0%nat; 1%nat; 2%nat]. assert (N0 : ends 100 200 3 0 = (0, 100)) by reflexivity. assert (N1 : ends 100 200 3 1 = (100, 150)) by (unfold ends; change (3 - 1)%nat with 2%nat; f_equal; cbn; field). assert (N2 : ends 100 200 3 2 = (150, 200)) by (unfold ends; change (3 - 1)%nat with 2%nat; f_equal; cbn; field).
  assert (YES : forall lo hi x v l m, lo < x < hi -> sieve (between lo hi) l m -> sieve (between lo hi) ((Some x, v) :: l) ((Some x, v) :: m)) by (intros; apply ComboSpec.sieve_in; [exists x; split; [reflexivity|assumption]|assumption]).
  assert (NO : forall lo hi x v l m, ~ lo < x < hi -> sieve (between lo hi) l m -> sieve (between lo hi) ((Some x, v) :: l) m) by (intros lo hi x v l m N S; apply ComboSpec.sieve_out; [intros (y & E & Y); cbn [fst] in E; injection E as <-; contradiction|assumption]).
  constructor; [|constructor; [|constructor; [|constructor]]].
  - rewrite N0. cbn [fst snd]. exists []. split; [repeat (apply NO; [lra|]); constructor|left; split; reflexivity].
  - rewrite N1. cbn [fst snd]. exists [(Some 110, Some (1 / sqrt 11)); (Some 120, Some (1 / sqrt 11))]. split; [apply NO; [lra|]; apply YES; [lra|]; apply YES; [lra|]; repeat (apply NO; [lra|]); constructor|right]. split; [discriminate|]. cbn [map fst snd l_avg l_dev l_err]. split; [exists [110; 120]; split; [reflexivity|]; split; [discriminate|cbn; lra]|]. split; [exists [1 / sqrt 11; 1 / sqrt 11]; split; [reflexivity|]; split; [discriminate|cbn; lra]|].
    exists (Some 0). split; [|cbn [option_map]; f_equal; cbn [List.length]; field; assert (0 < sqrt (INR 2)) by (apply sqrt_lt_R0; cbn; lra); lra]. split; [lra|]. exists [1 / sqrt 11; 1 / sqrt 11], (1 / sqrt 11). split; [reflexivity|]. split; [split; [discriminate|cbn; lra]|]. split; [cbn; lia|]. cbn. lra.
  - rewrite N2. cbn [fst snd]. exists [(Some 170, Some (3 / sqrt 11))]. split; [do 4 (apply NO; [lra|]); apply YES; [lra|constructor]|right]. split; [discriminate|]. cbn [map fst snd l_avg l_dev l_err]. split; [exists [170]; split; [reflexivity|]; split; [discriminate|cbn; lra]|]. split; [exists [3 / sqrt 11]; split; [reflexivity|]; split; [discriminate|cbn; lra]|]. exists None. split; [right; cbn; lia|reflexivity].
Qed.
Lemma gains0 : gains_of 105 190 curve0 [1265].
Proof.
  assert (S11 : 0 < sqrt 11) by (apply sqrt_lt_R0; lra). assert (P : 0 < 1 / sqrt 11) by (apply Rmult_lt_0_compat; [lra|apply Rinv_0_lt_compat, S11]).
  split; [eexists; exists 115; split; [right; left; reflexivity|]; split; [reflexivity|lra]|]. split; [eexists; exists 115; split; [right; left; reflexivity|]; split; [reflexivity|lra]|]. exists [1%nat]. split.
  - change (seq 0 (List.length curve0)) with [0%nat; 1%nat; 2%nat]. apply ComboSpec.sieve_out; [|apply ComboSpec.sieve_in; [|apply ComboSpec.sieve_out; [|constructor]]].
    + intros (l & a & d & e & N & A & _). cbn in N. injection N as <-. discriminate.
    + exists (mklevel (Some 115) (Some (1 / sqrt 11)) (Some 0)), 115, (1 / sqrt 11), 0. split; [reflexivity|]. split; [reflexivity|]. split; [reflexivity|]. split; [reflexivity|]. split; [lra|]. split; [exact P|]. exists 2%nat. eexists. exists 170. split; [lia|]. split; [reflexivity|]. split; [reflexivity|lra].
    + intros (l & a & d & e & N & _ & _ & E & _). cbn in N. injection N as <-. discriminate.
  - constructor; [|constructor]. eexists. exists 115, (1 / sqrt 11). split; [reflexivity|]. split; [reflexivity|]. split; [reflexivity|]. rewrite over_sq, root_sq by lra. field.
Qed.
Lemma product0 : exists out, product_of curve0 [7 / sqrt 2; 7 / sqrt 2; 7 / sqrt 2; 7 / sqrt 2; 7 / sqrt 2] [1265] out /\ k_gain out = 1265 + 1 / 20 /\ k_err out = 0.
Proof.
  set (rn := [7 / sqrt 2; 7 / sqrt 2; 7 / sqrt 2; 7 / sqrt 2; 7 / sqrt 2]). assert (C1 : sigma_clip (5 / 2) 6 [1265] = [1265]) by (apply (clip_few 6); [cbn; lia|apply clip_iff; reflexivity]).
  destruct (finish curve0 rn [1265]) as [out|e] eqn:E; [|unfold finish in E; rewrite C1 in E; discriminate]. exists out. apply finish_iff in E; [|discriminate]. split; [exact E|]. destruct E as (c & m & r & s & C & M & SP & _). apply clip_iff in C. rewrite C1 in C. subst c. split; [apply (mode_constant [1265]); [exact M|]; intros y [<-|[]]; reflexivity|].
  apply spread_rdev in SP. destruct SP as (_ & _ & ->). symmetry. apply (fun H => proj2 (proj2 (proj1 (spread_rdev [1265] 1265 0) H))). split; [split; [discriminate|cbn; lra]|]. split; [lra|]. split; [discriminate|cbn; lra].
Qed.
Lemma run0 : exists out, calibrate_kgain prescan0 width0 dict0 [frames0] [plate 100 0] 1 1 1 (Whole 105) (Whole 190) (Whole 10) = Ok out /\ k_gain out = 1265 + 1 / 20 /\ k_err out = 0.
Proof.
  destruct product0 as (out & P & K). exists out. split; [|exact K]. unfold calibrate_kgain. cbv zeta. change (check_kgain_params dict0) with (Ok tt). cbn [bind].
  assert (AC : accept [frames0] [plate 100 0] 1 1 1 (Whole 105) (Whole 190) (Whole 10) = Ok (105%Z, 190%Z, 10%nat)).
  { apply accept_iff. exists 105%Z, 190%Z, 10%Z. split; [|reflexivity]. split; [discriminate|]. split; [cbn; lia|]. split; [intros s [<-|[]]; cbn; lia|]. split; [intros s s' [<-|[]] [<-|[]]; reflexivity|]. split; [discriminate|]. split; [cbn; lia|]. split; [lra|]. repeat split; lia. }
  rewrite AC. cbn [bind fst snd]. change (read_params dict0) with (Ok params0). cbn [bind]. change (NearModel.pick [plate 100 0] 0) with (Ok (plate 100 0)). cbn [bind]. change (crop (p_box params0) (average [plate 100 0] (plate 100 0))) with good0. cbn [mapR]. rewrite set0. cbn [bind map fst List.concat app]. rewrite !step0_eq.
  assert (AB : forall x y, 0 <= y -> x = y \/ x = - y -> Rabs x = y) by (intros x y Y [->| ->]; [apply Rabs_pos_eq, Y|rewrite Rabs_Ropp; apply Rabs_pos_eq, Y]). rewrite (AB (0 - 2) 2), (AB (0 - 1) 1), (AB (2 - 1) 1), (AB (1 - 0) 1), (AB (0 - 3) 3) by lra.
  change (p_bins params0) with 3%Z. match goal with |- bind (curve ?l ?n) _ = _ => assert (CV : curve l n = Ok curve0) by exact (proj2 (curve_iff _ _ _) points0); rewrite CV; clear CV end. cbn [bind]. rewrite (proj2 (gains_iff 105 190 curve0 [1265] ltac:(lra) (curve_rising _ _ _ points0)) gains0). cbn [bind List.length Nat.sub nth_error getkey snd]. apply finish_iff; [discriminate|exact P].
Qed.
