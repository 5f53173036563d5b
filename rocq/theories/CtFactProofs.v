(** Laws of the product, of the stamps and of the interpolation. *)
From Coq Require Import List Arith Bool Reals ZArith String Sorting Lia Lra.
From Verif Require Import Base CombineModel ComboSpec ComboProofs DqModel AngleModel AngleSpec NearModel NearSpec NearProofs FlatModel FlatSpec FlatProofs FlatTopProofs FluxModel FluxSpec FluxProofs FluxBandProofs FluxRunProofs CtModel CtSpec CtProofs CtSetProofs CtDataProofs CtInterpProofs CtMapProofs CtLawProofs.
Import ListNotations.
Local Open Scope R_scope.

Lemma f2_nth : forall A B (P : A -> B -> Prop) l m i a, Forall2 P l m -> nth_error l i = Some a -> exists b, nth_error m i = Some b /\ P a b.
Proof. intros A B P l m i a F. revert i. induction F as [|x y l m H F IH]; intros [|i] N; try discriminate; [injection N as <-; exists y; auto|]. apply IH. exact N. Qed.
(** ** Entry i of the table and stamp i belong to off-axis frame i *)
Lemma table_pairs : forall L ver r l k ch, cal_of L ver r l k -> offaxis l ch ->
  List.length (k_table k) = List.length ch /\ List.length (k_cube k) = List.length ch
  /\ exists cfam norm n, one_filter l cfam /\ unocculted L cfam ver l norm /\ half_side L cfam ver n
     /\ forall i t, nth_error ch i = Some t -> exists p v s, nth_error (k_table k) i = Some (p, v) /\ nth_error (k_cube k) i = Some s /\ position (t_img t) r (fst p) (snd p) /\ throughput norm (t_img t) v /\ cut_of n t p s.
Proof.
  intros L ver r l k ch (cfam & pos & ct & t0 & l' & OF & ES & CU & T & _) O. destruct ES as (cfam' & norm & ch' & OF' & UN & O' & NE & FP & FT). assert (cfam' = cfam) by (apply (one_filter_one l); assumption). subst cfam'. destruct CU as (n & ch'' & t1 & r1 & HS & O'' & (us & FU & E1 & E2) & _).
  apply offaxis_iff in O. apply offaxis_iff in O'. apply offaxis_iff in O''. rewrite <- O in O', O''. subst ch' ch''. rewrite T, combine_length, <- (f2_len _ _ _ _ _ FP), <- (f2_len _ _ _ _ _ FT). split; [lia|]. split; [rewrite <- E2, map_length, <- (f2_len _ _ _ _ _ FU); reflexivity|].
  exists cfam, norm, n. split; [exact OF|]. split; [exact UN|]. split; [exact HS|]. intros i t N. destruct (f2_nth _ _ _ _ _ i t FP N) as (p & NP & HP). destruct (f2_nth _ _ _ _ _ i t FT N) as (v & NV & HV). destruct (f2_nth _ _ _ _ _ i t FU N) as ([p' s] & NU & HU). cbn [fst snd] in HU.
  assert (p' = p). { rewrite <- E1 in NP. rewrite nth_error_map, NU in NP. injection NP as <-. reflexivity. } subst p'. exists p, v, s. split; [|split; [rewrite <- E2, nth_error_map, NU; reflexivity|auto]]. clear - NP NV. revert ct i NP NV. induction pos as [|a pos IH]; intros [|b ct] [|i] NP NV; try discriminate; [cbn in *; congruence|]. cbn [combine nth_error] in *. apply IH; assumption.
Qed.
(** ** The order of pupil images among the others does not matter for the table *)
Lemma placement : forall L ver r l l' ps ch pos ct, sieve pupil_frame l ps -> sieve pupil_frame l' ps -> offaxis l ch -> offaxis l' ch -> estimates L ver r l pos ct -> estimates L ver r l' pos ct.
Proof.
  intros L ver r l l' ps ch pos ct P P' O O' (cfam & norm & ch' & OF & UN & OC & NE & FP & FT). assert (ch' = ch) by (apply offaxis_iff in O; apply offaxis_iff in OC; congruence). subst ch'. exists cfam, norm, ch. split.
  - destruct OF as (LN & FA). split; [intros ->; inversion O'; subst; congruence|]. rewrite Forall_forall in *. intros t T. apply FA. apply pupils_iff in P. apply pupils_iff in P'. apply offaxis_iff in O. apply offaxis_iff in O'. destruct (is_pupil t) eqn:E.
    + assert (I : In t ps) by (rewrite P'; apply filter_In; auto). rewrite P in I. apply filter_In in I. apply I.
    + assert (I : In t ch) by (rewrite O'; apply filter_In; rewrite E; auto). rewrite O in I. apply filter_In in I. apply I.
  - split; [|auto]. destruct UN as (ps' & vs & s & k & SP & R0). assert (ps' = ps) by (apply pupils_iff in P; apply pupils_iff in SP; congruence). subst ps'. exists ps, vs, s, k. auto.
Qed.
(** ** An imaging lens that transmits c times what the pupil lens does *)
Lemma interp_times : forall c l p x, interp (fst p, c * snd p) (map (fun q => (fst q, c * snd q)) l) x = c * interp p l x.
Proof.
  intros c. induction l as [|q l IH]; intros p x; [reflexivity|]. cbn [interp map fst snd]. destruct (Rlt_dec x (fst q)); [|exact (IH q x)]. destruct (Rle_dec x (fst p)); [reflexivity|]. unfold Rdiv. ring.
Qed.
Lemma ratio_constant : forall L name ver lp c k, increasing (map fst lp) -> l_pupil L ver = Some lp -> l_imaging L ver = Some (map (fun q => (fst q, c * snd q)) lp) -> lens_ratio L name ver (Some k) -> k = c.
Proof.
  intros L name ver lp c k IC P I (file & w & t & i & p & _ & C & LE & NE & TI & TP & A & B). destruct lp as [|p0 lp]; [destruct TP as (lp & vs & E & F & _); rewrite P in E; injection E as <-; destruct w as [|w0 w]; [congruence|]; inversion F as [|? ? ? ? X _]; subst; destruct (interpolated_none _ _ X)|].
  assert (IC' : inc ((fst p0, c * snd p0) :: map (fun q => (fst q, c * snd q)) lp)) by (cbn [map fst]; rewrite map_map; exact IC). cbn [map] in I. apply (through_weigh _ _ _ w t i I IC' LE) in TI. apply (through_weigh _ _ _ w t p P IC LE) in TP.
  assert (E : i = c * p). { rewrite TI, TP. rewrite (interp_ext (fun x => interp (fst p0, c * snd p0) (map (fun q => (fst q, c * snd q)) lp) (10 * x)) (fun x => c * interp p0 lp (10 * x))) by (intros x; apply interp_times). unfold weigh. clear. induction (combine w t) as [|q l IH]; cbn [map fold_right]; [ring|rewrite IH; ring]. }
  assert (M : exists x, In x t /\ forall y, In y t -> y <= x) by (destruct t as [|t0 t]; [destruct w; [congruence|discriminate]|]; destruct (bigger_max t t0) as (x & _ & X); exists x; exact X). destruct M as (x & X & MX). destruct (Req_EM_T x 0) as [Z|Z].
  - assert (Some k = None) by (apply B; exists x; auto). discriminate.
  - assert (K : Some k = quot (Some i) (Some p)) by (apply A; exists x; auto). cbn [quot] in K. destruct (Req_EM_T p 0); [discriminate|]. injection K as ->. rewrite E. field. assumption.
Qed.
(** ** Stamps *)
Lemma extent_in : forall n lo hi, (0 <= lo <= hi)%Z -> (hi <= Z.of_nat n)%Z -> extent n lo hi = Z.to_nat (hi - lo).
Proof. intros n lo hi A B. unfold extent, norm. destruct (Z.ltb_spec lo 0); [lia|]. destruct (Z.ltb_spec hi 0); lia. Qed.
Lemma start_in : forall n lo, (0 <= lo <= Z.of_nat n)%Z -> start n lo = Z.to_nat lo.
Proof. intros n lo A. unfold start, norm. destruct (Z.ltb_spec lo 0); lia. Qed.
Lemma interior_stamp : forall n t x y ix iy s, rounds x ix -> rounds y iy -> (0 <= n <= ix)%Z -> (n <= iy)%Z -> (ix + n < Z.of_nat (cols (t_img t)))%Z -> (iy + n < Z.of_nat (rows (t_img t)))%Z -> cut_of n t (Some x, Some y) s ->
  Z.of_nat (rows (fst s)) = (2 * n + 1)%Z /\ Z.of_nat (cols (fst s)) = (2 * n + 1)%Z
  /\ forall i j, pix (fst s) i j = pix (t_img t) (Z.to_nat (iy - n) + i) (Z.to_nat (ix - n) + j) /\ snd s i j = t_dq t (Z.to_nat (iy - n) + i)%nat (Z.to_nat (ix - n) + j)%nat.
Proof.
  intros n t x y ix iy s RX RY N1 N2 N3 N4 (x' & y' & ix' & iy' & E & RX' & RY' & RO & CO & PX). injection E as <- <-. assert (ix' = ix) by (apply (rounds_fun x); assumption). assert (iy' = iy) by (apply (rounds_fun y); assumption). subst ix' iy'. rewrite extent_in in RO, CO by lia. split; [lia|]. split; [lia|]. intros i j. destruct (PX i j) as (-> & ->). rewrite !start_in by lia. rewrite !Z.max_l by lia. split; reflexivity.
Qed.
Lemma cut_short : forall n t x y ix iy s, rounds x ix -> rounds y iy -> (0 <= n)%Z -> (0 <= iy < Z.of_nat (rows (t_img t)))%Z -> cut_of n t (Some x, Some y) s ->
  (iy < n \/ Z.of_nat (rows (t_img t)) <= iy + n)%Z -> (Z.of_nat (rows (fst s)) < 2 * n + 1)%Z.
Proof.
  intros n t x y ix iy s RX RY N I (x' & y' & ix' & iy' & E & RX' & RY' & RO & CO & PX) O. injection E as <- <-. assert (iy' = iy) by (apply (rounds_fun y); assumption). subst iy'. rewrite extent_in in RO by lia. lia.
Qed.
(** Stamps of different sizes: no cube. *)
Lemma ragged : forall L name ver n l locs us ch, half_side L name ver n -> offaxis l ch -> Forall2 (fun t x => cut_of n t (fst x) (snd x)) ch us -> map fst us = locs -> ~ alike (map snd us) -> generate_psf_cube L name ver l locs = Raise ValueError.
Proof.
  intros L name ver n l locs us ch HS O F E N. apply half_side_iff in HS. destruct HS as (file & CF & NE & ->). apply offaxis_iff in O. subst ch. destruct (proj2 (vmax_some (map (fun p => Some (snd p)) (l_curve L file)))) as (m & M); [intros X; apply map_eq_nil in X; contradiction|]. unfold generate_psf_cube. rewrite (proj2 (cfam_iff L name ver _) (ex_intro _ file (ex_intro _ m (conj CF (conj M eq_refl))))). cbn [bind fst].
  destruct (proj2 (cuts_iff _ l locs (map snd us)) (ex_intro _ us (conj F (conj E eq_refl)))) as (CS & LE). rewrite CS. cbn [bind]. match goal with |- context [negb ?b] => destruct b eqn:A; [|reflexivity] end. exfalso. apply N. apply alike_iff. exact A.
Qed.
(** ** The mask does not move *)
Lemma mask_same : forall fpam fsam M0 M1 h r c, cards_of (c_star h) c -> cards_of (c_fpam h) fpam -> cards_of (c_fsam h) fsam -> mask_at fpam fsam M0 M1 (h :: r) c c.
Proof. intros fpam fsam M0 M1 h r c C P S0. exists h, r, c, fpam, fsam. unfold moved. repeat split; auto; ring. Qed.
Lemma mask_one : forall fpam fsam M0 M1 cor p q p' q', mask_at fpam fsam M0 M1 cor p q -> mask_at fpam fsam M0 M1 cor p' q' -> p = p' /\ q = q'.
Proof. intros fpam fsam M0 M1 cor p q p' q' A B. apply mask_iff in A. apply mask_iff in B. rewrite A in B. injection B as -> ->. auto. Qed.
(** ** Interpolated values *)
Section Interpolate.
Variable linear : list (val * R) -> list R -> result (val * val -> val).
Lemma out_in : forall (ts : list (R * R)) vs ch (out : list (R * (R * R))), sieve (fun tv => snd tv <> None) (combine ts vs) ch -> Forall2 (fun tv (o : R * (R * R)) => snd tv = Some (fst o) /\ fst tv = snd o) ch out ->
  forall v t, In (v, t) out -> exists i, nth_error ts i = Some t /\ nth_error vs i = Some (Some v).
Proof.
  intros ts vs ch out SV F v t I. assert (J : In (t, Some v) ch) by (clear SV; induction F as [|[a b] [c d] l m (H1 & H2) F IH]; [destruct I|]; cbn [fst snd] in *; destruct I as [E|I]; [injection E as -> ->; subst; left; reflexivity|right; apply IH; exact I]).
  apply (sieve_sub _ _ _ _ _ SV) in J. destruct J as (J & _). apply In_nth_error in J. destruct J as (i & J). exists i. clear - J. revert vs i J. induction ts as [|a ts IH]; intros [|b vs] [|i] J; try discriminate; [cbn in *; split; congruence|]. cbn [combine nth_error] in *. apply IH. exact J.
Qed.
Lemma combine_nth_in : forall A B (l : list A) (m : list B) i a b, nth_error l i = Some a -> nth_error m i = Some b -> nth_error (combine l m) i = Some (a, b).
Proof. induction l as [|x l IH]; intros [|y m] [|i] a b X Y; try discriminate; [cbn in *; congruence|]. cbn [combine nth_error] in *. apply IH; assumption. Qed.
(** Every result is at a requested place in the radial range, and in [0, 1] if the table is. *)
Lemma results_within : forall table fpam fsam M0 M1 cor xs ys logr out v t, (forall p w, In (p, w) table -> 0 <= w <= 1) -> interpolation linear table fpam fsam M0 M1 cor xs ys logr out -> In (v, t) out ->
  0 <= v <= 1 /\ In t (combine xs ys) /\ exists c c', mask_at fpam fsam M0 M1 cor c c' /\ in_range (map (fun e => AngleSpec.minus (fst e) c) table) t.
Proof.
  intros table fpam fsam M0 M1 cor xs ys logr out v t TB (LE & c & c' & grid & ts & vs & vs' & MA & SH & NE & SV & RW & U & RP & ON & ch & CH & F) I.
  destruct (out_in _ _ _ _ CH F v t I) as (i & NT & NV). destruct (sieve_sub _ _ _ _ t SV (nth_error_In _ _ NT)) as (IT & RT). split.
  - destruct RP as (LV & _ & H). assert (LTV : List.length ts = List.length vs) by (destruct RW as (azs & a0 & m & pts & q & _ & _ & _ & _ & _ & V); exact (f2_len _ _ _ _ _ V)). assert (IL : (i < List.length vs)%nat) by (rewrite <- LTV; apply nth_error_Some; congruence). destruct (nth_error vs i) as [w|] eqn:W; [|apply nth_error_None in W; lia]. destruct (H i t w (combine_nth_in _ _ _ _ _ _ _ NT W)) as (HA & HB).
    apply shifted_iff in SH. destruct (nth_error grid i) as [[g gc]|] eqn:G.
    + destruct (written_dec grid (nans (combine ts vs)) i) as [(d & u & UU & X)|NW].
      * rewrite G in X. injection X as <- <-. apply in_nans in UU. specialize (HA g gc eq_refl UU). pose proof (eq_trans (eq_sym NV) HA) as EQ. injection EQ as ->. rewrite SH, nth_error_map in G. destruct (nth_error table i) as [[p z]|] eqn:TI; [|discriminate]. injection G as _ <-. exact (TB p z (nth_error_In _ _ TI)).
      * assert (X : nth_error vs' i = Some w) by (apply HB; intros g0 c0 E J; injection E as <- <-; apply (NW gc); exists g; split; [apply in_nans; exact J|exact G]). pose proof (eq_trans (eq_sym NV) X) as EQ. injection EQ as <-. apply U. apply nth_error_In in W. exact W.
    + assert (X : nth_error vs' i = Some w) by (apply HB; discriminate). pose proof (eq_trans (eq_sym NV) X) as EQ. injection EQ as <-. apply U. apply nth_error_In in W. exact W.
  - split; [exact IT|]. exists c, c'. split; [exact MA|]. apply shifted_iff in SH. replace (map (fun e => AngleSpec.minus (fst e) c) table) with (map fst grid); [exact RT|]. rewrite SH, map_map. reflexivity.
Qed.
(** At a place of the table that is not at the largest azimuth: an interpolator that is exact at its nodes gives the entry. *)
Lemma node_value : forall grid logr i g c v,
  (forall pts zs q, linear pts zs = Ok q -> forall j r a z, nth_error pts j = Some (Some r, a) -> nth_error zs j = Some z -> q (Some r, Some a) = Some z) ->
  nth_error grid i = Some (g, c) -> g <> (0, 0) -> (exists h d a b, In (h, d) grid /\ azimuth h b /\ azimuth g a /\ a < b) -> raw_values linear grid logr [g] [v] -> v = Some c.
Proof.
  intros grid logr i g c v EX G NZ (h & d & a & b & H & BH & AG & AB) RW. apply raw_iff in RW. destruct RW as (a0 & m & q & A0 & M & Q & V). injection V as ->. apply azimuth_iff in AG. apply azimuth_iff in BH.
  assert (RP : 0 < radius g). { rewrite radius_far. assert (far g <> 0) by (intros E; apply far0 in E; contradiction). assert (0 <= far g) by (rewrite <- radius_far; apply sqrt_pos). lra. }
  assert (SC : exists r, scale logr (radius g) = Some r) by (unfold scale, log10; destruct logr; [destruct (Rlt_dec 0 (radius g)); [eexists; reflexivity|contradiction]|eexists; reflexivity]). destruct SC as (r & SC).
  apply rmin_spec in A0. destruct A0 as (_ & A0). assert (IA : In a (azs_of grid)) by (rewrite AG; unfold azs_of; apply in_map_iff; exists (g, c); split; [reflexivity|apply nth_error_In in G; exact G]). assert (IB : In b (azs_of grid)) by (rewrite BH; unfold azs_of; apply in_map_iff; exists (h, d); split; [reflexivity|exact H]).
  pose proof (A0 a IA). apply rmax_spec in M. destruct M as (_ & M). pose proof (M (b - a0) (in_map (fun a => a - a0) _ _ IB)).
  assert (FO : pymod (a - a0) m = Some (a - a0)). { symmetry. apply folded_iff. split; [lra|]. intros MZ. exists 0%Z, (a - a0). split; [reflexivity|]. split; [ring|]. assert (MP : 0 < m) by lra. assert (MI := Rinv_0_lt_compat _ MP). unfold Rdiv. split; [apply Rmult_le_pos; lra|]. replace 1 with (m * / m) by (field; exact MZ). apply Rmult_lt_compat_r; lra. }
  rewrite <- AG, FO, SC. apply (EX _ _ q Q i r (a - a0) c); [|rewrite nth_error_map, G; reflexivity]. apply combine_nth_in; [rewrite !nth_error_map, G; cbn [option_map fst]; f_equal; exact SC|]. unfold azs_of. rewrite !nth_error_map, G. cbn [option_map fst snd]. rewrite <- AG. reflexivity.
Qed.
(** Targets a range of azimuths apart, at the same distance, have the same value. *)
Lemma folded_targets : forall grid logr t u v w azs a0 a m, Forall2 (fun g a => azimuth (fst g) a) grid azs -> least_of azs a0 -> most_of azs (a0 + m) -> azimuth t a -> azimuth u (a + m) -> far t = far u -> raw_values linear grid logr [t; u] [v; w] -> v = w.
Proof.
  intros grid logr t u v w azs a0 a m AZ LO HI AT AU FA RW. assert (E : azs = azs_of grid) by (apply (f2_map _ _ _ (fun g => arctan2 (snd (fst g)) (fst (fst g))) (fun g a => azimuth_iff (fst g) a)); exact AZ). subst azs. apply raw_iff in RW. destruct RW as (a0' & m' & q & A0 & M & Q & V). apply rmin_iff in LO. rewrite LO in A0. injection A0 as <-. apply rmax_iff in M. apply most_shift in M. destruct HI as (HI1 & HI2). destruct M as (M1 & M2).
  assert (m' = m) by (pose proof (HI2 _ M1); pose proof (M2 _ HI1); lra). subst m'. cbn [map] in V. apply azimuth_iff in AT. apply azimuth_iff in AU. rewrite <- AT, <- AU, !radius_far, FA in V. replace (pymod (a + m - a0) m) with (pymod (a - a0) m) in V; [congruence|]. symmetry. symmetry. apply folded_iff. split; [intros ->; replace (a + 0 - a0) with (a - a0) by ring; symmetry; unfold pymod; destruct (Req_EM_T 0 0); [reflexivity|lra]|]. intros MZ.
  destruct (proj2 (folded_iff (a - a0) m _) eq_refl) as (_ & H). destruct (H MZ) as (k & b & E & F & B). exists (k + 1)%Z, b. split; [exact E|]. split; [rewrite plus_IZR; lra|exact B].
Qed.
End Interpolate.
