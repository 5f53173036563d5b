From Coq Require Import List Arith Bool QArith ZArith String Reals Qreals Lqa Lra Lia.
From Verif Require Import Base DqModel DarkModel PcModel PcSpec PcMathProofs PcProofs PcBinProofs PcRunProofs PcTopProofs PcFactsProofs.
Import ListNotations.

(** consequences read off the outcome *)
Lemma run_bin : forall niter safemode mode mask dark tf mx bin_size fs out, run_spec niter safemode mode mask dark tf mx bin_size fs out ->
  forall o, (match out with PcImages l => In o (map fst l) | PcDark l _ _ _ => In o l end) -> exists i c, bin_spec niter safemode mode mask dark tf mx i c o.
Proof.
  intros niter safemode mode mask dark tf mx bin_size fs out (b & cs & os & _ & _ & _ & _ & LO & SP & OUT) o I.
  assert (IO : In o os). { destruct OUT as [(_ & ->)|(_ & pre & o2 & _ & ->)]; [|exact I]. rewrite in_map_iff in I. destruct I as ([o' c'] & <- & I). exact (in_combine_l _ _ _ _ I). }
  apply In_nth_error in IO. destruct IO as [i Ei]. assert (J : (i < List.length cs)%nat) by (rewrite <- LO; apply nth_error_Some; congruence). destruct (nth_error cs i) as [c|] eqn:Ec; [|apply nth_error_None in Ec; lia]. exists i, c. exact (SP i c o Ec Ei).
Qed.
Lemma bin_mean_nonneg : forall niter safemode mode mask dark tf mx i c o, bin_spec niter safemode mode mask dark tf mx i c o -> forall j x, nth_error (o_mean o) j = Some (Some x) -> (0 <= x)%R.
Proof.
  intros niter safemode mode mask dark tf mx i c o (f0 & npix & e & cg & kg & rn & vis & g & b & be & bq & H0 & FS & FV & AC & IS & RN & R0 & TH & T0 & GN & GZ & SM & SH & CT & ML & DF & L1 & L2 & L3 & PX & _) j x E.
  destruct (dark_lens _ _ _ _ _ _ _ _ DF) as (M1 & M2 & M3). assert (J : (j < npix)%nat) by (rewrite <- L1; apply nth_error_Some; congruence).
  destruct (nth_some _ b j (eq_ind_r (fun z => (j < z)%nat) J M1)) as (y & Y1). destruct (nth_some _ be j (eq_ind_r (fun z => (j < z)%nat) J M2)) as (ye & Y2). destruct (nth_some _ bq j (eq_ind_r (fun z => (j < z)%nat) J M3)) as (yq & Y3).
  destruct (PX _ _ _ _ Y1 Y2 Y3) as (m & s & q & Em & _ & _ & (k & ku & kl & n & d & du & dl & v & vu & vl & u & _ & _ & _ & _ & _ & _ & _ & LD & _)). rewrite E in Em. injection Em as <-.
  destruct LD as [[_ X]|(z & _ & X)]; [discriminate X|]. injection X as ->. apply Rmax_l.
Qed.
Lemma bin_flag : forall niter safemode mode mask dark tf mx i c o, bin_spec niter safemode mode mask dark tf mx i c o -> forall j q, nth_error (o_dq o) j = Some q ->
  exists dqd, (dark = None -> dqd = 0%Z)
    /\ (q = Z.lor 1 dqd /\ (forall f, In f c -> exists s, nth_error (pf_dq f) j = Some s /\ s <> 0%Z) \/ q = dqd /\ exists f, In f c /\ nth_error (pf_dq f) j = Some 0%Z).
Proof.
  intros niter safemode mode mask dark tf mx i c o (f0 & npix & e & cg & kg & rn & vis & g & b & be & bq & H0 & FS & FV & AC & IS & RN & R0 & TH & T0 & GN & GZ & SM & SH & CT & ML & DF & L1 & L2 & L3 & PX & _) j q E.
  destruct (dark_lens _ _ _ _ _ _ _ _ DF) as (M1 & M2 & M3). assert (J : (j < npix)%nat) by (rewrite <- L3; apply nth_error_Some; congruence).
  destruct (nth_some _ b j (eq_ind_r (fun z => (j < z)%nat) J M1)) as (y & Y1). destruct (nth_some _ be j (eq_ind_r (fun z => (j < z)%nat) J M2)) as (ye & Y2). destruct (nth_some _ bq j (eq_ind_r (fun z => (j < z)%nat) J M3)) as (yq & Y3).
  destruct (PX _ _ _ _ Y1 Y2 Y3) as (m & s & q' & _ & _ & Eq & (k & ku & kl & n & d & du & dl & v & vu & vl & u & T & _ & _ & _ & _ & _ & _ & _ & _ & _ & QQ)). rewrite E in Eq. injection Eq as <-.
  exists yq. split; [intros D; destruct DF as [_|d0 t0 n0 a0 e0 q0 D1 _]; [|congruence]; apply nth_error_In, repeat_spec in Y3; exact Y3|]. assert (TN := tally_none _ _ _ _ _ T). destruct (Z.eqb_spec n 0) as [N0|N0].
  - left. split; [exact QQ|]. apply TN. exact N0.
  - right. split; [rewrite QQ; apply Z.lor_0_l|]. clear - T N0. induction T as [|f l k n q E1 E2 H IH|f l k n E1 E2 H IH|f l k n E1 E2 H IH]; [lia| | |].
    + destruct (IH N0) as (f' & I & X). exists f'. split; [right; exact I|exact X].
    + exists f. split; [left; reflexivity|exact E1].
    + exists f. split; [left; reflexivity|exact E1].
Qed.

(** * Example: one bright pixel in one frame, threshold 0 *)
Definition ex_f (n : string) (d : Q) (q : Z) : pframe :=
  mkpf n [] (Some 1%Q) (Some 5000%Q) (Some 7%Q) (Some 100%Q) (Some "CGIVST_TDD_OBS"%string) (Some true) None (Some 5000%Q) [Some d] [Some 0%Q] [q].
Lemma ex_est : exists d, estimate 1 0 1 1 d d /\ (0 <= d)%R.
Proof.
  assert (D0 := Dn_pos 1 ltac:(Lra.lra)). assert (DV := excess_derive (IZR 1) (IZR 1) 0 1 1 ltac:(Lra.lra) ltac:(Lra.lra)). replace (0 / 1)%R with 0%R in DV by field. assert (DP := dfunc_pos (IZR 1) 0 1 1 ltac:(Lra.lra) ltac:(Lra.lra) ltac:(Lra.lra) ltac:(Lra.lra)).
  exists (1 - excess (IZR 1) (IZR 1) 0 1 / calc_dfunc (IZR 1) 0 1 1)%R. split.
  - apply (es_fit _ _ _ _ 1%R); [lia|right; rewrite Ropp_0, exp_0; split; [Lra.lra|field]|]. apply (f_step _ 0 1%R (calc_dfunc (IZR 1) 0 1 1)); [apply weight_nz; Lra.lra|exact DV|Lra.lra|constructor].
  - assert (B := detect_below 0 1 ltac:(Lra.lra) ltac:(Lra.lra)). assert (B2 := tail_le_1 0 ltac:(Lra.lra)). unfold excess. set (l := calc_dfunc (IZR 1) 0 1 1) in *.
    assert (0 <= (1 - detect 0 1) / l)%R by (apply Rmult_le_pos; [Lra.lra|left; apply Rinv_0_lt_compat; exact DP]). replace (1 - (IZR 1 * detect 0 1 - IZR 1) / l)%R with (1 + (1 - detect 0 1) / l)%R by (field; Lra.lra). Lra.lra.
Qed.
Definition ex_u (d : R) : R := Rmax (d + pc_var 0 (IZR 1) d - d) (d - (d - pc_var 0 (IZR 1) d)).
Definition ex_o (d : R) : pout := mkpo [Some (Rmax 0 (d - 0))] [Some (sqrt (ex_u d ^ 2 + 0 ^ 2))] [0%Z] (0 * 100)%Q (ex_f "a" 5 0).
Lemma ex_run : exists d, run_spec 1 true "illuminated" None None 0 1 None [ex_f "a" 5 0] (PcImages [(ex_o d, [ex_f "a" 5 0])]) /\ estimate 1 0 1 1 d d.
Proof.
  destruct ex_est as (d & ES & DP). exists d. split; [|exact ES]. exists 1%nat, [[ex_f "a" 5 0]], [ex_o d]. split; [lia|]. split; [right; split; reflexivity|]. split; [cbn; lia|]. split.
  { apply (b_more 1 [ex_f "a" 5 0] [] []); [reflexivity|]. constructor. cbn. lia. }
  split; [reflexivity|]. split; [|left; split; reflexivity]. intros [|i] c o X Y; [|destruct i; discriminate X]. injection X as <-. injection Y as <-.
  exists (ex_f "a" 5 0), 1%nat, 1%Q, 5000%Q, 7%Q, 100%Q, "CGIVST_TDD_OBS"%string, 5000%Q, [Some 0%R], [Some 0%R], [0%Z]. split; [reflexivity|].
  split. { constructor; [|constructor]. split; [exists 1%Q; split; reflexivity|]. split; [exists 5000%Q; split; reflexivity|]. split; [exists 7%Q; split; reflexivity|exists 100%Q; split; reflexivity]. }
  split; [constructor; [reflexivity|constructor]|]. split; [right; split; [discriminate|reflexivity]|]. split; [discriminate|]. split; [reflexivity|]. split; [reflexivity|]. split; [reflexivity|]. split; [discriminate|].
  split; [apply g_appl; reflexivity|]. split; [discriminate|]. split; [intros _; split; [reflexivity|intros _; discriminate]|]. split; [constructor; [repeat split; reflexivity|constructor]|]. split; [exists 0%nat; cbn; lia|]. split; [discriminate|]. split; [exact (df_none None 0 1 _ 1 eq_refl)|].
  split; [reflexivity|]. split; [reflexivity|]. split; [reflexivity|]. split; [|exists []; reflexivity].
  intros [|j] y ye yq A B C0; [|destruct j; discriminate A]. injection A as <-. injection B as <-. injection C0 as <-. exists (Some (Rmax 0 (d - 0))), (Some (sqrt (ex_u d ^ 2 + 0 ^ 2))), 0%Z. split; [reflexivity|]. split; [reflexivity|]. split; [reflexivity|].
  assert (X0 : (Q2R (0 * 100) / Q2R 5000)%R = 0%R) by (unfold Q2R; cbn; field). rewrite X0.
  exists 1%Z, 1%Z, 1%Z, 1%Z, d, d, d, d, d, d, (Some (ex_u d)).
  split; [apply (t_above _ 0 _ [] 0 0); [reflexivity|exists 5%Q; split; reflexivity|constructor]|]. split; [apply (t_above _ 0 _ [] 0 0); [reflexivity|exists 5%Q, 0%Q; split; [reflexivity|split; reflexivity]|constructor]|]. split; [apply (t_above _ 0 _ [] 0 0); [reflexivity|exists 5%Q, 0%Q; split; [reflexivity|split; reflexivity]|constructor]|].
  split; [exact ES|]. split; [exact ES|]. split; [exact ES|]. split; [auto|]. split; [right; exists 0%R; split; reflexivity|]. split; [|split; [right; exists (ex_u d), 0%R; split; [reflexivity|split; reflexivity]|reflexivity]].
  assert (DN := Dn_pos d DP). destruct (detect_below 0 d ltac:(Lra.lra) DP) as [B1 B2]. assert (B3 := tail_le_1 0 ltac:(Lra.lra)). apply u_some; [discriminate|apply weight_nz; Lra.lra|apply Rmult_le_pos; Lra.lra].
Qed.
(** the variance at rate 1, threshold 0, one frame *)
Lemma ex_var : (0 < pc_var 0 1 1 < 1)%R.
Proof.
  assert (E : detect 0 1 = (5 / 8)%R) by (rewrite detect_rat by (unfold Dn; Lra.lra); rewrite Ropp_0, exp_0; unfold Nn, Dn; field).
  unfold pc_var, dinv3. rewrite E, !Rmult_0_r, exp_0. split; Lra.lra.
Qed.
Lemma negative_raises : forall niter safemode mode mask dark tf mx fs f0 rn g j k n d v,
  hd_error fs = Some f0 -> pf_rn f0 = Some rn -> gain_is f0 g -> considers mask (List.length (pf_data f0)) j ->
  tally (brighter (tf * rn)) j fs k n -> estimate niter (Q2R (tf * rn) / Q2R g)%R k n d v -> (d < 0)%R ->
  exists e, get_pc_mean niter safemode mode mask dark tf mx None fs = Raise e.
Proof.
  intros niter safemode mode mask dark tf mx fs f0 rn g j k n d v H0 RN GN CJ TA ES DN. destruct (get_pc_mean niter safemode mode mask dark tf mx None fs) as [out|e] eqn:E; [|exists e; reflexivity]. exfalso.
  apply run_iff in E. destruct E as (b & cs & os & _ & [BS|[_ ->]] & BL & BI & LO & SP & _); [discriminate BS|]. 
  inversion BI as [l L EQ|c rest cs' L BI' EQ]; subst; [lia|].
  assert (rest = []) by (rewrite app_length in L; destruct rest; [reflexivity|cbn in L; lia]). subst rest. rewrite app_nil_r in *. destruct os as [|o os]; [discriminate LO|].
  destruct (SP 0%nat c o eq_refl eq_refl) as (f0' & npix & e & cg & kg & rn' & vis & g' & b & be & bq & H0' & FS & FV & AC & IS & RN' & R0 & TH & T0 & GN' & GZ & SM & SH & CT & ML & DF & L1 & L2 & L3 & PX & _).
  rewrite H0 in H0'. injection H0' as <-. rewrite RN in RN'. injection RN' as <-. assert (X := gain_unique _ _ _ GN GN'). subst g'.
  assert (NP : List.length (pf_data f0) = npix). { destruct c as [|f c]; [discriminate H0|]. injection H0 as ->. apply Forall_inv in SH. apply SH. }
  destruct (dark_lens _ _ _ _ _ _ _ _ DF) as (M1 & M2 & M3).
  assert (J : (j < npix)%nat). { unfold considers in CJ. destruct mask as [m|]; [|lia]. rewrite <- (ML m eq_refl). apply nth_error_Some. congruence. }
  destruct (nth_some _ b j (eq_ind_r (fun z => (j < z)%nat) J M1)) as (y & Y1). destruct (nth_some _ be j (eq_ind_r (fun z => (j < z)%nat) J M2)) as (ye & Y2). destruct (nth_some _ bq j (eq_ind_r (fun z => (j < z)%nat) J M3)) as (yq & Y3).
  destruct (PX _ _ _ _ Y1 Y2 Y3) as (m & s & q & _ & _ & _ & (k' & ku & kl & n' & d' & du & dl & v' & vu & vl & u & T & _ & _ & ES' & _ & _ & NN & _)). destruct (tally_unique _ _ _ _ _ _ _ TA T) as [<- <-].
  destruct (estimate_unique _ _ _ _ _ _ _ _ ES ES') as [<- _]. rewrite NP in CJ. destruct (NN CJ) as (D0 & _). Lra.lra.
Qed.
Lemma error_is_variance : forall x n m e, (0 <= x)%R -> (0 <= m)%R -> (0 < n)%Z -> uncertainty x n m m m e -> e = Some (pc_var x (IZR n) m).
Proof.
  intros x n m e X M N U. rewrite (uncertainty_defined x n m m m e X M ltac:(lia) U). f_equal. unfold Rmax. destruct (Rle_dec _ _); Lra.lra.
Qed.
Lemma below_sqrt : forall v, (0 < v < 1)%R -> (v < sqrt v)%R.
Proof. intros v H. assert (P := sqrt_lt_R0 v ltac:(Lra.lra)). assert (S0 := sqrt_sqrt v ltac:(Lra.lra)). assert (sqrt v < 1)%R by (rewrite <- sqrt_1; apply sqrt_lt_1; Lra.lra). nra. Qed.
