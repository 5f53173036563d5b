(** The measurement of companions. *)
From Coq Require Import List Arith Bool Reals ZArith String Lra Lia.
From Verif Require Import Base DqModel CombineModel FlatModel FluxModel FluxSpec FluxBandProofs FluxLawProofs FluxTopProofs NearModel NearSpec NearProofs NearFactsProofs CardModel CtModel CtSpec CtProofs CtLawProofs SortGroupProofs BendFitProofs CompModel CompSpec.
Import ListNotations.
Local Open Scope R_scope.

Lemma fitted_iff : forall gauss f w r, fit_peak gauss f w = Ok r <-> fitted gauss f w r.
Proof.
  intros gauss f w r. unfold fit_peak, fitted. split.
  - destruct (brightest f) as [p|] eqn:E; cbn [bind]; [|discriminate]. intros Q. exists p. split; [apply brightest_iff; assumption|exact Q].
  - intros (p & P & Q). apply brightest_iff in P. rewrite P. exact Q.
Qed.
Lemma argmax_from_ok : forall l pre b ib, nth_error pre ib = Some b -> best pre ib -> best (pre ++ l) (argmax_from b ib (List.length pre) l).
Proof.
  intros l. induction l as [|v l IH]; intros pre b ib N B; cbn [argmax_from]; [rewrite app_nil_r; assumption|].
  assert (LP : List.length (pre ++ [v]) = S (List.length pre)) by (rewrite app_length; cbn; lia).
  assert (NL : forall j x, nth_error (pre ++ [v]) j = Some x -> nth_error pre j = Some x \/ (j = List.length pre /\ x = v)).
  { intros j x H. destruct (Nat.lt_ge_cases j (List.length pre)) as [L|G]; [rewrite nth_error_app1 in H by assumption; auto|]. rewrite nth_error_app2 in H by assumption. destruct (j - List.length pre)%nat as [|k] eqn:E; [injection H as <-; right; split; [lia|reflexivity]|]. destruct k; discriminate. }
  assert (IL : (ib < List.length pre)%nat) by (apply nth_error_Some; congruence).
  replace (pre ++ v :: l) with ((pre ++ [v]) ++ l) by (rewrite <- app_assoc; reflexivity). rewrite <- LP. destruct (over b v) eqn:O.
  - apply IH; [rewrite nth_error_app2, Nat.sub_diag by lia; reflexivity|]. destruct B as [(N' & _)|(w & N' & H)]; [rewrite N in N'; injection N' as ->; discriminate|]. rewrite N in N'. injection N' as ->. destruct v as [v|].
    + cbn in O. destruct (Rlt_dec w v) as [L|]; [|discriminate]. right. exists v. split; [rewrite nth_error_app2, Nat.sub_diag by lia; reflexivity|]. intros j x J. destruct (NL j x J) as [J'|(-> & ->)].
      * destruct (H j x J') as (u & -> & U & _). exists u. split; [reflexivity|]. split; lra.
      * exists v. split; [reflexivity|]. split; [lra|lia].
    + left. split; [rewrite nth_error_app2, Nat.sub_diag by lia; reflexivity|]. intros j J Q. rewrite nth_error_app1 in Q by assumption. destruct (H j None Q) as (u & U & _). discriminate.
  - apply IH; [rewrite nth_error_app1 by assumption; assumption|]. destruct B as [(N' & H)|(w & N' & H)].
    + left. split; [rewrite nth_error_app1 by assumption; assumption|]. intros j J. rewrite nth_error_app1 by lia. auto.
    + rewrite N in N'. injection N' as ->. destruct v as [v|]; [|discriminate]. cbn in O. destruct (Rlt_dec w v) as [|L]; [discriminate|]. right. exists w. split; [rewrite nth_error_app1 by assumption; assumption|]. intros j x J. destruct (NL j x J) as [J'|(-> & ->)]; [exact (H j x J')|]. exists v. split; [reflexivity|]. split; [lra|lia].
Qed.
Lemma best_unique : forall l i j, best l i -> best l j -> i = j.
Proof.
  intros l i j [(N & F)|(v & N & H)] [(N' & F')|(w & N' & H')].
  - destruct (Nat.lt_trichotomy i j) as [L|[->|L]]; [destruct (F' i L N)|reflexivity|destruct (F j L N')].
  - destruct (H' i None N) as (u & U & _). discriminate.
  - destruct (H j None N') as (u & U & _). discriminate.
  - destruct (H j _ N') as (u & U & A & A'), (H' i _ N) as (u' & U' & B & B'). injection U as <-. injection U' as <-. destruct (Nat.lt_trichotomy i j) as [L|[->|L]]; [apply B' in L; lra|reflexivity|apply A' in L; lra].
Qed.
Lemma argmax_iff : forall l i, argmax l = Ok i <-> best l i.
Proof.
  intros l i. destruct l as [|v l].
  - split; [discriminate|]. intros [(N & _)|(w & N & _)]; destruct i; discriminate.
  - cbn [argmax]. assert (B : best (v :: l) (argmax_from v 0 1 l)).
    { apply (argmax_from_ok l [v] v 0%nat); [reflexivity|]. destruct v as [v|]; [right; exists v; split; [reflexivity|]|left; split; [reflexivity|intros j J; lia]]. intros [|[|j]] x J; [injection J as <-; exists v; split; [reflexivity|]; split; [lra|lia]|discriminate|discriminate]. }
    split; [intros Q; injection Q as <-; assumption|intros B'; f_equal; eapply best_unique; eassumption].
Qed.
Lemma scale_iff : forall gauss od s c k, host_scale gauss od s = Ok (c, k) <-> scale_of gauss od s c k.
Proof.
  intros gauss od s c k. unfold host_scale, scale_of. split.
  - destruct (fit_peak gauss (s_host s) (Some 3)) as [h|] eqn:E1; cbn [bind]; [|discriminate]. destruct (argmax (s_ct s)) as [i|] eqn:E2; cbn [bind]; [|discriminate]. destruct (nth_error (s_cube s) i) as [f|] eqn:E3; cbn [bind]; [|discriminate]. destruct (fit_peak gauss f (Some 3)) as [c'|] eqn:E4; cbn [bind]; [|discriminate]. intros Q. injection Q as <- <-.
    exists h, (match od with Some d => vdiv (f_peak h) (d (f_x h) (f_y h)) | None => f_peak h end), i, f. split; [apply fitted_iff; assumption|]. split; [unfold unfiltered; destruct od as [d|]; [right; exists d; split; reflexivity|left; auto]|]. split; [apply argmax_iff; assumption|]. split; [assumption|]. split; [apply fitted_iff; assumption|reflexivity].
  - intros (h & v & i & f & F & U & B & C & FC & ->). apply fitted_iff in F, FC. apply argmax_iff in B. rewrite F. cbn [bind]. rewrite B. cbn [bind]. rewrite C. cbn [bind]. rewrite FC. cbn [bind]. do 2 f_equal. destruct U as [(-> & ->)|(d & -> & ->)]; reflexivity.
Qed.
Lemma angle_xy : forall sep pa, sep * cos ((pa + 90) * PI / 180) = - (sep * sin (in_degrees pa)) /\ sep * sin ((pa + 90) * PI / 180) = sep * cos (in_degrees pa).
Proof.
  intros sep pa. unfold in_degrees. replace ((pa + 90) * PI / 180) with (PI / 2 + pa * PI / 180) by lra. rewrite <- cos_sin. rewrite cos_plus, cos_PI2, sin_PI2. split; lra.
Qed.
Lemma candidates_iff : forall star l i r, candidates_from star i l = Ok r <->
  List.length r = List.length l /\ forall k sep pa, nth_error l k = Some (sep, pa) -> exists xs ys, star = (Some xs, Some ys) /\ nth_error r k = Some (mkcomp (Index (i + k)) (xs - sep * sin (in_degrees pa)) (ys + sep * cos (in_degrees pa))).
Proof.
  intros star l. induction l as [|(sep, pa) l IH]; intros i r; cbn [candidates_from].
  - split; [intros Q; injection Q as <-; split; [reflexivity|intros [|k] ? ? H; discriminate]|]. intros (L & _). destruct r; [reflexivity|discriminate].
  - destruct star as (ox, oy). cbn [fst snd]. split.
    + destruct ox as [xs|]; cbn [need bind]; [|discriminate]. destruct oy as [ys|]; cbn [need bind]; [|discriminate]. destruct (candidates_from (Some xs, Some ys) (S i) l) as [r'|] eqn:E; cbn [bind]; [|discriminate]. intros Q. injection Q as <-. apply IH in E. destruct E as (L & H). split; [cbn; lia|]. intros [|k] sep' pa' N.
      * injection N as <- <-. exists xs, ys. split; [reflexivity|]. cbn [nth_error]. unfold candidate. cbn [fst snd]. destruct (angle_xy sep pa) as (A & B). rewrite A, B, Nat.add_0_r. reflexivity.
      * cbn [nth_error] in N |- *. destruct (H k sep' pa' N) as (xs' & ys' & E & N'). exists xs', ys'. split; [assumption|]. rewrite N'. do 3 f_equal. lia.
    + intros (L & H). destruct (H 0%nat sep pa eq_refl) as (xs & ys & E & N). injection E as -> ->. cbn [need bind]. destruct r as [|c r]; [discriminate|]. injection N as ->. assert (E : candidates_from (Some xs, Some ys) (S i) l = Ok r).
      { apply IH. split; [cbn in L; lia|]. intros k sep' pa' N. destruct (H (S k) sep' pa' N) as (xs' & ys' & E & N'). exists xs', ys'. split; [assumption|]. cbn [nth_error] in N'. rewrite N'. do 3 f_equal. lia. }
      rewrite E. cbn [bind]. unfold candidate. cbn [fst snd]. destruct (angle_xy sep pa) as (A & B). rewrite A, B, Nat.add_0_r. reflexivity.
Qed.
Lemma listed_iff : forall s cand l, companions s cand = Ok l <-> listed s cand l.
Proof.
  intros s cand l. unfold companions, listed. destruct cand as [cs|].
  - rewrite candidates_iff. split.
    + intros (L & H). right. exists cs. split; [reflexivity|]. split; [assumption|]. intros i sep pa N. destruct (H i sep pa N) as (xs & ys & E & N'). exists xs, ys. auto.
    + intros [(Q & _)|(cs' & Q & L & H)]; [discriminate|]. injection Q as <-. split; [assumption|]. intros k sep pa N. destruct (H k sep pa N) as (xs & ys & E & N'). exists xs, ys. auto.
  - assert (M : forall q m, Forall2 (fun (a : string * R * R) (c : comp) => c = mkcomp (Card (fst (fst a))) (snd a) (snd (fst a))) q m <-> m = map (fun q => mkcomp (Card (fst (fst q))) (snd q) (snd (fst q))) q).
    { intros q. induction q as [|a q IH]; intros m; cbn [map]; split; [intros H; inversion H; reflexivity|intros ->; constructor|intros H; inversion H as [|? c ? m' H1 H2]; subst; f_equal; apply IH; assumption|intros ->; constructor; [reflexivity|apply IH; reflexivity]]. }
    split.
    + destruct (parse_companions (s_header s)) as [q|] eqn:E; cbn [bind]; [|discriminate]. intros Q. injection Q as <-. left. split; [reflexivity|]. exists q. split; [reflexivity|]. apply M. reflexivity.
    + intros [(_ & q & E & F)|(cs & Q & _)]; [|discriminate]. rewrite E. cbn [bind]. apply M in F. subst. reflexivity.
Qed.
Lemma axis_iff : forall n z k, axis n z = Ok k <-> axis_names n z k.
Proof.
  intros n z k. unfold axis, axis_names. destruct ((0 <=? z) && (z <? Z.of_nat n))%Z eqn:E.
  - apply andb_true_iff in E. rewrite Z.leb_le, Z.ltb_lt in E. split; [intros Q; injection Q as <-; lia|]. intros (L & H). f_equal. lia.
  - apply andb_false_iff in E. rewrite Z.leb_gt, Z.ltb_ge in E. destruct ((- Z.of_nat n <=? z) && (z <? 0))%Z eqn:E'.
    + apply andb_true_iff in E'. rewrite Z.leb_le, Z.ltb_lt in E'. split; [intros Q; injection Q as <-; lia|]. intros (L & H). f_equal. lia.
    + apply andb_false_iff in E'. rewrite Z.leb_gt, Z.ltb_ge in E'. split; [discriminate|lia].
Qed.
Lemma interp_at_iff : forall seps row x t, increasing seps -> List.length row = List.length seps -> (interp_at seps row x = Ok t <-> thru_at seps row x t).
Proof.
  intros seps row x t I L. unfold interp_at, thru_at. assert (J := inc_comb seps row I L). destruct seps as [|a seps]; [split; [discriminate|intros (N & _); destruct (N eq_refl)]|]. destruct row as [|b row]; [discriminate|]. cbn [combine] in *. split.
  - intros Q. injection Q as <-. split; [discriminate|]. destruct x as [x|]; cbn [option_map]; [|reflexivity]. eexists. split; [reflexivity|]. apply interp_iff; [exact J|reflexivity].
  - intros (_ & H). f_equal. destruct x as [x|]; [|symmetry; exact H]. destruct H as (y & -> & H). apply interp_iff in H; [|exact J]. subst. reflexivity.
Qed.
Lemma away_iff : forall x y xs ys d, d = vsqrt (vadd (vsq (vsub x (Some xs))) (vsq (vsub y (Some ys)))) <-> away x y xs ys d.
Proof.
  intros [x|] [y|] xs ys d; unfold away; cbn; try reflexivity. destruct (Rle_dec 0 _) as [_|N].
  - replace ((x - xs) * (x - xs) + (y - ys) * (y - ys)) with ((x - xs) * ((x - xs) * 1) + (y - ys) * ((y - ys) * 1)) by ring. reflexivity.
  - exfalso. apply N. assert (A := Rle_0_sqr (x - xs)). assert (B := Rle_0_sqr (y - ys)). unfold Rsqr in *. lra.
Qed.
Lemma ln2_pos : 0 < ln 2. Proof. rewrite <- ln_1. apply ln_increasing; lra. Qed.
Lemma counts_iff : forall m n, n = vdiv (vdiv (vmul (vmul (Some PI) (f_peak m)) (vsq (f_fwhm m))) (Some 4)) (Some (ln 2)) <-> gaussian_counts m n.
Proof.
  intros m n. unfold gaussian_counts. destruct (f_peak m) as [p|]; [|reflexivity]. destruct (f_fwhm m) as [w|]; [|reflexivity]. assert (L := ln2_pos). unfold vdiv, vmul, vsq. cbn [vmul]. destruct (Req_EM_T 4 0) as [E|_]; [lra|]. destruct (Req_EM_T (ln 2) 0) as [E|_]; [lra|]. cbn [vmul]. replace (PI * p * (w * w) / 4 / ln 2) with (PI * p * w ^ 2 / (4 * ln 2)) by (field; lra). reflexivity.
Qed.
Lemma l4_iff : forall gauss s xs ys mode h c n r, thru_ok s -> (with_l4 gauss s xs ys mode h c = Ok (n, r) <-> l4_measured gauss s xs ys mode h c n r).
Proof.
  intros gauss s xs ys mode h c n r TO. unfold with_l4, l4_measured, pixel. split.
  - destruct (row_at (s_frames s) mode) as [f|] eqn:E1; cbn [bind]; [|discriminate]. destruct (axis (rows f) (rint (p_y c))) as [iy|] eqn:E2; cbn [bind]; [|discriminate]. destruct (axis (cols f) (rint (p_x c))) as [ix|] eqn:E3; cbn [bind]; [|discriminate]. destruct (gauss f _ _ _ _) as [m|] eqn:E4; cbn [bind]; [|discriminate]. destruct (s_thru s) as [(seps, modes)|] eqn:E5; cbn [bind fst snd]; [|discriminate]. destruct (row_at modes mode) as [row|] eqn:E6; cbn [bind]; [|discriminate].
    destruct (interp_at seps row _) as [t|] eqn:E7; cbn [bind]; [|discriminate]. intros Q. injection Q as <- <-. destruct (TO seps modes E5) as (I & L). apply row_at_iff in E1, E6. assert (IR : In row modes) by (destruct E6 as [(k & _ & K)|(k & _ & K)]; apply nth_error_In in K; [assumption|apply in_rev; assumption]).
    exists f, (rint (p_y c)), (rint (p_x c)), iy, ix, m, (vsqrt (vadd (vsq (vsub (f_x m) (Some xs))) (vsq (vsub (f_y m) (Some ys))))), seps, modes, row, t. split; [assumption|]. split; [apply rint_rounds|]. split; [apply rint_rounds|]. split; [apply axis_iff; assumption|]. split; [apply axis_iff; assumption|]. split; [assumption|]. split; [apply away_iff; reflexivity|]. split; [apply counts_iff; reflexivity|]. split; [reflexivity|]. split; [assumption|]. split; [apply interp_at_iff; auto|reflexivity].
  - intros (f & zy & zx & iy & ix & m & d & seps & modes & row & t & F & RY & RX & AY & AX & G & D & N & T & R0 & TH & ->). apply (rounds_fun _ _ _ (rint_rounds (p_y c))) in RY. apply (rounds_fun _ _ _ (rint_rounds (p_x c))) in RX. subst zy zx. destruct (TO seps modes T) as (I & L). assert (IR : In row modes) by (destruct R0 as [(k & _ & K)|(k & _ & K)]; apply nth_error_In in K; [assumption|apply in_rev; assumption]).
    apply row_at_iff in F, R0. apply axis_iff in AY, AX. apply away_iff in D. apply counts_iff in N. apply interp_at_iff in TH; [|auto|auto]. rewrite F. cbn [bind]. rewrite AY. cbn [bind]. rewrite AX. cbn [bind]. rewrite G. cbn [bind]. rewrite T. cbn [bind fst snd]. rewrite R0. cbn [bind]. rewrite <- D, TH. cbn [bind]. rewrite <- N. reflexivity.
Qed.
Lemma kwargs_iff : forall m k, get_photometry_kwargs m = Ok k <-> default_kwargs m k.
Proof.
  intros m k. unfold get_photometry_kwargs, default_kwargs. destruct (String.eqb_spec m "gauss2d") as [->|N1]; [split; [intros Q; injection Q as <-; left; split; reflexivity|intros [(_ & ->)|(Q & _)]; [reflexivity|discriminate]]|].
  destruct (String.eqb_spec m "aperture") as [->|N2]; [split; [intros Q; injection Q as <-; right; split; reflexivity|intros [(Q & _)|(_ & ->)]; [discriminate|reflexivity]]|]. split; [discriminate|intros [(Q & _)|(Q & _)]; contradiction].
Qed.
Lemma counted_iff : forall aper gauss2d m k f p v, measure_counts aper gauss2d f m p k = Ok v <-> counted aper gauss2d m k f p v.
Proof.
  intros aper gauss2d m k f p v. unfold measure_counts, counted. destruct (String.eqb_spec m "gauss2d") as [->|N1]; [split; [auto|intros [(_ & Q)|(Q & _)]; [assumption|discriminate]]|].
  destruct (String.eqb_spec m "aperture") as [->|N2]; [split; [auto|intros [(Q & _)|(_ & Q)]; [discriminate|assumption]]|]. split; [discriminate|intros [(Q & _)|(Q & _)]; contradiction].
Qed.
Lemma plain_iff : forall aper gauss2d s mode m kws g c n r, without aper gauss2d s mode m kws g c = Ok (n, r) <-> plain_measured aper gauss2d s mode m kws g c n r.
Proof.
  intros aper gauss2d s mode m kws g c n r. unfold without, plain_measured. assert (K : forall k, match kws with [] => get_photometry_kwargs m | _ => Ok kws end = Ok k <-> (kws <> [] /\ k = kws) \/ (kws = [] /\ default_kwargs m k)).
  { intros k. destruct kws as [|a l]; [rewrite kwargs_iff; intuition congruence|]. split; [intros Q; injection Q as <-; left; split; [discriminate|reflexivity]|intros [(_ & ->)|(Q & _)]; [reflexivity|discriminate]]. }
  split.
  - destruct (match kws with [] => get_photometry_kwargs m | _ => Ok kws end) as [k|]; cbn [bind]; [|discriminate]. destruct (row_at (s_frames s) mode) as [f|] eqn:E1; cbn [bind]; [|discriminate]. destruct (measure_counts aper gauss2d f m _ k) as [a|] eqn:E2; cbn [bind]; [|discriminate]. destruct (measure_counts aper gauss2d g m None k) as [b|] eqn:E3; cbn [bind]; [|discriminate]. intros Q. injection Q as <- <-.
    exists k, f, b. split; [apply K; reflexivity|]. split; [apply row_at_iff; assumption|]. split; [apply counted_iff; assumption|]. split; [apply counted_iff; assumption|reflexivity].
  - intros (k & f & b & KK & F & A & B & ->). apply K in KK. rewrite KK. cbn [bind]. apply row_at_iff in F. rewrite F. cbn [bind]. apply counted_iff in A, B. rewrite A. cbn [bind]. rewrite B. reflexivity.
Qed.
Lemma ln10_pos : 0 < ln 10. Proof. rewrite <- ln_1. apply ln_increasing; lra. Qed.
Lemma log_iff : forall a b, b = log10 a <-> log_of a b.
Proof.
  assert (P := ln10_pos). intros [x|] b; unfold log10, log_of; [|reflexivity]. destruct (Rlt_dec 0 x) as [L|L].
  - split; [intros ->; left; split; [assumption|]; exists (ln x / ln 10); split; [reflexivity|]; replace (ln x / ln 10 * ln 10) with (ln x) by (field; lra); apply exp_ln; assumption|]. intros [(_ & y & -> & E)|(L' & _)]; [|lra]. f_equal. rewrite <- E, ln_exp. field. lra.
  - split; [intros ->; right; split; [lra|reflexivity]|]. intros [(L' & _)|(_ & ->)]; [lra|reflexivity].
Qed.
