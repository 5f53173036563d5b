(** The measurement of companions: brightness of the stars, neutral density, zero points. *)
From Coq Require Import List Arith Bool Reals ZArith String Lra Lia.
From Verif Require Import Base DqModel CombineModel FlatModel FluxModel FluxSpec NearModel NearSpec CardModel CtModel CtSpec CtProofs CtLawProofs CompModel CompSpec CompProofs CompMainProofs.
Import ListNotations.
Local Open Scope R_scope.

Definition scaled (q : R) (r : fit) : fit := mkfit (option_map (Rmult q) (f_peak r)) (f_fwhm r) (f_x r) (f_y r).
Lemma fitted_brighter : forall gauss q f g w r, homogeneous gauss -> 0 < q -> brighter q f g -> fitted gauss f w r -> fitted gauss g w (scaled q r).
Proof.
  intros gauss q f g w r H Q B (p & P & G). exists p. split; [exact (brighter_peak q f g p Q B P)|]. destruct B as (BR & BC & BV). rewrite (BV p). apply (H q f g); [assumption|split; [assumption|split; assumption]|assumption].
Qed.
Lemma quot_times_l : forall q a b, quot (option_map (Rmult q) a) b = option_map (Rmult q) (quot a b).
Proof. intros q [a|] [b|]; cbn; try reflexivity. destruct (Req_EM_T b 0); [reflexivity|]. cbn. f_equal. field. assumption. Qed.
Lemma quot_times_r : forall q a b, 0 < q -> quot a (option_map (Rmult q) b) = option_map (fun r => r / q) (quot a b).
Proof. intros q [a|] [b|] Q; cbn; try reflexivity. destruct (Req_EM_T b 0) as [->|N], (Req_EM_T (q * _) 0) as [Z|Z]; try reflexivity; [exfalso; apply Z; ring|apply Rmult_integral in Z; lra|]. cbn. f_equal. field. lra. Qed.
Lemma volume_times : forall q a w, volume (option_map (Rmult q) a) w = option_map (Rmult q) (volume a w).
Proof. intros q [a|] [w|]; cbn; try reflexivity. f_equal. ring. Qed.
Lemma multiplied_brighter : forall q k p, brighter q (multiplied k p) (multiplied (option_map (Rmult q) k) p).
Proof. intros q k p. split; [reflexivity|]. split; [reflexivity|]. intros (r, c). unfold value_of. cbn. destruct (pix p r c), k; cbn; try reflexivity. f_equal. ring. Qed.
Lemma scale_brighter : forall gauss od s g q ct k, homogeneous gauss -> 0 < q -> brighter q (s_host s) g -> scale_of gauss od s ct k -> scale_of gauss od (with_host s g) ct (option_map (Rmult q) k).
Proof.
  intros gauss od s g q ct k H Q B (h & v & i & f & F & U & BE & C & FC & ->). exists (scaled q h), (option_map (Rmult q) v), i, f. split; [apply (fitted_brighter gauss q (s_host s)); assumption|]. split.
  - destruct U as [(-> & ->)|(d & -> & ->)]; [left; auto|]. right. exists d. split; [reflexivity|]. cbn [f_peak f_x f_y scaled]. symmetry. apply quot_times_l.
  - split; [exact BE|]. split; [exact C|]. split; [exact FC|]. cbn [f_fwhm scaled]. rewrite volume_times, quot_times_l. reflexivity.
Qed.
Lemma log_shift : forall q r l, 0 < q -> log_of r l -> log_of (option_map (fun r => r / q) r) (option_map (fun l => l - ln q / ln 10) l).
Proof.
  intros q [x|] l Q H; unfold log_of in *; cbn [option_map]; [|subst; reflexivity]. assert (P := ln10_pos). destruct H as [(L & y & -> & E)|(L & ->)].
  - left. split; [apply Rdiv_lt_0_compat; assumption|]. exists (y - ln q / ln 10). split; [reflexivity|]. replace ((y - ln q / ln 10) * ln 10) with (y * ln 10 + - ln q) by (field; lra). rewrite exp_plus, exp_Ropp, exp_ln, E by assumption. reflexivity.
  - right. split; [|reflexivity]. apply Rmult_le_reg_r with q; [assumption|]. replace (x / q * q) with x by (field; lra). lra.
Qed.
Lemma counted_brighter : forall aper gauss2d m k f g p v q, linear_meter aper -> linear_meter gauss2d -> 0 < q -> brighter q f g -> counted aper gauss2d m k f p v -> counted aper gauss2d m k g p (option_map (Rmult q) v).
Proof. intros aper gauss2d m k f g p v q LA LG Q B [(-> & C)|(-> & C)]; [left; split; [reflexivity|apply (LG q k f); assumption]|right; split; [reflexivity|apply (LA q k f); assumption]]. Qed.
(** A row for another scale, and for other PSFs that differ by a factor *)
Lemma measured_scaled : forall gauss psf_at psf_at' host_mag aper gauss2d s s' ct ct' k k' q thrp mode m kws calspec zp c row,
  homogeneous gauss -> linear_meter aper -> linear_meter gauss2d -> 0 < q ->
  s_star s' = s_star s -> s_frames s' = s_frames s -> s_thru s' = s_thru s -> f_fwhm ct' = f_fwhm ct ->
  (forall x y p, psf_at x y = Ok p -> exists p', psf_at' x y = Ok p' /\ brighter q (multiplied k p) (multiplied k' p')) ->
  measured gauss psf_at host_mag aper gauss2d s ct k thrp mode m kws calspec zp c row ->
  exists row', measured gauss psf_at' host_mag aper gauss2d s' ct' k' thrp mode m kws calspec zp c row' /\ fainter calspec q row row'.
Proof.
  intros gauss psf_at psf_at' host_mag aper gauss2d s s' ct ct' k k' q thrp mode m kws calspec zp c row H LA LG Q ES EF ET EW EP (xs & ys & p & h & S0 & P & F & M & MG & I & X & Y).
  destruct (EP _ _ _ P) as (p' & P' & B). set (mg := if calspec then option_map (fun m => m + 5 / 2 * (ln q / ln 10)) (r_mag row) else r_mag row). set (row' := mkrow (r_id row) (r_x row) (r_y row) (r_counts row) (option_map (fun r => r / q) (r_ratio row)) mg). exists row'. split; [|unfold fainter, row'; cbn [r_id r_x r_y r_counts r_ratio r_mag]; repeat (split; [reflexivity|]); reflexivity].
  exists xs, ys, p', (scaled q h). split; [congruence|]. split; [assumption|]. split; [rewrite EW; apply (fitted_brighter gauss q (multiplied k p)); assumption|]. split.
  - destruct M as [(-> & M)|(-> & M)]; [left|right]; (split; [reflexivity|]).
    + destruct M as (f & zy & zx & iy & ix & mm & d & seps & modes & r0 & t & A1 & A2 & A3 & A4 & A5 & A6 & A7 & A8 & A9 & A10 & A11 & E). exists f, zy, zx, iy, ix, mm, d, seps, modes, r0, t. rewrite EF, ET. cbn [f_fwhm f_peak scaled r_counts r_ratio row']. rewrite quot_times_r by assumption. rewrite <- E. intuition.
    + destruct M as (kk & f & b & A1 & A2 & A3 & A4 & E). exists kk, f, (option_map (Rmult q) b). rewrite EF. cbn [r_counts r_ratio row']. rewrite quot_times_r by assumption. rewrite <- E. split; [assumption|]. split; [assumption|]. split; [assumption|]. split; [|reflexivity]. apply (counted_brighter aper gauss2d m kk (multiplied k p)); assumption.
  - cbn [r_id r_x r_y r_counts r_ratio r_mag row']. split; [|auto]. unfold mg. destruct MG as [(-> & hm & l & HM & L & E)|(-> & z & l & Z & L & E)].
    + left. split; [reflexivity|]. exists hm, (option_map (fun l => l - ln q / ln 10) l). split; [assumption|]. split; [apply log_shift; assumption|]. rewrite E. destruct hm, l; cbn; try reflexivity. f_equal. lra.
    + right. split; [reflexivity|]. exists z, l. auto.
Qed.
Lemma measured_rows : forall gauss psf_at psf_at' host_mag aper gauss2d s s' ct ct' k k' q thrp mode m kws calspec zp l rows,
  homogeneous gauss -> linear_meter aper -> linear_meter gauss2d -> 0 < q ->
  s_star s' = s_star s -> s_frames s' = s_frames s -> s_thru s' = s_thru s -> f_fwhm ct' = f_fwhm ct ->
  (forall x y p, psf_at x y = Ok p -> exists p', psf_at' x y = Ok p' /\ brighter q (multiplied k p) (multiplied k' p')) ->
  Forall2 (measured gauss psf_at host_mag aper gauss2d s ct k thrp mode m kws calspec zp) l rows ->
  exists rows', Forall2 (measured gauss psf_at' host_mag aper gauss2d s' ct' k' thrp mode m kws calspec zp) l rows' /\ Forall2 (fainter calspec q) rows rows'.
Proof.
  intros gauss psf_at psf_at' host_mag aper gauss2d s s' ct ct' k k' q thrp mode m kws calspec zp l rs H LA LG Q ES EF ET EW EP F. induction F as [|c row l rs M F (rs' & A & B)]; [exists []; split; constructor|].
  destruct (measured_scaled _ _ psf_at' _ _ _ _ s' _ ct' _ k' q _ _ _ _ _ _ _ _ H LA LG Q ES EF ET EW EP M) as (row' & M' & FA). exists (row' :: rs'). split; constructor; assumption.
Qed.
Lemma listed_same : forall s s' cand l, s_star s' = s_star s -> s_header s' = s_header s -> listed s cand l -> listed s' cand l.
Proof. intros s s' cand l A B H. unfold listed. rewrite A, B. exact H. Qed.
Lemma host_law : forall gauss psf_at od host_mag aper gauss2d s g q thrp mode m kws calspec zp cand rows,
  homogeneous gauss -> linear_meter aper -> linear_meter gauss2d -> 0 < q -> thru_ok s -> brighter q (s_host s) g ->
  measure_companions gauss psf_at od host_mag aper gauss2d s thrp mode m kws calspec zp cand = Ok rows ->
  exists rows', measure_companions gauss psf_at od host_mag aper gauss2d (with_host s g) thrp mode m kws calspec zp cand = Ok rows' /\ Forall2 (fainter calspec q) rows rows'.
Proof.
  intros gauss psf_at od host_mag aper gauss2d s g q thrp mode m kws calspec zp cand rs H LA LG Q TO B E. apply companions_iff in E; [|assumption]. destruct E as (ct & k & l & S0 & L & F).
  destruct (measured_rows gauss psf_at psf_at host_mag aper gauss2d s (with_host s g) ct ct k (option_map (Rmult q) k) q thrp mode m kws calspec zp l rs) as (rs' & F' & FA); try assumption; try reflexivity.
  { intros x y p P. exists p. split; [assumption|apply multiplied_brighter]. }
  exists rs'. split; [|assumption]. apply companions_iff; [exact TO|]. exists ct, (option_map (Rmult q) k), l. split; [apply scale_brighter; assumption|]. split; [apply (listed_same s); auto|assumption].
Qed.
Lemma calibration_law : forall gauss psf_at psf_at' od host_mag aper gauss2d s cube q thrp mode m kws calspec zp cand rows,
  homogeneous gauss -> linear_meter aper -> linear_meter gauss2d -> 0 < q -> thru_ok s -> Forall2 (brighter q) (s_cube s) cube -> psfs_brighter q psf_at psf_at' ->
  measure_companions gauss psf_at od host_mag aper gauss2d s thrp mode m kws calspec zp cand = Ok rows ->
  measure_companions gauss psf_at' od host_mag aper gauss2d (with_cube s cube) thrp mode m kws calspec zp cand = Ok rows.
Proof.
  intros gauss psf_at psf_at' od host_mag aper gauss2d s cube q thrp mode m kws calspec zp cand rs H LA LG Q TO BC BP E. apply companions_iff in E; [|assumption]. destruct E as (ct & k & l & S0 & L & F).
  destruct S0 as (h & v & i & f & FH & U & BE & C & FC & EK). assert (NC : exists f', nth_error cube i = Some f' /\ brighter q f f').
  { clear - BC C. revert i C. induction BC as [|a b l l' AB BC IH]; intros [|i] C; cbn in C |- *; [discriminate|discriminate|injection C as <-; eauto|auto]. }
  destruct NC as (f' & C' & BF). set (k' := option_map (fun r => r / q) k).
  destruct (measured_rows gauss psf_at psf_at' host_mag aper gauss2d s (with_cube s cube) ct (scaled q ct) k k' 1 thrp mode m kws calspec zp l rs) as (rs' & F' & FA); try assumption; try reflexivity; try lra.
  { intros x y p P. destruct (BP x y p P) as (p' & P' & (BR & BCo & BV)). exists p'. split; [assumption|]. split; [exact BR|]. split; [exact BCo|]. intros (r, c). specialize (BV (r, c)). unfold value_of in *. cbn [fst snd pix multiplied] in *. rewrite BV. unfold k'. destruct (pix p r c), k; cbn; try reflexivity. f_equal. field. lra. }
  assert (EQ : rs' = rs).
  { clear - FA. induction FA as [|a b l l' (I & X & Y & N & RT & MG) FA IH]; [reflexivity|]. rewrite IH. f_equal. destruct a as [i1 x1 y1 n1 t1 g1], b as [i2 x2 y2 n2 t2 g2]. cbn [r_id r_x r_y r_counts r_ratio r_mag] in *. subst. f_equal; [destruct t1; cbn; [f_equal; field|reflexivity]|]. destruct calspec; [|reflexivity]. destruct g1; cbn; [|reflexivity]. f_equal. rewrite ln_1. unfold Rdiv. ring. }
  subst rs'. apply companions_iff; [exact TO|]. exists (scaled q ct), k', l. split; [|split; [apply (listed_same s); auto|assumption]].
  exists h, v, i, f'. split; [exact FH|]. split; [assumption|]. split; [exact BE|]. split; [exact C'|]. split; [apply (fitted_brighter gauss q f); assumption|]. cbn [f_peak f_fwhm scaled]. rewrite volume_times, quot_times_r by assumption. unfold k'. rewrite EK. reflexivity.
Qed.

(** ** A neutral density filter before the host star *)
Lemma nd_law : forall gauss psf_at host_mag aper gauss2d s g d thrp mode m kws calspec zp cand rows,
  homogeneous gauss -> linear_meter aper -> linear_meter gauss2d -> 0 < d -> thru_ok s -> brighter (Rpower 10 (- d)) (s_host s) g ->
  measure_companions gauss psf_at None host_mag aper gauss2d s thrp mode m kws calspec zp cand = Ok rows ->
  exists rows', measure_companions gauss psf_at (Some (fun _ _ => Some d)) host_mag aper gauss2d (with_host s g) thrp mode m kws calspec zp cand = Ok rows' /\ Forall2 (fainter calspec (Rpower 10 (- d) / d)) rows rows'.
Proof.
  intros gauss psf_at host_mag aper gauss2d s g d thrp mode m kws calspec zp cand rs H LA LG D TO B E. set (t := Rpower 10 (- d)) in *. assert (T : 0 < t) by (unfold t, Rpower; apply exp_pos). assert (TD : 0 < t / d) by (apply Rdiv_lt_0_compat; assumption).
  apply companions_iff in E; [|assumption]. destruct E as (ct & k & l & S0 & L & F).
  destruct (measured_rows gauss psf_at psf_at host_mag aper gauss2d s (with_host s g) ct ct k (option_map (Rmult (t / d)) k) (t / d) thrp mode m kws calspec zp l rs) as (rs' & F' & FA); try assumption; try reflexivity.
  { intros x y p P. exists p. split; [assumption|apply multiplied_brighter]. }
  exists rs'. split; [|assumption]. apply companions_iff; [exact TO|]. exists ct, (option_map (Rmult (t / d)) k), l. split; [|split; [apply (listed_same s); auto|assumption]].
  destruct S0 as (h & v & i & f & FH & U & BE & C & FC & ->). exists (scaled t h), (option_map (Rmult (t / d)) v), i, f. split; [apply (fitted_brighter gauss t (s_host s)); assumption|]. split.
  - right. eexists. split; [reflexivity|]. destruct U as [(_ & ->)|(d' & Q & _)]; [|discriminate]. cbn [f_peak scaled]. destruct (f_peak h); cbn; [|reflexivity]. destruct (Req_EM_T d 0); [lra|]. f_equal. field. lra.
  - split; [exact BE|]. split; [exact C|]. split; [exact FC|]. cbn [f_fwhm scaled]. rewrite volume_times, quot_times_l. reflexivity.
Qed.
Lemma nd_factor : forall d, 1 <= d -> Rpower 10 (- d) / d <= / 10.
Proof.
  intros d D. assert (P := ln10_pos). assert (R0 : Rpower 10 (- d) <= / 10). { rewrite Rpower_Ropp. apply Rinv_le_contravar; [lra|]. rewrite <- (Rpower_1 10) at 1 by lra. apply Rle_Rpower; lra. }
  apply Rmult_le_reg_r with d; [lra|]. unfold Rdiv. rewrite Rmult_assoc, Rinv_l, Rmult_1_r by lra. lra.
Qed.
Lemma nd_wrong : forall gauss psf_at host_mag aper gauss2d s g d thrp mode m kws calspec zp cand rows,
  homogeneous gauss -> linear_meter aper -> linear_meter gauss2d -> 1 <= d -> thru_ok s -> brighter (Rpower 10 (- d)) (s_host s) g ->
  measure_companions gauss psf_at None host_mag aper gauss2d s thrp mode m kws calspec zp cand = Ok rows ->
  exists rows', measure_companions gauss psf_at (Some (fun _ _ => Some d)) host_mag aper gauss2d (with_host s g) thrp mode m kws calspec zp cand = Ok rows' /\
    Forall2 (fun a b => match r_ratio a with Some r => exists r', r_ratio b = Some r' /\ r' = r * (d * Rpower 10 d) /\ (0 < r -> 10 * r <= r') | None => r_ratio b = None end) rows rows'.
Proof.
  intros gauss psf_at host_mag aper gauss2d s g d thrp mode m kws calspec zp cand rs H LA LG D TO B E. destruct (nd_law gauss psf_at host_mag aper gauss2d s g d thrp mode m kws calspec zp cand rs H LA LG ltac:(lra) TO B E) as (rs' & E' & F). exists rs'. split; [assumption|]. clear E E'. assert (PP : 0 < Rpower 10 d) by (unfold Rpower; apply exp_pos). assert (G : 10 <= Rpower 10 d) by (rewrite <- (Rpower_1 10) at 1 by lra; apply Rle_Rpower; lra).
  induction F as [|a b l l' FA F IH]; constructor; [|assumption]. destruct FA as (_ & _ & _ & _ & RT & _). rewrite RT. destruct (r_ratio a) as [r|]; cbn [option_map]; [|reflexivity]. eexists. split; [reflexivity|]. assert (EE : r / (Rpower 10 (- d) / d) = r * (d * Rpower 10 d)) by (rewrite Rpower_Ropp; field; lra). split; [exact EE|]. intros R0. rewrite EE. assert (10 <= d * Rpower 10 d) by nra. nra.
Qed.
Lemma no_zero_point : forall gauss psf_at od host_mag aper gauss2d s thrp mode m kws zp cand rows, thru_ok s -> (forall z, zp <> Some (Some z)) ->
  measure_companions gauss psf_at od host_mag aper gauss2d s thrp mode m kws false zp cand = Ok rows -> rows = [].
Proof.
  intros gauss psf_at od host_mag aper gauss2d s thrp mode m kws zp cand rs TO Z E. apply companions_iff in E; [|assumption]. destruct E as (ct & k & l & _ & _ & F). destruct F as [|c row l rs M F]; [reflexivity|]. exfalso. destruct M as (xs & ys & p & h & _ & _ & _ & _ & [(Q & _)|(_ & z & l0 & Q & _)] & _); [discriminate|destruct (Z z Q)].
Qed.
(** A companion [r] times as bright as its host star has the magnitude of the host star and [-5/2 log10 r]. *)
Lemma mag_law : forall gauss psf_at od host_mag aper gauss2d s thrp mode m kws zp cand rows row r x, thru_ok s ->
  measure_companions gauss psf_at od host_mag aper gauss2d s thrp mode m kws true zp cand = Ok rows -> In row rows -> r_ratio row = Some r -> r_mag row = Some x ->
  exists h, host_mag = Ok (Some h) /\ 0 < r /\ x = h - 5 / 2 * (ln r / ln 10).
Proof.
  intros gauss psf_at od host_mag aper gauss2d s thrp mode m kws zp cand rs row r x TO E I RR RM. apply companions_iff in E; [|assumption]. destruct E as (ct & k & l & _ & _ & F). clear - F I RR RM. induction F as [|c row' l rs M F IH]; [destruct I|]. destruct I as [->|I]; [|auto]. destruct M as (xs & ys & p & h & _ & _ & _ & _ & MG & _).
  destruct MG as [(_ & hm & lg & HM & L & EM)|(Q & _)]; [|discriminate]. rewrite RR in L. unfold log_of in L. destruct L as [(R0 & y & -> & EY)|(_ & ->)]; [|rewrite RM in EM; destruct hm; discriminate]. rewrite RM in EM. destruct hm as [hm|]; [|discriminate]. injection EM as ->. exists hm. split; [assumption|]. split; [assumption|]. rewrite <- EY, ln_exp. assert (P := ln10_pos). field. lra.
Qed.

(** ** A case: images of one pixel, a fit that returns its guess *)
Definition dot (v : R) : img := mkimg 1 1 (fun _ _ => Some v).
Definition guess : fitter := fun f x y w v => Ok (mkfit v w x y).
Definition pixel_meter : meter := fun _ f _ => Ok (pix f 0 0).
Definition dots : scene := mkscene (dot 8) [Some 1] [dot 2] (Some 0, Some 0) [] [dot 1] (Some ([1], [[1 / 2]])).
Lemma guess_homogeneous : homogeneous guess.
Proof. intros k f g x y w v r K B E. injection E as <-. reflexivity. Qed.
Lemma pixel_linear : linear_meter pixel_meter.
Proof. intros q k f g p v Q (_ & _ & B) E. injection E as <-. exact (f_equal Ok (B (0, 0)%nat)). Qed.
Lemma dots_ok : thru_ok dots.
Proof. intros seps modes Q. injection Q as <- <-. split; [repeat constructor|]. intros row [<-|[]]. reflexivity. Qed.
Lemma dot_peak : forall f v, rows f = 1%nat -> cols f = 1%nat -> pix f 0 0 = Some v -> is_peak f (0, 0)%nat.
Proof.
  intros f v R0 C0 V. split; [unfold inside_of; rewrite R0, C0; cbn; lia|]. exists v. split; [exact V|]. intros (a, b) w (A & B) W. rewrite R0, C0 in *. cbn [fst snd] in *. assert (a = 0%nat) by lia. assert (b = 0%nat) by lia. subst. unfold value_of in W. cbn [fst snd] in W. rewrite V in W. injection W as <-. split; [lra|]. intros [L|(_ & L)]; cbn in L; lia.
Qed.
Lemma dot_fit : forall f v w, rows f = 1%nat -> cols f = 1%nat -> pix f 0 0 = Some v -> fitted guess f w (mkfit (Some v) w (Some 0) (Some 0)).
Proof. intros f v w R0 C0 V. exists (0, 0)%nat. split; [apply (dot_peak f v); assumption|]. unfold guess, value_of. cbn [fst snd]. rewrite V. reflexivity. Qed.
Definition dots_row : crow := mkrow (Index 0) 0 0 (Some (PI * 1 * 3 ^ 2 / (4 * ln 2))) (Some (1 / 2)) (Some (3 - 5 / 2 * (ln (1 / 2) / ln 10))).
Lemma dots_measured : measure_companions guess (fun _ _ => Ok (dot 1)) None (Ok (Some 3)) pixel_meter pixel_meter dots "L4" 0 "gauss2d" [] true None (Some [(0, 0)]) = Ok [dots_row].
Proof.
  assert (P := ln10_pos). apply companions_iff; [exact dots_ok|]. exists (mkfit (Some 2) (Some 3) (Some 0) (Some 0)), (Some 4), [mkcomp (Index 0) 0 0]. split.
  - exists (mkfit (Some 8) (Some 3) (Some 0) (Some 0)), (Some 8), 0%nat, (dot 2). split; [apply dot_fit; reflexivity|]. split; [left; auto|]. split; [right; exists 1; split; [reflexivity|]; intros [|[|j]] x J; [injection J as <-; exists 1; split; [reflexivity|]; split; [lra|lia]|discriminate|discriminate]|]. split; [reflexivity|]. split; [apply dot_fit; reflexivity|]. cbn. destruct (Req_EM_T (2 * (3 * 3)) 0); [lra|]. f_equal. lra.
  - split; [right; exists [(0, 0)]; split; [reflexivity|]; split; [reflexivity|]; intros [|[|i]] sep pa N; [injection N as <- <-; exists 0, 0; split; [reflexivity|]; cbn [nth_error]; do 2 f_equal; ring|discriminate|discriminate]|].
    constructor; [|constructor]. exists 0, 0, (dot 1), (mkfit (Some 4) (Some 3) (Some 0) (Some 0)). split; [reflexivity|]. split; [reflexivity|]. split; [apply dot_fit; [reflexivity|reflexivity|cbn; f_equal; lra]|]. split.
    + left. split; [reflexivity|]. assert (R0 : rounds 0 0) by (unfold rounds; rewrite Rminus_0_r, Rabs_R0; split; lra). assert (AX : axis_names 1 0 0) by (split; [lia|left; reflexivity]).
      exists (dot 1), 0%Z, 0%Z, 0%nat, 0%nat, (mkfit (Some 1) (Some 3) (Some 0) (Some 0)), (Some (sqrt ((0 - 0) ^ 2 + (0 - 0) ^ 2))), [1], [[1 / 2]], [1 / 2], (Some (1 / 2)). split; [left; exists 0%nat; auto|]. split; [exact R0|]. split; [exact R0|]. split; [exact AX|]. split; [exact AX|]. split; [reflexivity|]. split; [reflexivity|]. split; [reflexivity|]. split; [reflexivity|]. split; [left; exists 0%nat; auto|]. split; [apply interp_at_iff; [repeat constructor|reflexivity|reflexivity]|].
      cbn. destruct (Req_EM_T (1 / 2) 0); [lra|]. cbn. destruct (Req_EM_T 4 0); [lra|]. f_equal. lra.
    + split; [|auto]. left. split; [reflexivity|]. exists (Some 3), (Some (ln (1 / 2) / ln 10)). split; [reflexivity|]. split; [|reflexivity]. left. split; [lra|]. eexists. split; [reflexivity|]. replace (ln (1 / 2) / ln 10 * ln 10) with (ln (1 / 2)) by (field; lra). apply exp_ln. lra.
Qed.
