(** Proofs for the throughput of the PSF subtraction: the noise, the pattern and the injections. *)
From Coq Require Import List Arith Bool Reals ZArith String Sorted Permutation Lia Lra.
From Verif Require Import Base DqModel AngleModel AngleSpec AngleProofs NearModel NearProofs CombineModel CombineSpec CombineProofs ComboSpec ComboProofs FindModel FlatModel FlatSpec FlatProofs CtDataProofs FluxRunProofs NoiseProofs ThruModel ThruSpec.
Import ListNotations.
Local Open Scope R_scope.

(** ** The noise *)
Lemma ltb_iff : forall x y, ThruModel.rltb x y = true <-> x < y.
Proof. intros x y. unfold ThruModel.rltb. destruct (Rlt_dec x y); split; intro; try lra; try reflexivity; discriminate. Qed.
Lemma away_distance : forall p q, away (fst p) (snd p) (snd q) (fst q) = distance (at_pixel p) q.
Proof. intros p q. unfold away, distance, at_pixel. cbn [fst snd]. f_equal. ring. Qed.
Lemma point_seppa : forall c x y, seppa2xy (fst c) (snd c) x y = point_of (x, y) c.
Proof. intros (s & a) x y. unfold seppa2xy, seppa2dxdy, point_of. cbn [fst snd]. f_equal; ring. Qed.
Lemma kept_iff : forall cx cy hw sep cands p, kept cx cy hw sep cands p = true <-> in_ring (cx, cy) hw sep cands p.
Proof.
  intros cx cy hw sep cands p. unfold kept, in_ring. rewrite !andb_true_iff, !ltb_iff, forallb_forall. change (away (fst p) (snd p) cy cx) with (away (fst p) (snd p) (snd (cx, cy)) (fst (cx, cy))). rewrite away_distance. split.
  - intros ((A & B) & D). split; [split; assumption|]. intros c I. specialize (D c I). cbn zeta in D. rewrite ltb_iff, point_seppa, away_distance in D. exact D.
  - intros ((A & B) & D). split; [split; assumption|]. intros c I. cbn zeta. rewrite ltb_iff, point_seppa, away_distance. apply D, I.
Qed.
Lemma mean_unique : forall l a b, is_mean l a -> is_mean l b -> a = b.
Proof. intros l a b (N & A) (_ & B). rewrite <- B in A. apply Rmult_eq_reg_r in A; [exact A|]. apply not_0_INR. destruct l; [congruence|discriminate]. Qed.
Lemma spread_value : forall l, spread_of l (nanstd l).
Proof.
  intros l. pose proof (error_value 1 l (le_n 1)) as H. change (INR 1) with 1 in H. rewrite sqrt_1 in H. destruct (nanstd l) as [s|]; cbn [option_map error_of spread_of] in *; [|exact H].
  destruct H as (P & m & M & S). replace (s / 1) with s in * by field. split; [exact P|]. exists m. split; [exact M|]. rewrite Rmult_1_r in S. exact S.
Qed.
Lemma spread_unique : forall l a b, spread_of l a -> spread_of l b -> a = b.
Proof.
  intros l [a|] [b|] A B; cbn [spread_of] in *; [|destruct A as (_ & m & (N & _) & _); congruence|destruct B as (_ & m & (N & _) & _); congruence|reflexivity].
  destruct A as (PA & m & M & A). destruct B as (PB & m' & M' & B). pose proof (mean_unique _ _ _ M M') as <-. f_equal. apply (root_one a b (a ^ 2)); try assumption; [reflexivity|]. exact (mean_unique _ _ _ B A).
Qed.
Lemma noise_iff : forall cx cy hw cands f sep v, noise_of (cx, cy) hw cands f sep v <-> v = noise cx cy hw cands sep f.
Proof.
  intros cx cy hw cands f sep v. unfold noise_of, noise. change (places f) with (spots f). split.
  - intros (ps & S & V). apply (sieve_filter _ _ _ (kept_iff cx cy hw sep cands)) in S. subst ps. exact (spread_unique _ _ _ V (spread_value _)).
  - intros ->. exists (filter (kept cx cy hw sep cands) (spots f)). split; [|apply spread_value]. apply (sieve_filter _ _ _ (kept_iff cx cy hw sep cands)). reflexivity.
Qed.
Lemma f2_map : forall A B (P : A -> B -> Prop) (g : A -> B), (forall a b, P a b <-> b = g a) -> forall l m, Forall2 P l m <-> m = map g l.
Proof.
  intros A B P g H. induction l as [|x l IH]; intros m; split; intro G.
  - inversion G. reflexivity.
  - subst m. constructor.
  - inversion G as [|? y ? t XY T]; subst. apply H in XY. apply IH in T. subst. reflexivity.
  - subst m. cbn [map]. constructor; [apply H; reflexivity|apply IH; reflexivity].
Qed.
Lemma measure_noise_iff : forall cen cube seps hw cands m, measure_noise cen cube seps hw cands = Ok m <->
  exists cx cy, cen = (Some cx, Some cy) /\ Forall2 (fun sep row => Forall2 (fun f v => noise_of (cx, cy) hw cands f sep v) cube row) seps m.
Proof.
  intros (ox & oy) cube seps hw cands m. unfold measure_noise. cbn [fst snd]. destruct ox as [cx|]; cbn [getkey bind]; [|split; [discriminate|intros (a & b & E & _); discriminate E]].
  destruct oy as [cy|]; cbn [getkey bind]; [|split; [discriminate|intros (a & b & E & _); discriminate E]]. split.
  - intros E. injection E as <-. exists cx, cy. split; [reflexivity|]. apply (f2_map _ _ _ (fun sep => map (noise cx cy hw cands sep) cube)); [|reflexivity]. intros sep row. apply f2_map. intros f v. apply noise_iff.
  - intros (a & b & E & H). injection E as <- <-. f_equal. symmetry. apply (f2_map _ _ (fun sep row => Forall2 (fun f v => noise_of (cx, cy) hw cands f sep v) cube row)); [|exact H]. intros sep row. apply f2_map. intros f v. apply noise_iff.
Qed.
(** The column of one KL mode *)
Lemma column_iff : forall cx cy cube seps hw cands k nz,
  column k (map (fun sep => map (noise cx cy hw cands sep) cube) seps) = Ok nz <-> seps <> [] /\ exists f, nth_error cube k = Some f /\ Forall2 (noise_of (cx, cy) hw cands f) seps nz.
Proof.
  intros cx cy cube seps hw cands k nz. unfold column. destruct seps as [|s0 seps]; [cbn [map]; split; [discriminate|intros (N & _); congruence]|]. cbn [map]. rewrite mapR_f2. split.
  - intros H. split; [discriminate|]. inversion H as [|? v0 ? nz' H0 HT]; subst. apply pick_iff in H0. rewrite nth_error_map in H0. destruct (nth_error cube k) as [f|] eqn:Ef; [|discriminate H0]. exists f. split; [reflexivity|]. constructor; [apply noise_iff; cbn [option_map] in H0; congruence|].
    clear H H0 s0. revert nz' HT. induction seps as [|s seps IH]; intros nz' HT; inversion HT as [|? v ? nz'' H0 HT']; subst; constructor; [|apply IH, HT']. apply noise_iff. apply pick_iff in H0. rewrite nth_error_map, Ef in H0. cbn [option_map] in H0. congruence.
  - intros (_ & f & Ef & H). change (map (noise cx cy hw cands s0) cube :: map (fun sep => map (noise cx cy hw cands sep) cube) seps) with (map (fun sep => map (noise cx cy hw cands sep) cube) (s0 :: seps)). revert H. generalize (s0 :: seps). clear s0 seps. intros seps H.
    induction H as [|s v seps nz V _ IH]; cbn [map]; constructor; [|exact IH]. apply noise_iff in V. apply pick_iff. rewrite nth_error_map, Ef. cbn [option_map]. congruence.
Qed.

(** ** Laws of the noise *)
Lemma somes_shift : forall c l, somes (map (fun v => option_map (fun x => x + c) v) l) = map (fun x => x + c) (somes l).
Proof. intros c l. apply (FlatProofs.somes_map (fun x => x + c)). Qed.
Lemma mean_shift : forall c l m, is_mean l m -> is_mean (map (fun x => x + c) l) (m + c).
Proof.
  intros c l m (N & E). split; [destruct l; [congruence|discriminate]|]. rewrite map_length. rewrite Rmult_plus_distr_r, E. clear N E. induction l as [|x l IH]; [cbn; ring|]. cbn [map fold_right List.length]. rewrite S_INR. rewrite <- IH. ring.
Qed.
Lemma mean_times : forall c l m, is_mean l m -> is_mean (map (fun x => c * x) l) (c * m).
Proof.
  intros c l m (N & E). split; [destruct l; [congruence|discriminate]|]. rewrite map_length, Rmult_assoc, E. clear N E. induction l as [|x l IH]; [cbn; ring|]. cbn [map fold_right]. rewrite <- IH. ring.
Qed.
Lemma spread_shift : forall c l v, spread_of l v -> spread_of (map (fun v => option_map (fun x => x + c) v) l) v.
Proof.
  intros c l [s|]; unfold spread_of; rewrite somes_shift.
  - intros (P & m & M & V). split; [exact P|]. exists (m + c). split; [apply mean_shift, M|]. rewrite map_map. erewrite map_ext; [exact V|]. intro x. cbn beta. ring.
  - intros ->. reflexivity.
Qed.
Lemma spread_times : forall c l v, spread_of l v -> spread_of (map (fun v => option_map (fun x => c * x) v) l) (option_map (fun s => Rabs c * s) v).
Proof.
  intros c l [s|]; unfold spread_of; cbn [option_map]; rewrite (FlatProofs.somes_map (fun x => c * x)).
  - intros (P & m & M & V). split; [apply Rmult_le_pos; [apply Rabs_pos|exact P]|]. exists (c * m). split; [apply mean_times, M|]. rewrite map_map. rewrite Rpow_mult_distr, pow2_abs.
    erewrite map_ext; [|intro x; replace ((c * x - c * m) ^ 2) with (c ^ 2 * (x - m) ^ 2) by ring; reflexivity]. rewrite <- (map_map (fun x => (x - m) ^ 2) (fun x => c ^ 2 * x)). apply mean_times, V.
  - intros ->. reflexivity.
Qed.

(** ** The pattern *)
Lemma turned_pmod : forall a b, turned a b <-> b = pmod a 360.
Proof.
  intros a b. unfold turned, pmod. pose proof (base_Int_part (a / 360)) as (L & U). split.
  - intros ((B0 & B1) & z & ->). assert (E : (Int_part (a / 360) = - z)%Z); [|rewrite E, opp_IZR; ring].
    assert (A : a / 360 = (a + 360 * IZR z) / 360 - IZR z) by field. assert (H0 : 0 <= (a + 360 * IZR z) / 360 < 1) by (split; [apply Rmult_le_pos; lra|apply (Rmult_lt_reg_r 360); [lra|]; unfold Rdiv; rewrite Rmult_assoc, Rinv_l by lra; lra]).
    assert (P : IZR (Int_part (a / 360)) < IZR (- z) + 1) by (rewrite opp_IZR; lra). assert (P' : IZR (- z) < IZR (Int_part (a / 360)) + 1) by (rewrite opp_IZR; lra). rewrite <- plus_IZR in P, P'. apply lt_IZR in P, P'. lia.
  - intros ->. set (q := a / 360) in *. assert (E : a = 360 * q) by (unfold q; field). split; [lra|]. exists (- Int_part q)%Z. rewrite opp_IZR. ring.
Qed.
Definition rowp (snr : R) (pas : list R) (off : R) (s : R * val) : list target := map (fun pa => ((fst s, pmod (pa + off) 360), vscale snr (snd s))) pas.
Fixpoint gridp (snr step : R) (pas : list R) (off : R) (seps : list (R * val)) : list (list target) :=
  match seps with [] => [] | s :: t => rowp snr pas off s :: gridp snr step pas (off + step) t end.
Lemma gridp_nth : forall snr step pas seps off i, nth_error (gridp snr step pas off seps) i = option_map (rowp snr pas (off + INR i * step)) (nth_error seps i).
Proof.
  induction seps as [|s seps IH]; intros off i; [destruct i; reflexivity|]. destruct i as [|i]; cbn [gridp nth_error option_map]; [f_equal; f_equal; cbn; ring|]. rewrite IH. destruct (nth_error seps i); cbn [option_map]; [|reflexivity]. f_equal. f_equal. rewrite S_INR. ring.
Qed.
Lemma gridp_length : forall snr step pas seps off, List.length (gridp snr step pas off seps) = List.length seps.
Proof. induction seps as [|s seps IH]; intros off; cbn; [reflexivity|]. rewrite IH. reflexivity. Qed.
Lemma nth_ext_err : forall A (l m : list A), (forall i, nth_error l i = nth_error m i) -> l = m.
Proof. induction l as [|x l IH]; intros [|y m] H; [reflexivity|specialize (H O); discriminate H|specialize (H O); discriminate H|]. pose proof (H O) as H0. cbn in H0. injection H0 as ->. f_equal. apply IH. intro i. exact (H (S i)). Qed.
Lemma row_iff : forall snr pas i s row, row_of snr pas i s row <-> row = rowp snr pas (INR i * (120 / INR (List.length pas))) s.
Proof.
  intros snr pas i s row. unfold row_of, rowp. generalize (INR i * (120 / INR (List.length pas))). intro off. apply f2_map. intros pa ((a & b) & v). cbn [fst snd]. rewrite turned_pmod. unfold vscale. split; [intros (-> & -> & ->); reflexivity|]. intros E. injection E as -> -> ->. repeat split.
Qed.
Lemma third : forall x, 120 / x = 360 / x / 3.
Proof. intro x. unfold Rdiv. lra. Qed.
Lemma grid_iff : forall snr pas seps g, grid_of snr pas seps g <-> g = List.concat (gridp snr (360 / INR (List.length pas) / 3) pas 0 seps).
Proof.
  intros snr pas seps g. rewrite <- third. unfold grid_of. set (step := 120 / INR (List.length pas)). split.
  - intros (rows & -> & L & H). f_equal. apply nth_ext_err. intro i. rewrite gridp_nth. destruct (nth_error seps i) as [s|] eqn:Es.
    + destruct (nth_error rows i) as [row|] eqn:Er; [|apply nth_error_None in Er; assert (nth_error seps i <> None) by congruence; apply nth_error_Some in H0; lia]. pose proof (H i s row Es Er) as R0. apply row_iff in R0. cbn [option_map]. f_equal. rewrite R0. f_equal. unfold step. ring.
    + cbn [option_map]. apply nth_error_None. apply nth_error_None in Es. lia.
  - intros ->. exists (gridp snr step pas 0 seps). split; [reflexivity|]. split; [apply gridp_length|]. intros i s row Es Er. rewrite gridp_nth, Es in Er. cbn [option_map] in Er. injection Er as <-. apply row_iff. f_equal. unfold step. ring.
Qed.
