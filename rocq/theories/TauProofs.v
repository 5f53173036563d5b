From Coq Require Import List Arith Bool Reals ZArith Lra Lia.
From Verif Require Import Base TauModel TauSpec.
Import ListNotations.
Local Open Scope R_scope.

(** Constants. *)
Lemma k_eq : k_ev = kE. Proof. unfold k_ev, kE. lra. Qed.
Lemma kb_eq : k_b = kB. Proof. unfold k_b, kB. lra. Qed.
Lemma h_eq : h_const = planck. Proof. unfold h_const, planck. lra. Qed.
Lemma me_eq : m_e = electron. Proof. unfold m_e, electron. lra. Qed.
Lemma kE_pos : 0 < kE. Proof. unfold kE. lra. Qed.
Lemma kB_pos : 0 < kB. Proof. unfold kB. lra. Qed.
Lemma planck_pos : 0 < planck. Proof. unfold planck. lra. Qed.
Lemma electron_pos : 0 < electron. Proof. unfold electron. lra. Qed.
Local Opaque kE kB planck electron.
Lemma gap_eq : forall T, E_gap T = gap T.
Proof. intros T. unfold E_gap, gap. unfold Rdiv. replace (T ^ 2) with (T * T) by ring. replace (11692 * / 10000) with 1.1692 by lra. replace (49 * / 100000) with 0.00049 by lra. ring. Qed.
Lemma ten : forall n, 0 < 10 ^ n. Proof. intros. apply pow_lt. lra. Qed.

(** The effective mass. *)
Lemma rp_cube : forall x, 0 < x -> Rpower x (1 / 3) ^ 3 = x.
Proof.
  intros x Hx. rewrite <- Rpower_pow by apply exp_pos. rewrite Rpower_mult. replace (1 / 3 * INR 3) with 1 by (cbn; lra). apply Rpower_1. assumption.
Qed.
Lemma six_cube : Rpower 6 (2 / 3) ^ 3 = 36.
Proof.
  rewrite <- Rpower_pow by apply exp_pos. rewrite Rpower_mult. replace (2 / 3 * INR 3) with (INR 2) by (cbn; lra). rewrite Rpower_pow by lra. lra.
Qed.
Lemma m_mass : forall T, gap T <> 0 -> mass T (m_dc T).
Proof.
  intros T G. assert (P : 0 < m_t T ^ 2 * m_l).
  { unfold m_t, m_l. rewrite me_eq, gap_eq. pose proof electron_pos. apply Rmult_lt_0_compat; [|lra]. assert (N : 1905 / 10000 * (11692 / 10000) * electron / gap T <> 0).
    { unfold Rdiv at 1. apply Rmult_integral_contrapositive_currified; [apply Rgt_not_eq; lra|]. apply Rinv_neq_0_compat. assumption. }
    destruct (Rdichotomy _ _ N); nra. }
  unfold mass, m_dc. split; [apply Rmult_lt_0_compat; apply exp_pos|]. rewrite Rpow_mult_distr, six_cube, (rp_cube _ P). unfold m_t, m_l. rewrite me_eq, gap_eq. pose proof electron_pos.
  replace (1905 / 10000) with 0.1905 by lra. replace (11692 / 10000) with 1.1692 by lra. replace (1963 / 10000) with 0.1963 by lra. unfold Rdiv. ring.
Qed.
Lemma cube_inj : forall a b, 0 < a -> 0 < b -> a ^ 3 = b ^ 3 -> a = b.
Proof.
  intros a b Ha Hb E. assert (X : (a - b) * (a ^ 2 + a * b + b ^ 2) = 0) by (replace ((a - b) * (a ^ 2 + a * b + b ^ 2)) with (a ^ 3 - b ^ 3) by ring; lra).
  apply Rmult_integral in X. destruct X as [X|X]; [lra|]. pose proof (pow_lt a 2 Ha). pose proof (pow_lt b 2 Hb). pose proof (Rmult_lt_0_compat a b Ha Hb). lra.
Qed.
Lemma mass_unique : forall T m n, mass T m -> mass T n -> m = n.
Proof. intros T m n (P & E) (Q & F). apply cube_inj; try assumption. lra. Qed.

(** Density of states times thermal velocity. *)
Definition emission (m T : R) : R := 2 * sqrt (3 * (2 * PI) ^ 3) * kB ^ 2 * m * T ^ 2 / planck ^ 3.
Lemma emission_pos : forall m T, 0 < m -> 0 < T -> 0 < emission m T.
Proof.
  intros m T Hm HT. unfold emission. pose proof kB_pos. pose proof planck_pos. pose proof PI_RGT_0. apply Rdiv_lt_0_compat; [|apply pow_lt; assumption].
  assert (0 < sqrt (3 * (2 * PI) ^ 3)) by (apply sqrt_lt_R0, Rmult_lt_0_compat; [lra|apply pow_lt; lra]).
  pose proof (pow_lt kB 2 H). pose proof (pow_lt T 2 HT). apply Rmult_lt_0_compat; [apply Rmult_lt_0_compat; [apply Rmult_lt_0_compat; [apply Rmult_lt_0_compat|]|]|]; lra.
Qed.
Lemma x32 : forall x, 0 < x -> Rpower x (3 / 2) = x * sqrt x.
Proof. intros x H. replace (3 / 2) with (1 + / 2) by lra. rewrite Rpower_plus, Rpower_1, Rpower_sqrt by assumption. reflexivity. Qed.
Lemma flow : forall T, 0 < T -> gap T <> 0 -> N_c T * v_th T = emission (m_dc T) T.
Proof.
  intros T HT G. destruct (m_mass T G) as (M & _). unfold N_c, v_th. rewrite kb_eq, h_eq. remember (m_dc T) as m eqn:Em. clear Em. pose proof kB_pos as HB. pose proof planck_pos as HH. pose proof PI_RGT_0 as HP.
  assert (X : 0 < 2 * PI * m * kB * T / planck ^ 2) by (apply Rdiv_lt_0_compat; [repeat (apply Rmult_lt_0_compat; [|assumption]); lra|apply pow_lt; assumption]).
  assert (Y : 0 < 3 * kB * T / m) by (apply Rdiv_lt_0_compat; [repeat (apply Rmult_lt_0_compat; [|assumption]); lra|assumption]).
  rewrite (x32 _ X).
  assert (S1 : sqrt (2 * PI * m * kB * T / planck ^ 2) * sqrt (3 * kB * T / m) = kB * T / planck * sqrt (6 * PI)).
  { rewrite <- sqrt_mult by lra. replace (2 * PI * m * kB * T / planck ^ 2 * (3 * kB * T / m)) with (6 * PI * ((kB * T / planck) * (kB * T / planck))) by (field; lra).
    rewrite sqrt_mult by (try apply Rle_0_sqr; try (apply (Rle_0_sqr (kB * T / planck))); lra). rewrite sqrt_square; [ring|]. apply Rlt_le, Rdiv_lt_0_compat; [apply Rmult_lt_0_compat; lra|lra]. }
  assert (S2 : sqrt (3 * (2 * PI) ^ 3) = 2 * PI * sqrt (6 * PI)).
  { replace (3 * (2 * PI) ^ 3) with (6 * PI * ((2 * PI) * (2 * PI))) by ring. rewrite sqrt_mult by (try (apply (Rle_0_sqr (2 * PI))); lra). rewrite sqrt_square by lra. ring. }
  unfold emission. rewrite S2. replace (2 * (2 * PI * m * kB * T / planck ^ 2 * sqrt (2 * PI * m * kB * T / planck ^ 2)) * sqrt (3 * kB * T / m)) with (2 * (2 * PI * m * kB * T / planck ^ 2) * (sqrt (2 * PI * m * kB * T / planck ^ 2) * sqrt (3 * kB * T / m))) by ring.
  rewrite S1. field. lra.
Qed.
Lemma tau_unique : forall T E c t u, warm T -> c <> 0 -> tau_is T E c t -> tau_is T E c u -> t = u.
Proof.
  intros T E c t u (HT & G) Hc (m & M & A) (m' & M' & B). pose proof (mass_unique _ _ _ M M') as <-. pose proof (emission_pos m T (proj1 M) HT) as P. unfold emission in P.
  rewrite <- B in A. apply Rmult_eq_reg_r in A; [assumption|]. pose proof (ten 19). apply Rmult_integral_contrapositive_currified; [apply Rmult_integral_contrapositive_currified; [assumption|apply Rinv_neq_0_compat; lra]|lra].
Qed.
(** The release time of the physics, as a function *)
Definition tau_f (T E c : R) : R := exp (E / (kE * T)) / (c * (/ 10 ^ 19) * emission (m_dc T) T).
Lemma tau_f_is : forall T E c, warm T -> c <> 0 -> tau_is T E c (tau_f T E c).
Proof.
  intros T E c (HT & G) Hc. exists (m_dc T). split; [apply m_mass; assumption|]. change (tau_f T E c * (c * (/ 10 ^ 19) * emission (m_dc T) T) = exp (E / (kE * T))). unfold tau_f. pose proof (emission_pos (m_dc T) T (proj1 (m_mass T G)) HT). pose proof (ten 19). field. lra.
Qed.
Lemma tau_eq : forall T E c, warm T -> c <> 0 -> tau_temp T E c = Some (tau_f T E c).
Proof.
  intros T E c (HT & G) Hc. unfold tau_temp. destruct (Rlt_dec 0 T); [|lra]. rewrite gap_eq. destruct (Req_EM_T (gap T) 0); [contradiction|]. destruct (Req_EM_T c 0); [contradiction|].
  f_equal. unfold tau_f. rewrite k_eq, <- (flow T HT G). f_equal. ring.
Qed.
Lemma tau_none : forall T E c, ~ (warm T /\ c <> 0) -> tau_temp T E c = None.
Proof.
  intros T E c N. unfold tau_temp, warm in *. rewrite gap_eq. destruct (Rlt_dec 0 T); [|reflexivity]. destruct (Req_EM_T (gap T) 0); [reflexivity|]. destruct (Req_EM_T c 0); [reflexivity|]. tauto.
Qed.
Lemma warm_dec : forall T c, (warm T /\ c <> 0) \/ ~ (warm T /\ c <> 0).
Proof. intros T c. unfold warm. destruct (Rlt_dec 0 T); [|tauto]. destruct (Req_EM_T (gap T) 0); [tauto|]. destruct (Req_EM_T c 0); tauto. Qed.
Theorem tau_iff : forall T E c r, tau_temp T E c = r <-> release T E c r.
Proof.
  intros T E c r. destruct (warm_dec T c) as [(W & C)|N].
  - rewrite (tau_eq _ _ _ W C). pose proof (tau_f_is T E c W C) as I. split.
    + intros <-. cbn [release]. auto.
    + destruct r as [t|]; cbn [release]; [|tauto]. intros (_ & _ & J). f_equal. exact (tau_unique _ _ _ _ _ W C I J).
  - rewrite (tau_none _ _ _ N). split.
    + intros <-. assumption.
    + destruct r; cbn [release]; [tauto|reflexivity].
Qed.
Lemma release_unique : forall T E c r s, release T E c r -> release T E c s -> r = s.
Proof. intros T E c r s H K. apply tau_iff in H. apply tau_iff in K. congruence. Qed.

(** Derivatives. *)
Lemma dE_lim : forall T E c, derivable_pt_lim (fun x => tau_f T x c) E (tau_f T E c / (kE * T)).
Proof.
  intros T E c. unfold tau_f. set (D := c * / 10 ^ 19 * emission (m_dc T) T). unfold Rdiv.
  pose proof (derivable_pt_lim_comp (fun x => x * / (kE * T)) exp E (/ (kE * T)) (exp (E * / (kE * T)))) as C.
  assert (L : derivable_pt_lim (fun x => x * / (kE * T)) E (/ (kE * T))).
  { pose proof (derivable_pt_lim_scal id (/ (kE * T)) E 1 (derivable_pt_lim_id E)) as X. unfold mult_real_fct, id in X. rewrite Rmult_1_r in X. intros e He. destruct (X e He) as (d & Hd). exists d. intros h Hh Hl. specialize (Hd h Hh Hl). replace ((E + h) * / (kE * T) - E * / (kE * T)) with (/ (kE * T) * (E + h) - / (kE * T) * E) by ring. exact Hd. }
  specialize (C L (derivable_pt_lim_exp _)). unfold comp in C.
  pose proof (derivable_pt_lim_scal _ (/ D) _ _ C) as X. unfold mult_real_fct in X.
  replace (exp (E * / (kE * T)) * / D * / (kE * T)) with (/ D * (exp (E * / (kE * T)) * / (kE * T))) by ring.
  intros e He. destruct (X e He) as (d & Hd). exists d. intros h Hh Hl. specialize (Hd h Hh Hl). replace (exp ((E + h) * / (kE * T)) * / D - exp (E * / (kE * T)) * / D) with (/ D * exp ((E + h) * / (kE * T)) - / D * exp (E * / (kE * T))) by ring. exact Hd.
Qed.
Lemma dc_lim : forall T E c, warm T -> c <> 0 -> derivable_pt_lim (fun y => tau_f T E y) c (- tau_f T E c / c).
Proof.
  intros T E c (HT & G) Hc. pose proof (emission_pos (m_dc T) T (proj1 (m_mass T G)) HT) as P. pose proof (ten 19) as T19.
  pose proof (derivable_pt_lim_div (fct_cte (exp (E / (kE * T)) / (/ 10 ^ 19 * emission (m_dc T) T))) id c 0 1 (derivable_pt_lim_const _ _) (derivable_pt_lim_id c) Hc) as X.
  unfold div_fct, fct_cte, id in X.
  replace (- tau_f T E c / c) with ((0 * c - 1 * (exp (E / (kE * T)) / (/ 10 ^ 19 * emission (m_dc T) T))) / Rsqr c) by (unfold tau_f, Rsqr; field; lra).
  intros e He. destruct (X e He) as (d & Hd).
  assert (A : 0 < Rmin d (Rabs c)) by (apply Rmin_pos; [apply cond_pos|apply Rabs_pos_lt; assumption]).
  exists (mkposreal _ A). intros h Hh Hl. cbn [pos] in Hl. assert (Hd' : Rabs h < d) by (eapply Rlt_le_trans; [exact Hl|apply Rmin_l]). assert (Hc' : Rabs h < Rabs c) by (eapply Rlt_le_trans; [exact Hl|apply Rmin_r]).
  assert (N : c + h <> 0). { intros Z. assert (h = - c) by lra. subst h. rewrite Rabs_Ropp in Hc'. lra. }
  specialize (Hd h Hh Hd'). unfold tau_f. replace (exp (E / (kE * T)) / ((c + h) * / 10 ^ 19 * emission (m_dc T) T)) with (exp (E / (kE * T)) / (/ 10 ^ 19 * emission (m_dc T) T) / (c + h)) by (field; lra).
  replace (exp (E / (kE * T)) / (c * / 10 ^ 19 * emission (m_dc T) T)) with (exp (E / (kE * T)) / (/ 10 ^ 19 * emission (m_dc T) T) / c) by (field; lra). exact Hd.
Qed.
(** Error propagation. *)
Lemma lim_near : forall f g x l d, 0 < d -> (forall y, Rabs (y - x) < d -> f y = g y) -> derivable_pt_lim f x l -> derivable_pt_lim g x l.
Proof.
  intros f g x l d Hd E X e He. destruct (X e He) as (d' & K). assert (A : 0 < Rmin d d') by (apply Rmin_pos; [assumption|apply cond_pos]).
  exists (mkposreal _ A). intros h Hh Hl. cbn [pos] in Hl. pose proof (Rmin_l d d'). pose proof (Rmin_r d d'). rewrite <- (E (x + h)), <- (E x); [apply K; [assumption|lra]| |].
  - replace (x - x) with 0 by ring. rewrite Rabs_R0. assumption.
  - replace (x + h - x) with h by ring. lra.
Qed.
Lemma spec_f : forall T f, warm T -> (forall x y, y <> 0 -> tau_is T x y (f x y)) -> forall x y, y <> 0 -> f x y = tau_f T x y.
Proof. intros T f W F x y N. exact (tau_unique T x y _ _ W N (F x y N) (tau_f_is T x y W N)). Qed.
Lemma sig_eq : forall T E c a b, warm T -> c <> 0 -> sig_tau_temp T E c (Some a) (Some b) = Some (sqrt ((tau_f T E c / (kE * T) * a) ^ 2 + (- tau_f T E c / c * b) ^ 2)).
Proof.
  intros T E c a b W C. unfold sig_tau_temp. rewrite (tau_eq _ _ _ W C). rewrite k_eq. cbv zeta. f_equal. f_equal. rewrite Rplus_comm. f_equal. f_equal. pose proof (ten 19). field. assumption.
Qed.
Lemma propagated_tau : forall T f E c a b s, warm T -> c <> 0 -> (forall x y, y <> 0 -> tau_is T x y (f x y)) ->
  propagated f E c a b s <-> 0 <= s /\ s ^ 2 = (tau_f T E c / (kE * T) * a) ^ 2 + (- tau_f T E c / c * b) ^ 2.
Proof.
  intros T f E c a b s W C F. pose proof (spec_f T f W F) as Q.
  assert (LE : derivable_pt_lim (fun x => f x c) E (tau_f T E c / (kE * T))).
  { apply (lim_near (fun x => tau_f T x c) _ _ _ 1); [lra| |apply dE_lim]. intros y _. symmetry. apply Q. assumption. }
  assert (LC : derivable_pt_lim (fun y => f E y) c (- tau_f T E c / c)).
  { apply (lim_near (fun y => tau_f T E y) _ _ _ (Rabs c)); [apply Rabs_pos_lt; assumption| |apply dc_lim; assumption]. intros y Hy. symmetry. apply Q. intros ->. rewrite Rminus_0_l, Rabs_Ropp in Hy. lra. }
  split.
  - intros (dE & dc & L1 & L2 & S0 & S2). rewrite (uniqueness_limite _ _ _ _ L1 LE), (uniqueness_limite _ _ _ _ L2 LC) in S2. auto.
  - intros (S0 & S2). exists (tau_f T E c / (kE * T)), (- tau_f T E c / c). auto.
Qed.
Theorem sig_iff : forall T E c sE sc r, sig_tau_temp T E c sE sc = r <-> deviation T E c sE sc r.
Proof.
  intros T E c sE sc r. destruct (warm_dec T c) as [(W & C)|N].
  - destruct sE as [a|]; [destruct sc as [b|]|].
    + rewrite (sig_eq _ _ _ _ _ W C). set (V := (tau_f T E c / (kE * T) * a) ^ 2 + (- tau_f T E c / c * b) ^ 2).
      assert (VP : 0 <= V) by (pose proof (pow2_ge_0 (tau_f T E c / (kE * T) * a)); pose proof (pow2_ge_0 (- tau_f T E c / c * b)); unfold V; lra). split.
      * intros <-. cbn [deviation]. split; [assumption|]. split; [assumption|]. exists a, b, (tau_f T). split; [reflexivity|]. split; [reflexivity|]. assert (F : forall x y, y <> 0 -> tau_is T x y (tau_f T x y)) by (intros; apply tau_f_is; assumption).
        split; [exact F|]. apply (propagated_tau T _ E c a b _ W C F). split; [apply sqrt_pos|]. fold V. apply pow2_sqrt. assumption.
      * destruct r as [s|]; cbn [deviation].
        -- intros (_ & _ & a' & b' & f & Ea & Eb & F & P). injection Ea as <-. injection Eb as <-. apply (propagated_tau T f E c a b s W C F) in P. destruct P as (S0 & S2). fold V in S2. f_equal. rewrite <- S2. apply sqrt_pow2. assumption.
        -- intros [N|[N|N]]; [tauto|discriminate|discriminate].
    + unfold sig_tau_temp. rewrite (tau_eq _ _ _ W C). split.
      * intros <-. cbn [deviation]. auto.
      * destruct r as [s|]; cbn [deviation]; [|reflexivity]. intros (_ & _ & a' & b' & f & _ & Eb & _). discriminate.
    + unfold sig_tau_temp. rewrite (tau_eq _ _ _ W C). split.
      * intros <-. cbn [deviation]. auto.
      * destruct r as [s|]; cbn [deviation]; [|reflexivity]. intros (_ & _ & a' & b' & f & Ea & _). discriminate.
  - unfold sig_tau_temp. rewrite (tau_none _ _ _ N). split.
    + intros <-. cbn [deviation]. auto.
    + destruct r as [s|]; cbn [deviation]; [tauto|reflexivity].
Qed.
