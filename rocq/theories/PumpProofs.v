From Coq Require Import List Arith Bool Reals ZArith Lra Lia FunctionalExtensionality.
From Verif Require Import Base PumpModel PumpSpec.
Import ListNotations.
Local Open Scope R_scope.

(** The model functions. *)
Lemma expo2 : forall t u, exp (- 2 * t / u) = exp (- (2 * (t / u))).
Proof. intros. f_equal. unfold Rdiv. ring. Qed.
Lemma expo3 : forall t u, exp (- 3 * t / u) = exp (- (3 * (t / u))).
Proof. intros. f_equal. unfold Rdiv. ring. Qed.
Lemma expo4 : forall t u, exp (- 4 * t / u) = exp (- (4 * (t / u))).
Proof. intros. f_equal. unfold Rdiv. ring. Qed.
Lemma expo1 : forall t u, exp (- t / u) = exp (- (t / u)).
Proof. intros. f_equal. unfold Rdiv. ring. Qed.
Ltac fn := intros; apply functional_extensionality; intros t; apply functional_extensionality; intros p;
  unfold three, five in *; repeat match goal with q : (_ * _)%type |- _ => destruct q end;
  cbv [one two curve1 curve2 amplitude capture release edges fst snd P1 P2 P3 P1_P1 P1_P2 P2_P2 P3_P3 P2_P3 c_P1 c_P2 c_P3 c_P1_P1 c_P1_P2 c_P2_P2 c_P3_P3 c_P2_P3];
  rewrite ?expo2, ?expo3, ?expo4, ?expo1; rewrite ?Rmult_1_l; ring.
Lemma P1_eq : forall N, one (P1 N) = curve1 Timed N 1. Proof. fn. Qed.
Lemma P2_eq : forall N, one (P2 N) = curve1 Timed N 2. Proof. fn. Qed.
Lemma P3_eq : forall N, one (P3 N) = curve1 Timed N 3. Proof. fn. Qed.
Lemma P11_eq : forall N, two (P1_P1 N) = curve2 Timed N 1 1. Proof. fn. Qed.
Lemma P12_eq : forall N, two (P1_P2 N) = curve2 Timed N 1 2. Proof. fn. Qed.
Lemma P22_eq : forall N, two (P2_P2 N) = curve2 Timed N 2 2. Proof. fn. Qed.
Lemma P33_eq : forall N, two (P3_P3 N) = curve2 Timed N 3 3. Proof. fn. Qed.
Lemma P23_eq : forall N, two (P2_P3 N) = curve2 Timed N 2 3. Proof. fn. Qed.
Lemma cP1_eq : forall N, one (c_P1 N) = curve1 Const N 1. Proof. fn. Qed.
Lemma cP2_eq : forall N, one (c_P2 N) = curve1 Const N 2. Proof. fn. Qed.
Lemma cP3_eq : forall N, one (c_P3 N) = curve1 Const N 3. Proof. fn. Qed.
Lemma cP11_eq : forall N, two (c_P1_P1 N) = curve2 Const N 1 1. Proof. fn. Qed.
Lemma cP12_eq : forall N, two (c_P1_P2 N) = curve2 Const N 1 2. Proof. fn. Qed.
Lemma cP22_eq : forall N, two (c_P2_P2 N) = curve2 Const N 2 2. Proof. fn. Qed.
Lemma cP33_eq : forall N, two (c_P3_P3 N) = curve2 Const N 3 3. Proof. fn. Qed.
Lemma cP23_eq : forall N, two (c_P2_P3 N) = curve2 Const N 2 3. Proof. fn. Qed.

(** Sums of squares. *)
Lemma total_eq : forall a, total a = spread a.
Proof.
  intros a. unfold total, spread. change Rsum with sum. f_equal. apply map_ext. intros x. unfold mean. change Rsum with sum. unfold Rsqr. ring.
Qed.
Lemma residue_eq : forall f t a, residue f t a = scatter f t a.
Proof. intros f t a. unfold residue, scatter. change Rsum with sum. f_equal. apply map_ext. intros x. unfold Rsqr. ring. Qed.
Lemma sum_sq_nonneg : forall {A} (f : A -> R) l, 0 <= sum (map (fun x => Rsqr (f x)) l).
Proof. induction l; cbn [map sum fold_right]; [lra|]. fold (sum (map (fun x => Rsqr (f x)) l)). pose proof (Rle_0_sqr (f a)). lra. Qed.
Lemma sum_sq_zero : forall {A} (f : A -> R) l, sum (map (fun x => Rsqr (f x)) l) = 0 <-> Forall (fun x => f x = 0) l.
Proof.
  induction l; cbn [map sum fold_right].
  - split; [constructor|reflexivity].
  - fold (sum (map (fun x => Rsqr (f x)) l)). pose proof (Rle_0_sqr (f a)). pose proof (sum_sq_nonneg f l). split.
    + intros E. constructor; [apply Rsqr_0_uniq; lra|apply IHl; lra].
    + intros F. inversion F as [|? ? F1 F2]; subst. apply IHl in F2. rewrite F1, Rsqr_0. lra.
Qed.
Lemma sum_const : forall c l, (forall x, In x l -> x = c) -> sum l = INR (List.length l) * c.
Proof.
  induction l; intros F; cbn [sum fold_right List.length]; [cbn; ring|]. fold (sum l). rewrite S_INR, IHl, (F a) by (intros; try apply F; cbn; auto). ring.
Qed.
Lemma spread_zero : forall a, a <> [] -> (spread a = 0 <-> ~ varied a).
Proof.
  intros a Ne. unfold spread. rewrite (sum_sq_zero (fun x => x - mean a)). split.
  - intros F (x & y & Hx & Hy & D). rewrite Forall_forall in F. pose proof (F x Hx). pose proof (F y Hy). cbn beta in *. lra.
  - intros V. apply Forall_forall. intros x Hx.
    assert (E : forall y, In y a -> y = x). { intros y Hy. destruct (Req_EM_T y x); [assumption|]. exfalso. apply V. exists y, x. auto. }
    unfold mean. rewrite (sum_const x a E). assert (INR (List.length a) <> 0) by (apply not_0_INR; destruct a; [congruence|discriminate]). field. assumption.
Qed.
Lemma spread_nonneg : forall a, 0 <= spread a.
Proof. intros. apply (sum_sq_nonneg (fun x => x - mean a)). Qed.

(** The first of the greatest. *)
Lemma best_app_l : forall {A} (g : A -> R) l1 l2 x, first_best g l1 x -> Forall (fun y => g y <= g x) l2 -> first_best g (l1 ++ l2) x.
Proof.
  intros A g l1 l2 x (a & b & -> & F1 & F2) F. exists a, (b ++ l2). split; [rewrite <- app_assoc; reflexivity|]. split; [assumption|].
  apply Forall_app. auto.
Qed.
Lemma best_app_r : forall {A} (g : A -> R) l1 l2 x, first_best g l2 x -> Forall (fun y => g y < g x) l1 -> first_best g (l1 ++ l2) x.
Proof.
  intros A g l1 l2 x (a & b & -> & F1 & F2) F. exists (l1 ++ a), b. split; [rewrite <- app_assoc; reflexivity|]. split; [apply Forall_app; auto|assumption].
Qed.
Lemma best_max : forall {A} (g : A -> R) l x, first_best g l x -> Forall (fun y => g y <= g x) l.
Proof.
  intros A g l x (a & b & -> & F1 & F2). apply Forall_app. split; [|constructor; [lra|assumption]]. eapply Forall_impl; [|exact F1]. cbn beta. intros; lra.
Qed.
Lemma best_in : forall {A} (g : A -> R) l x, first_best g l x -> In x l.
Proof. intros A g l x (a & b & -> & _). apply in_elt. Qed.
Lemma best_uniq : forall {A} (g : A -> R) l x y, first_best g l x -> first_best g l y -> x = y.
Proof.
  intros A g l x y (a & b & E & F1 & F2) (c & d & E' & G1 & G2). subst l.
  revert c E' G1. induction a as [|z a IH]; intros c E' G1.
  - destruct c as [|z c]; [inversion E'; reflexivity|]. inversion E'; subst z. inversion G1; subst.
    apply Forall_app in F2. destruct F2 as (_ & F2). inversion F2; subst. lra.
  - destruct c as [|w c].
    + inversion E'; subst. inversion F1; subst. rewrite Forall_forall in G2. assert (g x <= g y) by (apply G2; apply in_elt). lra.
    + inversion E'; subst. inversion F1; subst. inversion G1; subst. apply (IH ltac:(assumption) c); assumption.
Qed.
Lemma best_join : forall {A} (g : A -> R) l1 l2 x y, first_best g l1 x -> first_best g l2 y ->
  first_best g (l1 ++ l2) (if Rle_dec (g y) (g x) then x else y).
Proof.
  intros A g l1 l2 x y B1 B2. destruct (Rle_dec (g y) (g x)) as [L|L].
  - apply best_app_l; [assumption|]. eapply Forall_impl; [|exact (best_max _ _ _ B2)]. cbn beta. intros; lra.
  - apply best_app_r; [assumption|]. eapply Forall_impl; [|exact (best_max _ _ _ B1)]. cbn beta. intros; lra.
Qed.

(** One pair of fits. *)
Section CHOOSE.
Context {K P C : Type}.
Variables (n p : nat) (T : R) (S : P -> R) (k : K) (g : K * (P * C) -> R).
Definition gv (c : P * C) : R := 1 - (S (fst c) / T) * (INR n - 1) / (INR n - INR p).

Lemma choose_none : forall fl fu : option (P * C), choose n p T S fl fu = None <-> fl = None \/ fu = None.
Proof using. intros fl fu. unfold choose. destruct fl, fu; split; intros H; try discriminate; auto; destruct H; discriminate. Qed.
Lemma choose_varied : T <> 0 -> (forall c, gv c = g (k, c)) -> forall l u : P * C,
  exists c, choose n p T S (Some l) (Some u) = Some (Num (g (k, c)), Some c) /\ first_best g [(k, u); (k, l)] (k, c).
Proof using.
  intros HT G l u. unfold choose, r_value. destruct (Req_EM_T T 0) as [X|_]; [contradiction|].
  fold (gv l). fold (gv u). rewrite !G. unfold pymax, rgt, req.
  destruct (Rlt_dec (g (k, l)) (g (k, u))) as [L|L].
  - destruct (Req_EM_T (g (k, u)) (g (k, u))) as [_|X]; [|congruence]. exists u. split; [reflexivity|].
    exists [], [(k, l)]. split; [reflexivity|]. split; constructor; [lra|constructor].
  - destruct (Req_EM_T (g (k, l)) (g (k, u))) as [E|E].
    + exists u. split; [rewrite E; reflexivity|]. exists [], [(k, l)]. split; [reflexivity|]. split; constructor; [lra|constructor].
    + destruct (Req_EM_T (g (k, l)) (g (k, l))) as [_|X]; [|congruence]. exists l. split; [reflexivity|].
      exists [(k, u)], []. split; [reflexivity|]. split; constructor; [lra|constructor].
Qed.
Lemma choose_equal : T = 0 -> forall l u : P * C, exists r c, choose n p T S (Some l) (Some u) = Some (r, c) /\
  (S (fst l) = 0 /\ r = NotNum \/ S (fst l) <> 0 /\ r = NegInf).
Proof using.
  intros HT l u. unfold choose, r_value. destruct (Req_EM_T T 0) as [_|X]; [|contradiction].
  destruct (Req_EM_T (S (fst l)) 0) as [El|El]; destruct (Req_EM_T (S (fst u)) 0) as [Eu|Eu]; eexists; eexists; (split; [reflexivity|]); cbn; auto.
Qed.
End CHOOSE.

Lemma req_refl : forall x, req (Num x) (Num x) = true.
Proof. intros. cbn. destruct (Req_EM_T x x); congruence. Qed.
Lemma pymax_num : forall x y, pymax (Num x) (Num y) = Num (Rmax x y).
Proof. intros. unfold pymax, rgt. destruct (Rlt_dec x y); f_equal; unfold Rmax; destruct (Rle_dec x y); lra. Qed.

(** The time of the peak. *)
Lemma top_time_best : forall l q, exists a, first_best fst (q :: l) (a, top_time q l).
Proof.
  induction l as [|z l IH]; intros q; cbn [top_time].
  - exists (fst q). exists [], []. destruct q; cbn. repeat split; constructor.
  - destruct (Rlt_dec (fst q) (fst z)) as [L|L].
    + destruct (IH z) as (a & a1 & a2 & E & F1 & F2). exists a. remember (top_time z l) as y eqn:Y. clear Y IH.
      exists (q :: a1), a2. split; [cbn; rewrite E; reflexivity|]. split; [|assumption]. constructor; [|assumption].
      destruct a1 as [|w a1]; cbn [app] in E; injection E as E0 E1; [rewrite E0 in L; exact L|]. rewrite E0 in L. inversion F1 as [|? ? G1 G2]; subst. cbn [fst] in *. lra.
    + destruct (IH q) as (a & a1 & a2 & E & F1 & F2). exists a. remember (top_time q l) as y eqn:Y. clear Y IH.
      destruct a1 as [|w a1]; cbn [app] in E; injection E as E0 E1; subst q l.
      * exists [], (z :: a2). split; [reflexivity|]. split; [constructor|]. constructor; [cbn [fst] in *; lra|assumption].
      * inversion F1 as [|? ? G1 G2]; subst. exists (w :: z :: a1), a2. split; [reflexivity|]. split; [|assumption]. constructor; [assumption|]. constructor; [|assumption]. cbn [fst] in *. lra.
Qed.
Lemma peak_time_iff : forall amp t x, peak_time amp t = Ok x <-> brightest amp t x.
Proof.
  intros amp t x. unfold peak_time, brightest. destruct (combine amp t) as [|q l].
  - split; [discriminate|]. intros (a & a1 & a2 & E & _). destruct a1; discriminate.
  - destruct (top_time_best l q) as (a & B). split.
    + intros E. inversion E; subst. eauto.
    + intros (a' & B'). pose proof (best_uniq _ _ _ _ B B') as E. inversion E. reflexivity.
Qed.
Lemma peak_time_raises : forall amp t e, peak_time amp t = Raise e <-> e = ValueError /\ combine amp t = [].
Proof. intros amp t e. unfold peak_time. destruct (combine amp t); split; [|intros (-> & _)| |intros (_ & ?)]; intros; try discriminate; [inversion H; auto|reflexivity]. Qed.
Lemma peak_3 : 2 * ln 2 / 3 = peak 3.
Proof. cbn [peak]. replace 4 with (2 * 2) by lra. rewrite ln_mult by lra. lra. Qed.
