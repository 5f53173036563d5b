(** The vertex of the parabola and of the paraboloid closest to the data. *)
From Coq Require Import List Arith Bool Reals ZArith Lra Lia Psatz.
From Verif Require Import Base DqModel SpotModel SpotSpec SpotProofs.
Import ListNotations.
Local Open Scope R_scope.

Lemma total_nonneg : forall {A} (f : A -> R) l, (forall a, 0 <= f a) -> 0 <= total (map f l).
Proof. intros A f l H. unfold total. induction l as [|a l IH]; cbn; [lra|]. specialize (H a). lra. Qed.
Lemma total_zero : forall {A} (f : A -> R) l, (forall a, 0 <= f a) -> total (map f l) <= 0 -> forall a, In a l -> f a = 0.
Proof.
  intros A f l H. induction l as [|b l IH]; intros T a I; [destruct I|]. cbn [map] in T. change (total (f b :: map f l)) with (f b + total (map f l)) in T.
  pose proof (total_nonneg f l H). pose proof (H b). destruct I as [<-|I]; [lra|]. apply IH; [lra|assumption].
Qed.

(** The greatest value. *)
Lemma fold_max_some : forall l x, fold_left nmax2 (map Some l) (Some x) = Some (fold_left Rmax l x).
Proof. induction l as [|y l IH]; intros x; [reflexivity|]. cbn [map fold_left]. change (nmax2 (Some x) (Some y)) with (Some (Rmax x y)). apply IH. Qed.
Lemma fold_max_none : forall l, fold_left nmax2 l None = None.
Proof. induction l as [|y l IH]; [reflexivity|]. cbn [fold_left]. exact IH. Qed.
Lemma fold_max_in : forall l x, In None l -> fold_left nmax2 l x = None.
Proof.
  induction l as [|y l IH]; intros x H; [destruct H|]. cbn [fold_left]. destruct H as [->|H]; [|apply IH; assumption].
  replace (nmax2 x None) with (@None R) by (destruct x; reflexivity). apply fold_max_none.
Qed.
Lemma nmax_none : forall l, In None l -> nmax l = Ok None.
Proof.
  intros [|x t] H; [destruct H|]. cbn [nmax]. destruct H as [->|H]; [rewrite fold_max_none|rewrite fold_max_in by assumption]; reflexivity.
Qed.
Lemma fold_max_greatest : forall l x, greatest (x :: l) (fold_left Rmax l x).
Proof.
  induction l as [|y l IH]; intros x; [split; [left; reflexivity|intros z [<-|[]]; cbn; lra]|]. cbn [fold_left]. destruct (IH (Rmax x y)) as (I & G). split.
  - destruct I as [<-|I]; [|right; right; assumption]. unfold Rmax. destruct (Rle_dec x y); [right; left; reflexivity|left; reflexivity].
  - assert (M := G _ (or_introl eq_refl)). intros z [<-|[<-|Z]]; [pose proof (Rmax_l x y); lra|pose proof (Rmax_r x y); lra|apply G; right; assumption].
Qed.
Lemma greatest_unique : forall l m m', greatest l m -> greatest l m' -> m = m'.
Proof. intros l m m' (I & G) (I' & G'). apply Rle_antisym; [apply G'|apply G]; assumption. Qed.
Lemma nmax_some : forall l m, greatest l m -> nmax (map Some l) = Ok (Some m).
Proof.
  intros [|x l] m G; [destruct G as ([] & _)|]. cbn [map nmax]. rewrite fold_max_some. do 2 f_equal. apply greatest_unique with (x :: l); [apply fold_max_greatest|assumption].
Qed.
Lemma greatest_ex : forall l, l <> [] -> exists m, greatest l m.
Proof. intros [|x l] H; [congruence|]. exists (fold_left Rmax l x). apply fold_max_greatest. Qed.

Lemma norm_some : forall m l, m <> 0 -> map (fun y => ndiv y (Some m)) (map Some l) = map Some (map (fun y => y / m) l).
Proof. intros m l M. rewrite !map_map. apply map_ext. intros y. cbn. destruct (Req_EM_T m 0); [congruence|reflexivity]. Qed.
Lemma norm_zero : forall l : list num, map (fun y => ndiv y (Some 0)) l = map (fun _ => None) l.
Proof. intros l. apply map_ext. intros [y|]; cbn; [destruct (Req_EM_T 0 0); [reflexivity|congruence]|reflexivity]. Qed.
Lemma norm_none : forall l : list num, map (fun y => ndiv y None) l = map (fun _ => None) l.
Proof. intros l. apply map_ext. intros [y|]; reflexivity. Qed.

(** One dimension. *)
Lemma scale1 : forall xs ys m p, m <> 0 -> length xs = length ys -> best1 (combine xs (map (fun y => y / m) ys)) p -> best1 (combine xs ys) (m * fst (fst p), m * snd (fst p), m * snd p).
Proof.
  intros xs ys m ((a, b), c) M L B. cbn [fst snd].
  assert (E : forall a b c, misfit1 (combine xs ys) (a, b, c) = m * m * misfit1 (combine xs (map (fun y => y / m) ys)) (a / m, b / m, c / m)).
  { intros a1 b1 c1. unfold misfit1. rewrite <- total_scale. clear B. revert ys L. induction xs as [|x xs IH]; intros [|y ys] L; try discriminate; [reflexivity|].
    cbn [map combine]. injection L as L. change (total (?u :: ?w)) with (u + total w). rewrite (IH ys L). f_equal. cbn [fst snd parabola]. unfold Rsqr. field. assumption. }
  intros ((a', b'), c'). rewrite !E. apply Rmult_le_compat_l; [nra|]. 
  replace (m * a / m) with a by (field; assumption). replace (m * b / m) with b by (field; assumption). replace (m * c / m) with c by (field; assumption). apply B.
Qed.
Lemma vanish3 : forall a b c x1 x2 x3, x1 <> x2 -> x1 <> x3 -> x2 <> x3 -> a * (x1 * x1) + b * x1 + c = 0 -> a * (x2 * x2) + b * x2 + c = 0 -> a * (x3 * x3) + b * x3 + c = 0 -> a = 0 /\ b = 0 /\ c = 0.
Proof.
  intros a b c x1 x2 x3 N12 N13 N23 E1 E2 E3.
  assert (F1 : a * (x1 + x2) + b = 0). { apply Rmult_eq_reg_r with (x1 - x2); [|lra]. lra. }
  assert (F2 : a * (x1 + x3) + b = 0). { apply Rmult_eq_reg_r with (x1 - x3); [|lra]. lra. }
  assert (A : a = 0). { apply Rmult_eq_reg_r with (x2 - x3); [|lra]. lra. }
  subst a. assert (b = 0) by lra. subst b. split; [reflexivity|]. split; [reflexivity|]. lra.
Qed.
Theorem unique1 : forall pts p p', three (map fst pts) -> best1 pts p -> best1 pts p' -> p = p'.
Proof.
  intros pts ((a, b), c) ((a', b'), c') T B B'.
  assert (K : total (map (fun q => Rsqr (parabola (a, b, c) (fst q) - parabola (a', b', c') (fst q)) / 4) pts) <= 0).
  { pose proof (B (a', b', c')) as H1. pose proof (B' (a, b, c)) as H2. pose proof (B ((a + a') / 2, (b + b') / 2, (c + c') / 2)) as H3.
    assert (E : misfit1 pts ((a + a') / 2, (b + b') / 2, (c + c') / 2) = / 2 * misfit1 pts (a, b, c) + / 2 * misfit1 pts (a', b', c') - total (map (fun q => Rsqr (parabola (a, b, c) (fst q) - parabola (a', b', c') (fst q)) / 4) pts)).
    { unfold misfit1. clear. induction pts as [|q pts IH]; [cbn; lra|]. cbn [map]. change (total (?u :: ?w)) with (u + total w). rewrite IH. cbn [parabola]. unfold Rsqr. field. }
    lra. }
  assert (Z := total_zero (fun q => Rsqr (parabola (a, b, c) (fst q) - parabola (a', b', c') (fst q)) / 4) pts ltac:(intros q; pose proof (Rle_0_sqr (parabola (a, b, c) (fst q) - parabola (a', b', c') (fst q))); lra) K).
  assert (V : forall x, In x (map fst pts) -> (a - a') * (x * x) + (b - b') * x + (c - c') = 0).
  { intros x I. apply in_map_iff in I. destruct I as (q & <- & I). specialize (Z q I). cbv beta in Z. assert (Z' : Rsqr (parabola (a, b, c) (fst q) - parabola (a', b', c') (fst q)) = 0) by lra. apply Rsqr_0_uniq in Z'. cbn [parabola] in Z'. lra. }
  destruct T as (x1 & x2 & x3 & I1 & I2 & I3 & N1 & N2 & N3). destruct (vanish3 (a - a') (b - b') (c - c') x1 x2 x3 N1 N2 N3 (V _ I1) (V _ I2) (V _ I3)) as (A & B0 & C).
  repeat f_equal; lra.
Qed.
Lemma exact_best1 : forall pts p, (forall q, In q pts -> snd q = parabola p (fst q)) -> best1 pts p.
Proof.
  intros pts p E p'. replace (misfit1 pts p) with 0; [apply total_nonneg; intros; apply Rle_0_sqr|]. unfold misfit1. rewrite (total_ext _ (fun _ => 0)); [symmetry; apply total_const0|].
  intros q I. rewrite (E q I). unfold Rsqr. ring.
Qed.

Lemma level1_iff : forall m a, m <> 0 -> (level1 m (m * a) <-> Rabs a < eps).
Proof.
  intros m a M. unfold level1, eps. rewrite Rabs_mult. assert (0 < Rabs m) by (apply Rabs_pos_lt; assumption). unfold Rdiv. split; intros H1.
  - apply Rmult_lt_reg_l with (Rabs m); assumption.
  - apply Rmult_lt_compat_l; assumption.
Qed.
Lemma eps_pos : 0 < eps.
Proof. unfold eps. apply Rinv_0_lt_compat, pow_lt. lra. Qed.

Section Fits.
  Variable polyfit : list num -> list num -> result (num * num * num).
  Variable lstsq : list (list num) -> list num -> result (list num).

  Theorem opt1 : least_parabola polyfit -> forall xs ys m, length xs = length ys -> greatest ys m -> m <> 0 ->
    exists a b c, best1 (combine xs ys) (a, b, c) /\
      (level1 m a -> find_optimum_1d polyfit (map Some xs) (map Some ys) = Raise ValueError) /\
      (~ level1 m a -> exists x, find_optimum_1d polyfit (map Some xs) (map Some ys) = Ok (Some x) /\ a <> 0 /\ 2 * a * x + b = 0).
  Proof using.
    intros P xs ys m L G M. unfold find_optimum_1d. rewrite !map_length, L, Nat.eqb_refl. cbn [negb]. rewrite (nmax_some ys m G). cbn [bind]. rewrite norm_some by assumption.
    assert (NE : xs <> []). { intros ->. destruct ys; [destruct G as ([] & _)|discriminate]. }
    destruct (P xs (map (fun y => y / m) ys) ltac:(rewrite map_length; assumption) NE) as (a & b & c & E & B). rewrite E. cbn [bind].
    exists (m * a), (m * b), (m * c). split; [apply (scale1 xs ys m (a, b, c) M L B)|]. rewrite level1_iff by assumption. cbn [nabs option_map nlt]. destruct (Rlt_dec (Rabs a) eps) as [H|H].
    - split; [reflexivity|]. intros K. contradiction.
    - split; [contradiction|]. intros _. assert (A : a <> 0). { intros ->. rewrite Rabs_R0 in H. apply H, eps_pos. }
      cbn [nopp option_map nmul lift2 ndiv]. destruct (Req_EM_T (2 * a) 0) as [Q|Q]; [lra|]. eexists. split; [reflexivity|]. split; [|field; assumption].
      intros Z. apply Rmult_integral in Z. tauto.
  Qed.
  Lemma spoilt_norm : forall ys : list num, (In None ys \/ exists vs, ys = map Some vs /\ greatest vs 0) -> exists m, nmax ys = Ok m /\ map (fun y => ndiv y m) ys = map (fun _ => None) ys.
  Proof using.
    intros ys [N|(vs & -> & G)].
    - exists None. split; [apply nmax_none; assumption|apply norm_none].
    - exists (Some 0). split; [apply nmax_some; assumption|apply norm_zero].
  Qed.
  Lemma opt1_spoilt : polyfit_spoilt polyfit -> forall (xs ys : list num), (In None ys \/ exists vs, ys = map Some vs /\ greatest vs 0) ->
    forall r, find_optimum_1d polyfit xs ys = Ok r -> r = None.
  Proof using.
    intros P xs ys H r. unfold find_optimum_1d. destruct (Nat.eqb _ _); [|discriminate]. cbn [negb].
    destruct (spoilt_norm ys H) as (m & E1 & E2). rewrite E1. cbn [bind]. rewrite E2. clear E1 E2. destruct (polyfit xs _) as [p|e] eqn:E; cbn [bind]; [|discriminate].
    assert (S0 : p = (None, None, None)). { apply (P _ _ p) in E; [assumption|]. destruct H as [H|(vs & -> & (H & _))]; [destruct ys; [destruct H|left; reflexivity]|destruct vs; [destruct H|left; reflexivity]]. }
    subst p. cbn. intros Q. injection Q as <-. reflexivity.
  Qed.
  Theorem opt1_shape : forall xs ys, length xs <> length ys \/ ys = [] -> find_optimum_1d polyfit xs ys = Raise ValueError.
  Proof using.
    intros xs ys H. unfold find_optimum_1d. destruct (Nat.eqb_spec (length xs) (length ys)) as [E|E]; cbn [negb]; [|reflexivity]. destruct H as [H| ->]; [contradiction|]. reflexivity.
  Qed.
  (** Exact data. *)
  Theorem opt1_exact : least_parabola polyfit -> forall xs a b c m, three xs -> greatest (map (parabola (a, b, c)) xs) m -> m <> 0 -> ~ level1 m a ->
    find_optimum_1d polyfit (map Some xs) (map Some (map (parabola (a, b, c)) xs)) = Ok (Some (- b / (2 * a))).
  Proof using.
    intros P xs a b c m T G M N.
    destruct (opt1 P xs (map (parabola (a, b, c)) xs) m ltac:(rewrite map_length; reflexivity) G M) as (a' & b' & c' & B & _ & F).
    assert (F1 : map fst (combine xs (map (parabola (a, b, c)) xs)) = xs) by (clear; induction xs as [|x xs IH]; [reflexivity|]; cbn [map combine fst]; f_equal; assumption).
    assert (E : (a', b', c') = (a, b, c)).
    { apply unique1 with (combine xs (map (parabola (a, b, c)) xs)); [rewrite F1; assumption|assumption|]. apply exact_best1. clear. induction xs as [|x xs IH]; intros q I; [destruct I|]. cbn [map combine] in I. destruct I as [<-|I]; [reflexivity|apply IH; assumption]. }
    injection E as -> -> ->. destruct (F N) as (x & -> & A & Q). do 2 f_equal. apply Rmult_eq_reg_l with (2 * a); [|lra]. replace (2 * a * (- b / (2 * a))) with (- b) by (field; assumption). lra.
  Qed.

  (** Two dimensions. *)
  Lemma picked_map : forall {A B} (f : A -> B) l mask, picked (map f l) mask = map f (picked l mask).
  Proof using. intros A B f. induction l as [|a l IH]; intros [|k mask]; try reflexivity. cbn [map picked]. rewrite IH. destruct (Z.eqb k 0); reflexivity. Qed.
  Lemma picked_filter : forall {A} (l : list A) mask, (forall k, In k mask -> k = 0%Z \/ k = 1%Z) -> picked l mask = map fst (filter (fun p => Z.eqb (snd p) 1) (combine l mask)).
  Proof using.
    intros A. induction l as [|a l IH]; intros [|k mask] H; try reflexivity. cbn [picked combine filter snd]. rewrite IH by (intros; apply H; right; assumption). destruct (H k (or_introl eq_refl)) as [->| ->]; reflexivity.
  Qed.
  Lemma picked_pair : forall {A B} (l : list A) (l' : list B) mask, length l = length l' -> picked l mask = map fst (picked (combine l l') mask) /\ picked l' mask = map snd (picked (combine l l') mask).
  Proof using.
    intros A B. induction l as [|a l IH]; intros [|b l'] mask L; try discriminate; [split; reflexivity|]. destruct mask as [|k mask]; [split; reflexivity|]. cbn [picked combine]. injection L as L. destruct (IH l' mask L) as (E1 & E2). destruct (Z.eqb k 0); [split; assumption|]. cbn [map fst snd]. rewrite <- E1, <- E2. split; reflexivity.
  Qed.
  Lemma npix_eq : forall {A} (l : list A) mask, length l = length mask -> (forall k, In k mask -> k = 0%Z \/ k = 1%Z) -> forall z, fold_left Z.add mask z = (z + Z.of_nat (length (picked l mask)))%Z.
  Proof using.
    intros A. induction l as [|a l IH]; intros [|k mask] L H z; try discriminate; [cbn; lia|]. cbn [fold_left picked]. injection L as L. rewrite IH by (try assumption; intros; apply H; right; assumption).
    destruct (H k (or_introl eq_refl)) as [->| ->]; cbn [Z.eqb length]; lia.
  Qed.
  Definition row (p : R * R) : list R := [fst p * fst p; fst p * snd p; snd p * snd p; fst p; snd p; 1].
  Lemma rows_eq : forall xs ys, flat_map (fun y => map (fun x => basis x y) (map Some xs)) (map Some ys) = map (map Some) (map row (mesh xs ys)).
  Proof using.
    intros xs ys. unfold mesh. rewrite !flat_map_concat_map. rewrite !concat_map. rewrite !map_map. f_equal. apply map_ext. intros y. rewrite !map_map. apply map_ext. intros x. reflexivity.
  Qed.
  Lemma residue_eq : forall pts a b c d e f, residue (map row (map fst pts)) (map snd pts) [a; b; c; d; e; f] = misfit2 pts (Bowl a b c d e f).
  Proof using.
    intros pts a b c d e f. unfold residue, misfit2. induction pts as [|((x, y), v) pts IH]; [reflexivity|]. cbn [map combine]. change (total (?u :: ?w)) with (u + total w). rewrite IH. f_equal.
    unfold dot, row, paraboloid. cbn. unfold Rsqr. f_equal; ring.
  Qed.
  Definition bowl_scale (m : R) (q : bowl) : bowl := Bowl (m * qa q) (m * qb q) (m * qc q) (m * qd q) (m * qe q) (m * qf q).
  Lemma scale2 : forall pts m q, m <> 0 -> best2 (map (fun p => (fst p, snd p / m)) pts) q -> best2 pts (bowl_scale m q).
  Proof using.
    intros pts m q M B.
    assert (E : forall q, misfit2 pts q = m * m * misfit2 (map (fun p => (fst p, snd p / m)) pts) (bowl_scale (/ m) q)).
    { intros q'. unfold misfit2. rewrite <- total_scale, map_map. apply total_ext. intros p _. cbn [fst snd]. unfold paraboloid, bowl_scale. cbn [qa qb qc qd qe qf]. unfold Rsqr. field. assumption. }
    intros q'. rewrite !E. apply Rmult_le_compat_l; [nra|]. replace (bowl_scale (/ m) (bowl_scale m q)) with q; [apply B|]. destruct q as [a1 a2 a3 a4 a5 a6]. unfold bowl_scale. cbn [qa qb qc qd qe qf]. f_equal; field; assumption.
  Qed.
  Theorem unique2 : forall xs ys pts q q', (forall x y, In x xs -> In y ys -> In (x, y) (map fst pts)) -> three xs -> three ys -> best2 pts q -> best2 pts q' -> q = q'.
  Proof using.
    intros xs ys pts q q' C TX TY B B'.
    set (mid := Bowl ((qa q + qa q') / 2) ((qb q + qb q') / 2) ((qc q + qc q') / 2) ((qd q + qd q') / 2) ((qe q + qe q') / 2) ((qf q + qf q') / 2)).
    assert (K : total (map (fun p => Rsqr (paraboloid q (fst (fst p)) (snd (fst p)) - paraboloid q' (fst (fst p)) (snd (fst p))) / 4) pts) <= 0).
    { pose proof (B q') as H1. pose proof (B' q) as H2. pose proof (B mid) as H3.
      assert (E : misfit2 pts mid = / 2 * misfit2 pts q + / 2 * misfit2 pts q' - total (map (fun p => Rsqr (paraboloid q (fst (fst p)) (snd (fst p)) - paraboloid q' (fst (fst p)) (snd (fst p))) / 4) pts)).
      { unfold misfit2, mid. clear. induction pts as [|p pts IH]; [cbn; lra|]. cbn [map]. change (total (?u :: ?w)) with (u + total w). rewrite IH. unfold paraboloid. cbn [qa qb qc qd qe qf]. unfold Rsqr. field. }
      lra. }
    assert (V : forall x y, In x xs -> In y ys -> (qa q - qa q') * (x * x) + ((qb q - qb q') * y + (qd q - qd q')) * x + ((qc q - qc q') * (y * y) + (qe q - qe q') * y + (qf q - qf q')) = 0).
    { intros x y X Y. specialize (C x y X Y). apply in_map_iff in C. destruct C as (p & E & I).
      assert (Z := total_zero (fun p => Rsqr (paraboloid q (fst (fst p)) (snd (fst p)) - paraboloid q' (fst (fst p)) (snd (fst p))) / 4) pts ltac:(intros p0; pose proof (Rle_0_sqr (paraboloid q (fst (fst p0)) (snd (fst p0)) - paraboloid q' (fst (fst p0)) (snd (fst p0)))); lra) K p I).
      cbv beta in Z. rewrite E in Z. cbn [fst snd] in Z. assert (Z' : Rsqr (paraboloid q x y - paraboloid q' x y) = 0) by lra. apply Rsqr_0_uniq in Z'. unfold paraboloid in Z'. lra. }
    destruct TX as (x1 & x2 & x3 & I1 & I2 & I3 & N1 & N2 & N3). destruct TY as (y1 & y2 & y3 & J1 & J2 & J3 & M1 & M2 & M3).
    assert (W : forall y, In y ys -> qa q - qa q' = 0 /\ (qb q - qb q') * y + (qd q - qd q') = 0 /\ (qc q - qc q') * (y * y) + (qe q - qe q') * y + (qf q - qf q') = 0).
    { intros y Y. apply (vanish3 _ _ _ x1 x2 x3 N1 N2 N3); apply V; assumption. }
    destruct (W y1 J1) as (A & D1 & F1). destruct (W y2 J2) as (_ & D2 & F2). destruct (W y3 J3) as (_ & _ & F3).
    destruct (vanish3 _ _ _ y1 y2 y3 M1 M2 M3 F1 F2 F3) as (C0 & E0 & F0).
    assert (B0 : qb q - qb q' = 0). { apply Rmult_eq_reg_r with (y1 - y2); [|lra]. lra. }
    rewrite B0 in D1. destruct q as [a1 a2 a3 a4 a5 a6], q' as [b1 b2 b3 b4 b5 b6]. cbn [qa qb qc qd qe qf] in *. f_equal; lra.
  Qed.
  Lemma exact_best2 : forall pts q, (forall p, In p pts -> snd p = paraboloid q (fst (fst p)) (snd (fst p))) -> best2 pts q.
  Proof using.
    intros pts q E q'. replace (misfit2 pts q) with 0; [apply total_nonneg; intros; apply Rle_0_sqr|]. unfold misfit2. rewrite (total_ext _ (fun _ => 0)); [symmetry; apply total_const0|].
    intros p I. rewrite (E p I). unfold Rsqr. ring.
  Qed.
  Lemma res_pos : 0 < resolution.
  Proof using. unfold resolution. apply Rinv_0_lt_compat, pow_lt. lra. Qed.
  Lemma level2_iff : forall m q, m <> 0 -> (level2 m (bowl_scale m q) <-> Rabs (qb q * qb q - 4 * qa q * qc q) < 4 * resolution \/ Rabs (2 * qc q) < 2 * resolution).
  Proof using.
    intros m q M. unfold level2, resolution, bowl_scale. cbn [qa qb qc qd qe qf].
    replace (m * qb q * (m * qb q) - 4 * (m * qa q) * (m * qc q)) with ((m * m) * (qb q * qb q - 4 * qa q * qc q)) by ring. rewrite !Rabs_mult. rewrite (Rabs_right 2) by lra.
    assert (P : 0 < Rabs m) by (apply Rabs_pos_lt; assumption). assert (S : m * m = Rabs m * Rabs m) by (rewrite <- Rabs_mult; symmetry; apply Rabs_right; nra). rewrite S. set (k := Rabs m) in *. set (u := Rabs (qb q * qb q - 4 * qa q * qc q)). set (w := Rabs (qc q)).
    assert (T : 0 < 10 ^ 15) by (apply pow_lt; lra). set (t := / 10 ^ 15). unfold Rdiv. fold t.
    assert (PP : 0 < k * k) by (apply Rmult_lt_0_compat; assumption). split; (intros [H|H]; [left|right]).
    - apply Rmult_lt_reg_l with (k * k); [assumption|]. lra.
    - apply Rmult_lt_compat_l; [lra|]. apply Rmult_lt_reg_l with k; [assumption|]. exact H.
    - apply Rmult_lt_compat_l with (r := k * k) in H; [|assumption]. lra.
    - apply Rmult_lt_compat_l; [assumption|]. lra.
  Qed.
  Lemma shape_table : forall {A} (xs ys : list R) (a : list (list A)), xs <> [] -> ys <> [] -> table xs ys a -> shape a = (length ys, length xs).
  Proof using.
    intros A xs ys a _ NY (L & F). unfold shape. rewrite L. f_equal. destruct a as [|r a]; [destruct ys; [congruence|discriminate]|]. cbn. inversion F. assumption.
  Qed.
  Lemma table_concat : forall {A} (xs ys : list R) (a : list (list A)), table xs ys a -> length (List.concat a) = length (mesh xs ys).
  Proof using.
    intros A xs ys a (L & F). unfold mesh. rewrite flat_map_concat_map. revert ys L. induction F as [|r a E F IH]; intros [|y ys] L; try discriminate; [reflexivity|].
    cbn [map List.concat]. rewrite !app_length, map_length. injection L as L. rewrite (IH ys L), E. reflexivity.
  Qed.
  Theorem opt2 : least_squares lstsq -> forall xs ys a mask m, table xs ys a -> table xs ys mask -> zero_one mask -> greatest (List.concat a) m -> m <> 0 ->
    exists q, best2 (cells xs ys a mask) q /\
      (level2 m q -> find_optimum_2d lstsq (map Some xs) (map Some ys) (map (map Some) a) mask = Raise ValueError) /\
      (~ level2 m q -> exists x y, find_optimum_2d lstsq (map Some xs) (map Some ys) (map (map Some) a) mask = Ok (Some x, Some y) /\
         qb q * qb q - 4 * qa q * qc q <> 0 /\ qc q <> 0 /\ stationary q x y).
  Proof using.
    intros P xs ys a mask m TA TM ZO G M.
    assert (NX : xs <> [] /\ ys <> []).
    { assert (NE : List.concat a <> []) by (intros E; rewrite E in G; destruct G as ([] & _)). assert (L := table_concat xs ys a TA). split; intros ->; apply NE.
      - apply length_zero_iff_nil. rewrite L. clear. unfold mesh. induction ys; [reflexivity|assumption].
      - destruct TA as (L0 & _). destruct a; [reflexivity|discriminate]. }
    destruct NX as (NX & NY).
    unfold find_optimum_2d. assert (TA' : @table num xs ys (map (map (@Some R)) a)).
    { destruct TA as (L & F). split; [rewrite map_length; assumption|]. apply Forall_forall. intros r I. apply in_map_iff in I. destruct I as (r' & <- & I). rewrite map_length. rewrite Forall_forall in F. apply F; assumption. }
    rewrite (@shape_table num xs ys _ NX NY TA'), (shape_table xs ys _ NX NY TM). cbn [fst snd]. rewrite !map_length, !Nat.eqb_refl. cbn [andb negb].
    rewrite <- concat_map. rewrite (nmax_some _ m G). cbn [bind]. rewrite rows_eq.
    assert (LM := table_concat xs ys mask TM). assert (LA := table_concat xs ys a TA).
    rewrite (npix_eq (map (map Some) (map row (mesh xs ys))) (List.concat mask)) by (try exact ZO; rewrite !map_length; symmetry; assumption). rewrite Z.add_0_l, Z.eqb_refl. cbn [orb negb].
    rewrite norm_some by assumption. rewrite !picked_map.
    destruct (picked_pair (mesh xs ys) (List.concat a) (List.concat mask) ltac:(symmetry; assumption)) as (E1 & E2). rewrite E1, E2.
    rewrite (picked_filter (combine (mesh xs ys) (List.concat a)) (List.concat mask) ZO). fold (cells xs ys a mask). set (pts := cells xs ys a mask).
    destruct (P (map row (map fst pts)) (map (fun y => y / m) (map snd pts))) as (c & C1 & C2 & C3).
    { rewrite !map_length. reflexivity. }
    { apply Forall_forall. intros r I. apply in_map_iff in I. destruct I as (p & <- & _). reflexivity. }
    rewrite C1. cbn [bind]. destruct c as [|ca [|cb [|cc [|cd [|ce [|cf [|]]]]]]]; try discriminate. cbn [map].
    set (q0 := Bowl ca cb cc cd ce cf).
    assert (V : map (fun y => y / m) (map snd pts) = map snd (map (fun p => (fst p, snd p / m)) pts)) by (rewrite !map_map; reflexivity).
    assert (W : map fst pts = map fst (map (fun p => (fst p, snd p / m)) pts)) by (rewrite !map_map; reflexivity).
    exists (bowl_scale m q0). split.
    { apply scale2; [assumption|]. intros q'. specialize (C3 [qa q'; qb q'; qc q'; qd q'; qe q'; qf q'] eq_refl). rewrite V, W in C3. rewrite !residue_eq in C3. destruct q' as [a1 a2 a3 a4 a5 a6]. exact C3. }
    rewrite level2_iff by assumption. cbn [q0 qa qb qc qd qe qf].
    cbn [nmul nsub nadd nopp nabs lift2 option_map nlt]. 
    destruct (Rlt_dec (Rabs (cb * cb - 4 * ca * cc)) (4 * resolution)) as [H1|H1]; [split; [reflexivity|intros H; exfalso; apply H; left; assumption]|].
    destruct (Rlt_dec (Rabs (2 * cc)) (2 * resolution)) as [H2|H2]; [split; [reflexivity|intros H; exfalso; apply H; right; assumption]|].
    cbn [orb]. split; [intros [H|H]; contradiction|]. intros _. pose proof res_pos as RP.
    assert (D1 : cb * cb - 4 * ca * cc <> 0) by (intros E; rewrite E, Rabs_R0 in H1; lra). assert (D2 : 2 * cc <> 0) by (intros E; rewrite E, Rabs_R0 in H2; lra).
    cbn [ndiv lift2]. destruct (Req_EM_T (cb * cb - 4 * ca * cc) 0); [contradiction|]. unfold nadd, nopp. cbn [lift2 option_map ndiv]. destruct (Req_EM_T (2 * cc) 0); [contradiction|].
    assert (D3 : cc <> 0) by lra.
    eexists. eexists. split; [reflexivity|]. unfold bowl_scale, stationary. cbn [qa qb qc qd qe qf]. split; [|split; [|split]].
    - intros E. unfold q0 in E. cbn [qa qb qc] in E. apply D1. apply Rmult_eq_reg_l with (m * m); [replace (m * m * (cb * cb - 4 * ca * cc)) with (m * cb * (m * cb) - 4 * (m * ca) * (m * cc)) by ring; rewrite E; ring|]. intros Q. apply Rmult_integral in Q. tauto.
    - intros E. apply Rmult_integral in E. tauto.
    - unfold q0. cbn [qa qb qc qd qe qf]. field. split; assumption.
    - unfold q0. cbn [qa qb qc qd qe qf]. field. split; assumption.
  Qed.
  Lemma opt2_spoilt : lstsq_spoilt lstsq -> forall (xs ys : list num) (a : list (list num)), (In None (List.concat a) \/ exists vs, List.concat a = map Some vs /\ greatest vs 0) ->
    forall r, find_optimum_2d lstsq xs ys a (map (map (fun _ => 1%Z)) a) = Ok r -> r = (None, None).
  Proof using.
    intros P xs ys a H r. unfold find_optimum_2d. destruct (negb _); [discriminate|]. destruct (negb _); [discriminate|]. destruct (negb _); [discriminate|].
    destruct (spoilt_norm _ H) as (m & E1 & E2). rewrite E1. cbn [bind]. rewrite E2. clear E1 E2. destruct (negb _); [discriminate|]. destruct (lstsq _ _) as [c|e] eqn:E; cbn [bind]; [|discriminate].
    assert (F : Forall (fun v => v = None) c).
    { apply (P _ _ c) in E; [assumption|]. rewrite <- concat_map. assert (NE : List.concat a <> []) by (destruct H as [H|(vs & -> & (H & _))]; [intros Q; rewrite Q in H; destruct H|destruct vs; [destruct H|discriminate]]).
      destruct (List.concat a); [congruence|]. left. reflexivity. }
    destruct c as [|c1 [|c2 [|c3 [|c4 [|c5 c]]]]]; try discriminate. inversion F as [|? ? -> F1]. inversion F1 as [|? ? -> F2]. inversion F2 as [|? ? -> F3]. inversion F3 as [|? ? -> F4]. inversion F4 as [|? ? -> F5].
    cbn. intros Q. injection Q as <-. reflexivity.
  Qed.
  (** Exact data. *)
  Definition everywhere (xs ys : list R) : list (list Z) := map (fun _ => map (fun _ => 1%Z) xs) ys.
  Theorem opt2_exact : least_squares lstsq -> forall xs ys q m, three xs -> three ys -> greatest (List.concat (map (fun y => map (fun x => paraboloid q x y) xs) ys)) m -> m <> 0 -> ~ level2 m q ->
    exists x y, find_optimum_2d lstsq (map Some xs) (map Some ys) (map (fun y => map (fun x => Some (paraboloid q x y)) xs) ys) (map (fun _ => map (fun _ => 1%Z) xs) ys) = Ok (Some x, Some y) /\
      stationary q x y /\ forall x' y', stationary q x' y' -> x' = x /\ y' = y.
  Proof using.
    intros P xs ys q m TX TY G M N. set (a := map (fun y => map (fun x => paraboloid q x y) xs) ys) in *.
    assert (TA : table xs ys a). { split; [apply map_length|]. apply Forall_forall. intros r I. apply in_map_iff in I. destruct I as (y & <- & _). apply map_length. }
    assert (TM : table xs ys (everywhere xs ys)). { split; [apply map_length|]. apply Forall_forall. intros r I. apply in_map_iff in I. destruct I as (y & <- & _). apply map_length. }
    assert (ZO : zero_one (everywhere xs ys)). { intros k I. right. apply in_concat in I. destruct I as (r & I & K). apply in_map_iff in I. destruct I as (y & <- & _). apply in_map_iff in K. destruct K as (x & <- & _). reflexivity. }
    destruct (opt2 P xs ys a (everywhere xs ys) m TA TM ZO G M) as (q' & B & _ & F).
    assert (C : cells xs ys a (everywhere xs ys) = map (fun p => (p, paraboloid q (fst p) (snd p))) (mesh xs ys)).
    { unfold cells. assert (A1 : List.concat a = map (fun p => paraboloid q (fst p) (snd p)) (mesh xs ys)).
      { unfold a, mesh. rewrite flat_map_concat_map, concat_map, map_map. f_equal. apply map_ext. intros y. rewrite map_map. reflexivity. }
      assert (A2 : List.concat (everywhere xs ys) = map (fun _ => 1%Z) (mesh xs ys)).
      { unfold everywhere, mesh. rewrite flat_map_concat_map, concat_map, map_map. f_equal. apply map_ext. intros y. rewrite map_map. reflexivity. }
      rewrite A1, A2. generalize (mesh xs ys). intros l. induction l as [|p l IH]; [reflexivity|]. cbn [map combine filter snd Z.eqb Pos.eqb fst]. f_equal. exact IH. }
    assert (E : q' = q).
    { rewrite C in B. apply unique2 with xs ys (map (fun p => (p, paraboloid q (fst p) (snd p))) (mesh xs ys)); try assumption.
      - intros x y X Y. rewrite map_map. cbn [fst]. rewrite map_id. unfold mesh. apply in_flat_map. exists y. split; [assumption|]. apply in_map_iff. exists x. split; [reflexivity|assumption].
      - apply exact_best2. intros p I. apply in_map_iff in I. destruct I as (p' & <- & _). reflexivity. }
    subst q'. destruct (F N) as (x & y & R & D & D2 & S). exists x, y. split; [|split; [assumption|]].
    - rewrite <- R. f_equal. unfold a. rewrite map_map. apply map_ext. intros y0. rewrite map_map. reflexivity.
    - destruct S as (S1 & S2). intros x' y' (S3 & S4).
      assert (E1 : 2 * qa q * (x' - x) + qb q * (y' - y) = 0) by lra. assert (E2 : qb q * (x' - x) + 2 * qc q * (y' - y) = 0) by lra.
      assert (X : x' - x = 0). { apply Rmult_eq_reg_l with (qb q * qb q - 4 * qa q * qc q); [|assumption]. replace ((qb q * qb q - 4 * qa q * qc q) * (x' - x)) with (qb q * (qb q * (x' - x) + 2 * qc q * (y' - y)) - 2 * qc q * (2 * qa q * (x' - x) + qb q * (y' - y))) by ring. rewrite E1, E2. ring. }
      split; [lra|]. assert (Y : y' - y = 0). { apply Rmult_eq_reg_l with (2 * qc q); [|lra]. rewrite X in E2. lra. } lra.
  Qed.
  Theorem opt2_shape : forall xs ys a mask, shape a <> shape mask \/ shape a <> (length ys, length xs) \/ List.concat a = [] -> find_optimum_2d lstsq xs ys a mask = Raise ValueError.
  Proof using.
    intros xs ys a mask H. unfold find_optimum_2d. destruct (Nat.eqb_spec (fst (shape a)) (fst (shape mask))) as [E1|E1]; [|reflexivity]. destruct (Nat.eqb_spec (snd (shape a)) (snd (shape mask))) as [E2|E2]; [|reflexivity]. cbn [andb negb].
    destruct (Nat.eqb_spec (fst (shape a)) (length ys)) as [E3|E3]; [|reflexivity]. cbn [negb]. destruct (Nat.eqb_spec (snd (shape a)) (length xs)) as [E4|E4]; [|reflexivity]. cbn [negb].
    destruct H as [H|[H|H]]; [exfalso; apply H; destruct (shape a), (shape mask); cbn in *; congruence|exfalso; apply H; destruct (shape a); cbn in *; congruence|]. rewrite H. reflexivity.
  Qed.
End Fits.
