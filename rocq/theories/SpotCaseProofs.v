(** A case worked through: two spots in an image of five by five pixels. *)
From Coq Require Import List Arith Bool Reals ZArith Lra Lia Psatz.
From Verif Require Import Base DqModel SpotModel SpotSpec SpotProofs SpotFitProofs SpotSearchProofs SpotTopProofs SpotFoundProofs.
Import ListNotations.
Local Open Scope R_scope.

(** A disc narrower than the step from pixel to pixel holds the one pixel it is centred on. *)
Lemma one_pixel : forall x y, coverage 1 (/ 4) (IZR x) (IZR y) = if (Z.eqb x 0 && Z.eqb y 0)%bool then 1 else 0.
Proof.
  intros x y. unfold coverage, covered. cbn [seq list_prod map app filter fst snd]. assert (S0 : sub_pos 1 0 = 0) by (unfold sub_pos; cbn; field). rewrite S0, !Rplus_0_r.
  destruct (in_disc_dec (/ 4) (IZR x) (IZR y)) as [(_ & D)|D].
  - assert (Q : (x * x + y * y < 1)%Z) by (apply lt_IZR; rewrite plus_IZR, !mult_IZR; lra). assert (X : x = 0%Z) by nia. assert (Y : y = 0%Z) by nia. subst. cbn. field.
  - destruct (Z.eqb_spec x 0) as [->|X]; [destruct (Z.eqb_spec y 0) as [->|Y]|]; cbn; try lra. exfalso. apply D. split; lra.
Qed.
Definition ring_of (i j : Z) : R := IZR ((if (Z.abs (j - 2) =? 0)%Z then 0 else if (Z.abs (j - 2) =? 1)%Z then 3 else 2) - (i - 2) * (i - 2))%Z.
Definition sky : nat -> nat -> R := fun i j => ring_of (Z.of_nat i) (Z.of_nat j).
Definition dim : image := mkimage 5 5 (fun _ _ => Some 1).
Definition lit : image := mkimage 5 5 (fun i j => Some (sky i j + 1)).
Definition for_star : tuning := mktuning 1 (/ 4) [0] 1 3 1 1.
Lemma lit_holds : holds (difference lit dim) sky.
Proof. intros i j _ _. cbn. unfold nsub, lift2. f_equal. ring. Qed.
Lemma light_at : forall x y, (-2 <= x <= 2)%Z -> (-2 <= y <= 2)%Z -> light (difference lit dim) sky 1 (/ 4) (IZR x) (IZR y) = ring_of (y + 2) (x + 2).
Proof.
  intros x y X Y. unfold light. cbn [ny nx difference lit]. change (5 / 2)%nat with 2%nat.
  rewrite (map_ext _ (fun p => (if (Z.eqb (Z.of_nat (snd p)) (x + 2) && Z.eqb (Z.of_nat (fst p)) (y + 2))%bool then 1 else 0) * sky (fst p) (snd p))).
  - assert (CX : x = (-2)%Z \/ x = (-1)%Z \/ x = 0%Z \/ x = 1%Z \/ x = 2%Z) by lia. assert (CY : y = (-2)%Z \/ y = (-1)%Z \/ y = 0%Z \/ y = 1%Z \/ y = 2%Z) by lia.
    destruct CX as [->|[->|[->|[->| ->]]]]; destruct CY as [->|[->|[->|[->| ->]]]]; unfold pixels, sky, ring_of; cbn; lra.
  - intros (i, j). cbn [fst snd]. rewrite !INR_IZR_INZ, <- !minus_IZR, one_pixel. replace (Z.eqb (Z.of_nat j - Z.of_nat 2 - x) 0) with (Z.eqb (Z.of_nat j) (x + 2)) by (destruct (Z.eqb_spec (Z.of_nat j - Z.of_nat 2 - x) 0); destruct (Z.eqb_spec (Z.of_nat j) (x + 2)); try reflexivity; exfalso; lia).
    replace (Z.eqb (Z.of_nat i - Z.of_nat 2 - y) 0) with (Z.eqb (Z.of_nat i) (y + 2)) by (destruct (Z.eqb_spec (Z.of_nat i - Z.of_nat 2 - y) 0); destruct (Z.eqb_spec (Z.of_nat i) (y + 2)); try reflexivity; exfalso; lia). reflexivity.
Qed.
Lemma collected_at : forall x y s, (-2 <= x - s)%Z -> (x + s <= 2)%Z -> (0 <= s)%Z -> (-2 <= y <= 2)%Z -> collected (difference lit dim) sky for_star (IZR s) (IZR x) (IZR y) = ring_of (y + 2) (x + s + 2) + ring_of (y + 2) (x - s + 2).
Proof.
  intros x y s A B C D. unfold collected. cbn [for_star t_rots t_sub t_r spots_at flat_map map app fst snd total fold_right]. replace (0 * PI / 180) with 0 by field. rewrite cos_0, sin_0, !Rmult_1_r, !Rmult_0_r, Rplus_0_r, Rminus_0_r. rewrite <- plus_IZR, <- minus_IZR. rewrite !light_at by lia. ring.
Qed.
Lemma grid_at : forall c, grid for_star (IZR c) = [IZR (c - 1); IZR c; IZR (c + 1)].
Proof. intros c. unfold grid. cbn [for_star t_steps t_step seq map]. rewrite minus_IZR, plus_IZR. f_equal; [cbn; field|]. f_equal; [cbn; field|]. f_equal. cbn. field. Qed.
Theorem case_star : sharp (difference lit dim) sky for_star 0 0 (0, 0) (0, 0).
Proof.
  exists (Bowl (-4) 0 (-2) 0 0 6), 6. cbn [fst snd]. unfold grid2. rewrite (grid_at 0). cbn [Z.sub Z.add Z.opp Z.pos_sub].
  assert (V : forall x y, In x [-1; 0; 1]%Z -> In y [-1; 0; 1]%Z -> collected (difference lit dim) sky for_star (t_sep for_star) (0 + IZR x) (0 + IZR y) = paraboloid (Bowl (-4) 0 (-2) 0 0 6) (IZR x) (IZR y)).
  { intros x y X Y. rewrite !Rplus_0_l. change (t_sep for_star) with (IZR 1). unfold paraboloid. cbn [qa qb qc qd qe qf]. cbn in X, Y. destruct X as [<-|[<-|[<-|[]]]]; destruct Y as [<-|[<-|[<-|[]]]]; rewrite collected_at by lia; unfold ring_of; cbn; lra. }
  split; [|split; [|split; [lra|split]]].
  - apply exact_best2. intros p I. apply in_map_iff in I. destruct I as ((x, y) & <- & I). cbn [fst snd]. apply in_flat_map in I. destruct I as (y0 & J & I). apply in_map_iff in I. destruct I as (x0 & E & I). injection E as <- <-. cbn in I, J.
    destruct I as [<-|[<-|[<-|[]]]]; destruct J as [<-|[<-|[<-|[]]]]; apply V; cbn; auto.
  - rewrite map_map. cbn [snd]. split.
    + apply in_map_iff. exists (0, 0). split; [cbn [fst snd]; rewrite (V 0%Z 0%Z) by (cbn; auto); unfold paraboloid; cbn; ring|]. apply in_flat_map. exists 0. split; [cbn; auto|]. apply in_map_iff. exists 0. split; [reflexivity|cbn; auto].
    + intros z I. apply in_map_iff in I. destruct I as ((x, y) & <- & I). cbn [fst snd]. apply in_flat_map in I. destruct I as (y0 & J & I). apply in_map_iff in I. destruct I as (x0 & E & I). injection E as <- <-. cbn in I, J.
      destruct I as [<-|[<-|[<-|[]]]]; destruct J as [<-|[<-|[<-|[]]]]; match goal with |- collected _ _ _ _ (0 + IZR ?a) (0 + IZR ?b) <= _ => rewrite (V a b) by (cbn; auto) end; unfold paraboloid; cbn; lra.
  - unfold level2. cbn [qa qb qc]. intros [L|L].
    + replace (0 * 0 - 4 * -4 * -2) with (-32) in L by ring. rewrite Rabs_left in L by lra. lra.
    + rewrite Rabs_left in L by lra. rewrite Rabs_pos_eq in L by lra. lra.
  - unfold stationary. cbn. split; ring.
Qed.
Theorem case_sep : sharp1 (difference lit dim) sky for_star 0 0 1 (5 / 4).
Proof.
  assert (V : forall s, In s [0; 1; 2]%Z -> collected (difference lit dim) sky for_star (IZR s) 0 0 = parabola (-4, 10, 0) (IZR s)).
  { intros s I. cbn in I. change 0 with (IZR 0) at 1. destruct I as [<-|[<-|[<-|[]]]]; rewrite (collected_at 0 0) by lia; unfold ring_of, parabola; cbn; lra. }
  exists (-4), 10, 0, 6. rewrite (grid_at 1). cbn [Z.sub Z.add Z.opp Z.pos_sub Pos.add map snd].
  assert (I0 : In 0%Z [0; 1; 2]%Z) by (cbn; auto). assert (I1 : In 1%Z [0; 1; 2]%Z) by (cbn; auto). assert (I2 : In 2%Z [0; 1; 2]%Z) by (cbn; auto).
  change (Z.pos_sub 1 1) with 0%Z. rewrite (V 0%Z I0), (V 1%Z I1), (V 2%Z I2).
  split; [|split; [|split; [lra|split; [|lra]]]].
  - apply exact_best1. intros q [<-|[<-|[<-|[]]]]; reflexivity.
  - unfold parabola. split; [right; left; ring|]. intros z [<-|[<-|[<-|[]]]]; lra.
  - unfold level1. rewrite Rabs_left by lra. rewrite Rabs_pos_eq by lra. intros L. assert (1 < 2 ^ 52) by (cbn; lra). apply (Rmult_lt_compat_r (2 ^ 52)) in L; [|lra]. unfold Rdiv in L. rewrite Rmult_assoc, Rinv_l, Rmult_1_r in L by lra. lra.
Qed.
Theorem case_found : forall polyfit lstsq, least_squares lstsq -> least_parabola polyfit ->
  star_center polyfit lstsq dim lit (2, 2) 0 for_star for_star = Ok ((Some 2, Some 2), somes (spots_at [0 + 0] (5 / 4) 0 0)).
Proof.
  intros polyfit lstsq LS LP. pose proof (found polyfit lstsq LS LP dim lit (2, 2) 0 for_star for_star sky 2 2 (5 / 4) eq_refl eq_refl lit_holds) as F.
  assert (MX : mid_x lit = 2) by (unfold mid_x; cbn; ring). assert (MY : mid_y lit = 2) by (unfold mid_y; cbn; ring). rewrite MX, MY in F. cbn [fst snd] in F. replace (2 - 2) with 0 in F by ring. apply F; clear F.
  - split; cbn; lia.
  - split; cbn; lia.
  - cbn; lia.
  - cbn; lra.
  - cbn; lia.
  - cbn; lra.
  - cbn [for_star t_iter]. econstructor; [apply case_star|constructor].
  - unfold sharply. cbn [for_star t_iter t_sep]. apply case_sep.
Qed.

(** A minimiser that stays where it is. *)
Definition stay (f : list num -> result num) (x0 : list R) (bounds : list (R * R)) (m : unit) : result (option (list R)) :=
  Ok (if (Nat.eqb (length x0) (length bounds) && forallb (fun xb => if Rle_dec (fst (snd xb)) (fst xb) then if Rle_dec (fst xb) (snd (snd xb)) then true else false else false) (combine x0 bounds))%bool then Some x0 else None).
Lemma stay_no_worse : no_worse stay.
Proof.
  intros f x0 bounds m p. unfold stay. destruct (Nat.eqb_spec (length x0) (length bounds)) as [L|L]; cbn [andb]; [|discriminate]. destruct (forallb _ _) eqn:F; [|discriminate]. intros E. injection E as <-. split.
  - split; [assumption|]. apply Forall_forall. intros xb I. rewrite forallb_forall in F. specialize (F xb I). destruct (Rle_dec (fst (snd xb)) (fst xb)) as [A|]; [|discriminate]. destruct (Rle_dec (fst xb) (snd (snd xb))) as [B|]; [|discriminate]. split; assumption.
  - intros a b E1 E2. rewrite E1 in E2. injection E2 as <-. lra.
Qed.
Lemma stay_joint : exists m, joint stay lit 0 0 for_star (Some 1) (Some 1) (Some tt) = Ok ((0, 0, 1), m).
Proof.
  unfold joint, stay. cbn [getkey bind length Nat.eqb andb combine forallb fst snd for_star t_sep].
  repeat match goal with |- context [Rle_dec ?a ?b] => destruct (Rle_dec a b) as [?|?K]; [|exfalso; apply K; lra] end. cbn [andb bind map].
  unfold roi_mask_for_spots. cbn [fx_img fx_rots fx_r fx_n for_star t_rots t_r t_sub]. destruct (roi_ok (ny lit) (nx lit) [0] 1 0 0 (/ 4) 1 ltac:(split; cbn; lia) (fun _ _ => 0)) as (m & E & _). rewrite E. cbn [bind snd]. eexists. reflexivity.
Qed.
