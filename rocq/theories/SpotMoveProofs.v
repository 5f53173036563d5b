(** An image moved by whole pixels: the star and the spots move with it. *)
From Coq Require Import List Arith Bool Reals ZArith Lra Lia Psatz.
From Verif Require Import Base DqModel SpotModel SpotSpec SpotProofs SpotFitProofs SpotSearchProofs SpotTopProofs.
Import ListNotations.
Local Open Scope R_scope.

Definition zsum (n : nat) (F : Z -> R) : R := sum_to n (fun k => F (Z.of_nat k)).
Lemma zsum_ext : forall n F G, (forall z, (0 <= z < Z.of_nat n)%Z -> F z = G z) -> zsum n F = zsum n G.
Proof. intros n F G H. unfold zsum. apply sum_to_ext. intros k K. apply H. lia. Qed.
(** One step to the right. *)
Lemma zsum_step : forall n F, zsum (S n) (fun z => F (z - 1)%Z) = F (-1)%Z + zsum n F.
Proof.
  unfold zsum. induction n as [|n IH]; intros F; [cbn; lra|]. cbn [sum_to] in *. rewrite IH. replace (Z.of_nat (S n) - 1)%Z with (Z.of_nat n) by lia. lra.
Qed.
Definition within (n : nat) (z : Z) : Prop := (0 <= z < Z.of_nat n)%Z.
Lemma zsum_right : forall n d F, (forall z, F z <> 0 -> within n z /\ within n (z + Z.of_nat d)) -> zsum n (fun z => F (z - Z.of_nat d)%Z) = zsum n F.
Proof.
  intros n d. induction d as [|d IH]; intros F H; [apply zsum_ext; intros z _; f_equal; lia|].
  transitivity (zsum n (fun z => (fun y => F (y - 1)%Z) (z - Z.of_nat d)%Z)); [apply zsum_ext; intros z _; f_equal; lia|].
  rewrite (IH (fun y => F (y - 1)%Z)).
  - destruct n as [|n]; [reflexivity|]. rewrite zsum_step. unfold zsum at 2. cbn [sum_to]. fold (zsum n F).
    assert (Z1 : F (-1)%Z = 0). { destruct (Req_EM_T (F (-1)%Z) 0) as [|N]; [assumption|]. apply H in N. unfold within in N. lia. }
    assert (Z2 : F (Z.of_nat n) = 0). { destruct (Req_EM_T (F (Z.of_nat n)) 0) as [|N]; [assumption|]. apply H in N. unfold within in N. lia. }
    rewrite Z1, Z2. unfold zsum. lra.
  - intros z N. apply H in N. unfold within in *. lia.
Qed.
Lemma zsum_move : forall n d F, (forall z, F z <> 0 -> within n z /\ within n (z + d)) -> zsum n (fun z => F (z - d)%Z) = zsum n F.
Proof.
  intros n d F H. destruct (Z_le_gt_dec 0 d) as [P|P].
  - rewrite <- (Z2Nat.id d) by lia. apply zsum_right. rewrite (Z2Nat.id d) by lia. assumption.
  - pose proof (zsum_right n (Z.to_nat (- d)) (fun z => F (z - d)%Z)) as E. rewrite (Z2Nat.id (- d)) in E by lia. rewrite <- E.
    + apply zsum_ext. intros z _. f_equal. lia.
    + intros z N. apply H in N. unfold within in *. lia.
Qed.
Lemma zsum_zero : forall n F, (forall z, F z = 0) -> zsum n F = 0.
Proof. intros n F H. unfold zsum. induction n as [|n IH]; [reflexivity|]. cbn [sum_to]. rewrite IH, H. lra. Qed.
Lemma zsum_move2 : forall n m dy dx (F : Z -> Z -> R), (forall z w, F z w <> 0 -> within n z /\ within m w /\ within n (z + dy) /\ within m (w + dx)) ->
  zsum n (fun z => zsum m (fun w => F (z - dy)%Z (w - dx)%Z)) = zsum n (fun z => zsum m (fun w => F z w)).
Proof.
  intros n m dy dx F H. rewrite <- (zsum_move n dy (fun z => zsum m (fun w => F z w))).
  - apply zsum_ext. intros z _. apply (zsum_move m dx (fun w => F (z - dy)%Z w)). intros w N. destruct (H _ _ N) as (_ & W & _ & W'). auto.
  - intros z N. destruct (Z_lt_le_dec z 0) as [L|L]; [|destruct (Z_lt_le_dec z (Z.of_nat n)) as [L2|L2]; [destruct (Z_lt_le_dec (z + dy) 0) as [L3|L3]; [|destruct (Z_lt_le_dec (z + dy) (Z.of_nat n)) as [L4|L4]; [split; split; assumption|]]|]];
      exfalso; apply N; apply zsum_zero; intros w; (destruct (Req_EM_T (F z w) 0) as [|Q]; [assumption|]); destruct (H _ _ Q) as ((? & ?) & _ & (? & ?) & _); lia.
Qed.

Lemma light_plane : forall img v n r x y, light img v n r x y =
  zsum (ny img) (fun z => zsum (nx img) (fun w => coverage n r (IZR w - INR (nx img / 2) - x) (IZR z - INR (ny img / 2) - y) * on_plane img v z w)).
Proof.
  intros img v n r x y. unfold light, pixels. rewrite (total_prod (fun i j => coverage n r (INR j - INR (nx img / 2) - x) (INR i - INR (ny img / 2) - y) * v i j)). unfold zsum. rewrite sum_to_total. apply total_ext. intros i I. apply in_seq in I. rewrite sum_to_total. apply total_ext. intros j J. apply in_seq in J.
  rewrite <- !INR_IZR_INZ. f_equal. unfold on_plane. rewrite !Nat2Z.id.
  assert (B : ((0 <=? Z.of_nat i)%Z && (Z.of_nat i <? Z.of_nat (ny img))%Z && (0 <=? Z.of_nat j)%Z && (Z.of_nat j <? Z.of_nat (nx img))%Z)%bool = true) by (repeat (apply andb_true_intro; split); [apply Z.leb_le|apply Z.ltb_lt|apply Z.leb_le|apply Z.ltb_lt]; lia).
  rewrite B. reflexivity.
Qed.
Lemma on_plane_in : forall img v z w, on_plane img v z w <> 0 -> within (ny img) z /\ within (nx img) w.
Proof.
  intros img v z w H. unfold on_plane in H. destruct ((0 <=? z)%Z && (z <? Z.of_nat (ny img))%Z && (0 <=? w)%Z && (w <? Z.of_nat (nx img))%Z)%bool eqn:B; [|congruence].
  repeat (apply andb_prop in B; let Q := fresh "Q" in destruct B as (B & Q)). apply Z.leb_le in B. apply Z.ltb_lt in Q. apply Z.leb_le in Q0. apply Z.ltb_lt in Q1. unfold within. lia.
Qed.
Lemma light_moved : forall img img' v v' dx dy n r x y, moved img img' v v' dx dy -> light img' v' n r (x + IZR dx) (y + IZR dy) = light img v n r x y.
Proof.
  intros img img' v v' dx dy n r x y (E1 & E2 & H). rewrite !light_plane. rewrite E1, E2.
  rewrite <- (zsum_move2 (ny img) (nx img) dy dx (fun z w => coverage n r (IZR w - INR (nx img / 2) - x) (IZR z - INR (ny img / 2) - y) * on_plane img v z w)).
  - apply zsum_ext. intros z _. apply zsum_ext. intros w _. rewrite <- (H (z - dy)%Z (w - dx)%Z). replace (z - dy + dy)%Z with z by lia. replace (w - dx + dx)%Z with w by lia. rewrite !minus_IZR. f_equal. f_equal; ring.
  - intros z w N. assert (P : on_plane img v z w <> 0) by (intros Q; apply N; rewrite Q; ring). split; [apply (on_plane_in _ _ _ _ P)|]. split; [apply (on_plane_in _ _ _ _ P)|].
    rewrite <- (H z w) in P. apply on_plane_in in P. rewrite E1, E2 in P. exact P.
Qed.
Lemma collected_moved : forall img img' v v' dx dy t sep x y, moved img img' v v' dx dy -> collected img' v' t sep (x + IZR dx) (y + IZR dy) = collected img v t sep x y.
Proof.
  intros img img' v v' dx dy t sep x y H. unfold collected, spots_at. induction (t_rots t) as [|d l IH]; [reflexivity|]. cbn [flat_map map]. rewrite !map_app, !total_app, IH. f_equal. cbn [map fst snd total fold_right].
  set (a := d * PI / 180). rewrite <- (light_moved img img' v v' dx dy _ _ (x + sep * cos a) (y + sep * sin a) H), <- (light_moved img img' v v' dx dy _ _ (x - sep * cos a) (y - sep * sin a) H).
  f_equal; [f_equal; ring|f_equal; f_equal; ring].
Qed.
Section Moved.
  Variable polyfit : list num -> list num -> result (num * num * num).
  Variable lstsq : list (list num) -> list num -> result (list num).
  Variables img img' : image.
  Variables v v' : nat -> nat -> R.
  Variables dx dy : Z.
  Hypothesis HV : holds img v.
  Hypothesis HV' : holds img' v'.
  Hypothesis MV : moved img img' v v' dx dy.
  Definition mv (d : Z) (a : num) : num := option_map (fun x => x + IZR d) a.
  Lemma masked_moved : forall t sep x y, makes (nx img) (t_sub t) -> masked_flux img' (t_rots t) sep (mv dx x) (mv dy y) (t_r t) (t_sub t) = masked_flux img (t_rots t) sep x y (t_r t) (t_sub t).
  Proof using HV HV' MV.
    intros t sep x y MK. assert (MK' : makes (nx img') (t_sub t)) by (destruct MV as (_ & -> & _); assumption).
    destruct sep as [sep|]; [destruct x as [x|]; [destruct y as [y|]|]|].
    - cbn [mv option_map]. rewrite (light_ok img' v') by assumption. rewrite (light_ok img v) by assumption. do 2 f_equal. apply collected_moved. assumption.
    - rewrite (light_dark img' v') by auto. rewrite (light_dark img v) by auto. reflexivity.
    - rewrite (light_dark img' v') by auto. rewrite (light_dark img v) by auto. reflexivity.
    - rewrite (light_dark img' v') by auto. rewrite (light_dark img v) by auto. reflexivity.
  Qed.
  Lemma star_moved : forall t xg yg, makes (nx img) (t_sub t) -> calc_star_location lstsq img' (xg + IZR dx) (yg + IZR dy) t = rmap (move dx dy) (calc_star_location lstsq img xg yg t).
  Proof using HV HV' MV.
    intros t xg yg MK. unfold calc_star_location.
    assert (S0 : forall est, star_step lstsq img' (xg + IZR dx) (yg + IZR dy) t est = star_step lstsq img xg yg t est).
    { intros est. unfold star_step. f_equal. apply mapR_ext. intros y _. apply mapR_ext. intros x _.
      replace (nadd (Some (xg + IZR dx)) x) with (mv dx (nadd (Some xg) x)) by (destruct x as [x|]; [unfold nadd; cbn; f_equal; ring|reflexivity]).
      replace (nadd (Some (yg + IZR dy)) y) with (mv dy (nadd (Some yg) y)) by (destruct y as [y|]; [unfold nadd; cbn; f_equal; ring|reflexivity]). apply masked_moved. assumption. }
    assert (L0 : forall n est, star_loop lstsq img' (xg + IZR dx) (yg + IZR dy) t n est = star_loop lstsq img xg yg t n est).
    { induction n as [|n IH]; intros est; [reflexivity|]. cbn [star_loop]. rewrite S0. destruct (star_step _ _ _ _ _ est) as [e1|e]; cbn [bind]; [apply IH|reflexivity]. }
    rewrite L0. destruct (star_loop _ _ _ _ _ _ _) as [(x, y)|e]; cbn [bind rmap]; [|reflexivity]. unfold move. cbn [fst snd]. do 2 f_equal; [destruct x as [x|]|destruct y as [y|]]; try reflexivity; unfold nadd; cbn; f_equal; ring.
  Qed.
  Lemma sep_moved : forall t x y, makes (nx img) (t_sub t) -> calc_spot_separation polyfit img' (mv dx x) (mv dy y) t = calc_spot_separation polyfit img x y t.
  Proof using HV HV' MV.
    intros t x y MK. unfold calc_spot_separation. generalize (Some (t_sep t)) as est. generalize true as b. generalize (t_iter t) as n. induction n as [|n IH]; intros b est; [reflexivity|].
    cbn [sep_loop]. assert (S0 : sep_step polyfit img' (mv dx x) (mv dy y) t b est = sep_step polyfit img x y t b est).
    { unfold sep_step. f_equal. apply mapR_ext. intros s _. apply masked_moved. assumption. }
    rewrite S0. clear S0. destruct (sep_step _ _ _ _ _ _ _) as [e1|e]; cbn [bind]; [apply IH|reflexivity].
  Qed.
End Moved.
Theorem follows : forall polyfit lstsq ref sat ref' sat' v v' dx dy g th off sp, ny ref = ny sat -> nx ref = nx sat -> ny ref' = ny sat' -> nx ref' = nx sat' ->
  holds (difference sat ref) v -> holds (difference sat' ref') v' -> moved (difference sat ref) (difference sat' ref') v v' dx dy ->
  makes (nx sat) (t_sub off) -> makes (nx sat) (t_sub sp) ->
  star_center polyfit lstsq ref' sat' (fst g + IZR dx, snd g + IZR dy) th off sp =
  match star_center polyfit lstsq ref sat g th off sp with Ok (star, l) => Ok (move dx dy star, map (move dx dy) l) | Raise e => Raise e end.
Proof.
  intros polyfit lstsq ref sat ref' sat' v v' dx dy (gx, gy) th off sp E1 E2 E1' E2' HV HV' MV M1 M2. unfold star_center. rewrite E1, E2, E1', E2', !Nat.eqb_refl. cbn [andb negb fst snd].
  assert (N1 : ny sat' = ny sat) by (destruct MV as (Q & _ & _); exact Q). assert (N2 : nx sat' = nx sat) by (destruct MV as (_ & Q & _); exact Q). rewrite N1, N2.
  replace (gx + IZR dx - INR (nx sat / 2)) with (gx - INR (nx sat / 2) + IZR dx) by ring. replace (gy + IZR dy - INR (ny sat / 2)) with (gy - INR (ny sat / 2) + IZR dy) by ring.
  rewrite (star_moved lstsq (difference sat ref) (difference sat' ref') v v' dx dy HV HV' MV off _ _ M1). destruct (calc_star_location _ _ _ _ _) as [(x, y)|e]; cbn [rmap bind fst snd move]; [|reflexivity].
  fold (mv dx x) (mv dy y). rewrite (sep_moved polyfit (difference sat ref) (difference sat' ref') v v' dx dy HV HV' MV sp _ _ M2). destruct (calc_spot_separation _ _ _ _ _) as [s|e]; cbn [bind]; [|reflexivity].
  assert (A : forall d (a b : num), nadd a (mv d b) = mv d (nadd a b)) by (intros d [a|] [b|]; try reflexivity; unfold nadd; cbn; f_equal; ring).
  assert (A' : forall d (a b : num), nadd (mv d a) b = mv d (nadd a b)) by (intros d [a|] [b|]; try reflexivity; unfold nadd; cbn; f_equal; ring).
  rewrite !A'. f_equal. f_equal. unfold spots. induction (t_rots sp) as [|d l IH]; [reflexivity|]. cbn [flat_map app map]. rewrite <- IH. rewrite !A. reflexivity.
Qed.
