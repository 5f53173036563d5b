(** Proofs for the injection of a PSF. *)
From Coq Require Import List Arith Bool Reals ZArith Lia Lra Permutation.
From Verif Require Import Base AngleModel AngleSpec NearModel NearSpec NearProofs NearFactsProofs CombineModel FindModel FindSpec FindProofs FlatModel ThruModel InjModel InjSpec.
Import ListNotations.
Local Open Scope R_scope.

Lemma spot_in : forall m r c, In (r, c) (spots m) <-> Inside m r c.
Proof. intros m r c. unfold spots, Inside. rewrite in_prod_iff, !in_seq. lia. Qed.
Lemma value_in : forall m v, In v (values m) <-> exists r c, Inside m r c /\ pix m r c = v.
Proof.
  intros m v. unfold values. rewrite in_map_iff. split.
  - intros ([r c] & E & H). exists r, c. split; [now apply spot_in|exact E].
  - intros (r & c & H & E). exists (r, c). split; [exact E|now apply spot_in].
Qed.
Lemma peak_iff : forall m v, peak_of m = Ok v <-> Peak m v.
Proof.
  intros m v. unfold peak_of. split.
  - destruct (nanmax (values m)) as [[[k x]|]|e] eqn:E; intros H; try discriminate; injection H as <-; simpl.
    + apply nanmax_some in E. destruct E as (N & B). split.
      * apply nth_error_In in N. apply value_in in N. exact N.
      * intros r c y I Y. assert (V : In (Some y) (values m)) by (apply value_in; eauto). apply In_nth_error in V. destruct V as [j J].
        apply (B _ _ J).
    + apply nanmax_none in E. destruct E as (N & B). split.
      * destruct (values m) as [|v l] eqn:V; [destruct (N eq_refl)|]. assert (I : In v (values m)) by (rewrite V; now left). apply value_in in I.
        destruct I as (r & c & I & _). eauto.
      * intros r c I. destruct (pix m r c) as [y|] eqn:Y; auto. assert (V : In (Some y) (values m)) by (apply value_in; eauto).
        apply In_nth_error in V. destruct V as [j J]. destruct (B _ _ J).
  - intros P. destruct (nanmax (values m)) as [[[k x]|]|e] eqn:E; cbn [bind option_map snd].
    + apply nanmax_some in E. destruct E as (N & B). destruct v as [v|].
      * destruct P as [(r & c & I & V) U]. f_equal. f_equal. apply Rle_antisym.
        -- apply nth_error_In in N. apply value_in in N. destruct N as (r' & c' & I' & V'). eapply U; eauto.
        -- assert (W : In (Some v) (values m)) by (apply value_in; eauto). apply In_nth_error in W. destruct W as [j J]. apply (B _ _ J).
      * destruct P as [_ U]. apply nth_error_In in N. apply value_in in N. destruct N as (r & c & I & V). rewrite U in V by auto. discriminate.
    + apply nanmax_none in E. destruct E as (N & B). destruct v as [v|]; auto. destruct P as [(r & c & I & V) _].
      assert (W : In (Some v) (values m)) by (apply value_in; eauto). apply In_nth_error in W. destruct W as [j J]. destruct (B _ _ J).
    + apply nanmax_raise in E. destruct E as [E _]. exfalso.
      assert (X : exists r c, Inside m r c) by (destruct v; [destruct P as [(r1 & c1 & I1 & _) _]|destruct P as [(r1 & c1 & I1) _]]; eauto).
      destruct X as (r & c & I). assert (W : In (pix m r c) (values m)) by (apply value_in; eauto). rewrite E in W. destruct W.
Qed.
Lemma peak_raise : forall m e, peak_of m = Raise e <-> (rows m = 0 \/ cols m = 0)%nat /\ e = ValueError.
Proof.
  intros m e. unfold peak_of. assert (X : values m = [] <-> (rows m = 0 \/ cols m = 0)%nat).
  { split.
    - intros V. destruct (rows m) as [|a] eqn:A; auto. destruct (cols m) as [|b] eqn:B; auto. exfalso.
      assert (W : In (pix m 0 0) (values m)) by (apply value_in; exists 0%nat, 0%nat; split; auto; split; lia). rewrite V in W. destruct W.
    - intros H. destruct (values m) as [|v l] eqn:V; auto. assert (W : In v (values m)) by (rewrite V; now left). apply value_in in W.
      destruct W as (r & c & [I J] & _). lia. }
  split.
  - destruct (nanmax (values m)) eqn:E; intros H; [discriminate|]. injection H as <-. apply nanmax_raise in E. tauto.
  - intros [H ->]. apply X in H. rewrite H. reflexivity.
Qed.
Lemma scale_ok : forall amp peak m, ScaledBy amp peak m (scale (vdiv amp peak) m).
Proof.
  intros amp peak m. split; [reflexivity|]. split; [reflexivity|]. intros r c. cbn [scale pix]. unfold vdiv, times.
  destruct amp as [a|], peak as [p|], (pix m r c) as [x|]; auto; try (destruct (Req_EM_T p 0); reflexivity).
  destruct (Req_EM_T p 0); [right; auto|left]. split; auto. f_equal. field. auto.
Qed.

Lemma inject_iff : forall paint positions psfs f s g m xy,
  inject_psf paint positions psfs f s = Ok (g, (m, xy)) <->
  exists roll x y psf peak data, f_roll f = Some roll /\ f_starx f = Some x /\ f_stary f = Some y
  /\ xy = polar (x, y) (s_sep s) (s_pa s - roll + 90) /\ ClosestPsf positions psfs xy psf /\ Peak psf peak
  /\ m = scale (vdiv (s_amp s) peak) psf /\ paint (f_data f) (x, y) m (s_sep s) (s_pa s - roll + 90) = Ok data /\ g = with_data data f.
Proof.
  intros paint positions psfs f s g m xy.
  assert (POL : forall x y roll, polar (x, y) (s_sep s) (s_pa s - roll + 90) =
    (x + fst (seppa2dxdy (s_sep s) (s_pa s - roll)), y + snd (seppa2dxdy (s_sep s) (s_pa s - roll)))).
  { intros x y roll. unfold polar, seppa2dxdy. cbn [fst snd]. replace ((s_pa s - roll + 90) * PI / 180) with (PI / 2 + (s_pa s - roll) * PI / 180) by field.
    set (t := (s_pa s - roll) * PI / 180). assert (C : cos (PI / 2 + t) = - sin t) by (rewrite (sin_cos t); ring).
    assert (S : sin (PI / 2 + t) = cos t) by (symmetry; apply cos_sin). rewrite C, S. f_equal; ring. }
  assert (CL : forall x y roll p, get_closest_psf positions psfs x y (fst (seppa2dxdy (s_sep s) (s_pa s - roll))) (snd (seppa2dxdy (s_sep s) (s_pa s - roll))) = Ok p <->
    ClosestPsf positions psfs (polar (x, y) (s_sep s) (s_pa s - roll + 90)) p).
  { intros x y roll p. rewrite POL. apply psf_iff. }
  unfold inject_psf. split.
  - destruct (f_roll f) as [roll|] eqn:ER; [|discriminate]. cbn [getkey bind].
    destruct (f_starx f) as [x|] eqn:EX; [|discriminate]. cbn [getkey bind]. destruct (f_stary f) as [y|] eqn:EY; [|discriminate]. cbn [getkey bind].
    destruct (get_closest_psf positions psfs x y _ _) as [psf|] eqn:EP; [|discriminate]. cbn [bind].
    destruct (peak_of psf) as [peak|] eqn:EK; [|discriminate]. cbn [bind].
    destruct (paint _ _ _ _ _) as [data|] eqn:ED; [|discriminate]. cbn [bind]. intros E. injection E; intros HX HM HG.
    assert (XY : xy = polar (x, y) (s_sep s) (s_pa s - roll + 90)) by (rewrite <- HX; symmetry; apply POL).
    apply CL in EP. apply peak_iff in EK. exists roll, x, y, psf, peak, data. split; [reflexivity|]. split; [reflexivity|]. split; [reflexivity|]. split; [exact XY|].
    split; [rewrite XY; exact EP|]. split; [exact EK|]. split; [now rewrite <- HM|]. split; [rewrite <- HM; exact ED|]. rewrite <- HG. unfold with_data. rewrite ER, EX, EY. reflexivity.
  - intros (roll & x & y & psf & peak & data & ER & EX & EY & -> & EP & EK & -> & ED & ->).
    rewrite ER, EX, EY. cbn [getkey bind]. apply CL in EP. rewrite EP. cbn [bind]. apply peak_iff in EK. rewrite EK. cbn [bind]. rewrite ED. cbn [bind].
    rewrite POL. unfold with_data. rewrite ER, EX, EY. reflexivity.
Qed.
