(** C81: the read noise from a Gaussian fitted to the histogram of the prescan. *)
From Coq Require Import List Arith Bool Reals ZArith Lia Lra Permutation String.
From Verif Require Import Base CombineModel FlatModel KgainModel KgainSpec RnHistModel RnHistSpec RnHistProofs RnHistMainProofs RnHistLawProofs KgainTopProofs RnHistExample.
Import ListNotations.
Local Open Scope R_scope.

Theorem C81_counts : forall a b l c, histc_roi l (rn_bins a b) = Ok c <-> Histogram a b l c.
Proof. exact counts. Qed.
Print Assumptions C81_counts.
Theorem C81_total : forall l a b c, (a + 2 <= b)%Z -> histc_roi l (rn_bins a b) = Ok c -> Tally (InRange a b) l (total c).
Proof. exact hist_total. Qed.
Print Assumptions C81_total.
Theorem C81_join : forall l m a b c, histc_roi (l ++ m) (rn_bins a b) = Ok c <->
  exists c1 c2, histc_roi l (rn_bins a b) = Ok c1 /\ histc_roi m (rn_bins a b) = Ok c2 /\ List.length c = List.length c1
  /\ forall k n n1 n2, nth_error c k = Some n -> nth_error c1 k = Some n1 -> nth_error c2 k = Some n2 -> n = (n1 + n2)%Z.
Proof. exact hist_join. Qed.
Print Assumptions C81_join.
Theorem C81_width : forall fit a b l s, rn_width fit l (a, b) = Ok s <-> exists x c p A m, Start a b l x c p /\ fit x c p = Ok (A, m, s).
Proof. exact width_ok. Qed.
Print Assumptions C81_width.
Theorem C81_refused : forall fit a b l e, rn_width fit l (a, b) = Raise e <->
  (b <= a + 1)%Z /\ e = ValueError \/ exists x c p, Start a b l x c p /\ fit x c p = Raise e.
Proof. exact width_raise. Qed.
Print Assumptions C81_refused.
Theorem C81_start : forall a b l x c p x' c' p', Start a b l x c p -> Start a b l x' c' p' -> x = x' /\ c = c' /\ p = p'.
Proof. exact start_fun. Qed.
Print Assumptions C81_start.
Theorem C81_order : forall fit l m ab, Permutation l m -> rn_width fit l ab = rn_width fit m ab.
Proof. exact width_order. Qed.
Print Assumptions C81_order.
Theorem C81_outside : forall fit l m a b, (forall v, In v m -> ~ InRange a b v) -> rn_width fit (l ++ m) (a, b) = rn_width fit l (a, b).
Proof. exact width_outside. Qed.
Print Assumptions C81_outside.
Theorem C81_moved : forall d l a b, histc_roi (map (moved d) l) (rn_bins (a + d) (b + d)) = histc_roi l (rn_bins a b).
Proof. exact hist_moved. Qed.
Print Assumptions C81_moved.
Theorem C81_moved_width : forall fit d l a b, Equivariant fit -> rn_width fit (map (moved d) l) (a + d, b + d)%Z = rn_width fit l (a, b).
Proof. exact width_moved. Qed.
Print Assumptions C81_moved_width.
Theorem C81_bell : forall p x, snd p <> 0 -> bell p x = gauss p x.
Proof. exact bell_gauss. Qed.
Print Assumptions C81_bell.

(** The bins are not all open at their upper edge: a pixel on the last edge is counted in the last bin. *)
Theorem C81_edges_refuted : forall l a b c n, (a + 2 <= b)%Z -> histc_roi l (rn_bins a b) = Ok c -> nth_error c (Z.to_nat (b - a - 2)) = Some n ->
  exists c', histc_roi (Some (IZR (b - 1)) :: l) (rn_bins a b) = Ok c' /\ nth_error c' (Z.to_nat (b - a - 2)) = Some (n + 1)%Z.
Proof. exact last_edge. Qed.
Print Assumptions C81_edges_refuted.
(** The width need not come from the pixels: if none is in the bins, as when all are NaN or beyond them, there is no error and the
    width is the starting value 10, for every fit that stays where nothing is left to gain. *)
Theorem C81_nothing_refuted : forall fit l a b, Stays fit -> (a + 2 <= b)%Z -> (forall v, In v l -> ~ InRange a b v) -> rn_width fit l (a, b) = Ok 10.
Proof. exact width_nothing. Qed.
Print Assumptions C81_nothing_refuted.
(** The calibration then reports a read noise of ten over the root of two times the gain, whatever the noise is. *)
Theorem C81_card_refuted : forall prescan fit d sets means gain n_cal n_mean smin smax sw out p,
  calibrated prescan (fun ab f => rn_width fit (prescan f) ab) d sets means gain n_cal n_mean smin smax sw out ->
  Stays fit -> reads_as d p -> (fst (p_rn p) + 2 <= snd (p_rn p))%Z ->
  (forall s g h v, In s sets -> In g s -> In h s -> In v (prescan (difference g h)) -> ~ InRange (fst (p_rn p)) (snd (p_rn p)) v) ->
  k_rn out * sqrt 2 = 10 * k_gain out.
Proof. exact calibrated_nothing. Qed.
Print Assumptions C81_card_refuted.
(** The width is not known to be positive: its sign does not matter to the curve, so for every fit that finds the least
    squares there is another that does and gives minus the width, and nothing takes the absolute value. *)
Theorem C81_sign_refuted : forall fit, LeastSquares fit -> exists fit', LeastSquares fit' /\ forall l ab s, rn_width fit l ab = Ok s -> rn_width fit' l ab = Ok (- s).
Proof. exact width_sign. Qed.
Print Assumptions C81_sign_refuted.

(** A case: of five pixels, one NaN and one beyond the last edge, two are in the first bin and one, on the last edge, in the second. *)
Example C81_case : histc_roi [Some 2; Some 0; None; Some (1 / 2); Some 3] (rn_bins 0 3) = Ok [2%Z; 1%Z].
Proof.
  apply counts. split; [reflexivity|]. intros [|[|k]] n H; try (destruct k; discriminate); injection H as <-; unfold InBin.
  - apply tally_out; [intros (x & E & H1 & H2); injection E as <-; simpl in *; destruct H2 as [H2|[H2 _]]; [lra|lia]|].
    apply (tally_in _ _ _ 1); [exists 0; simpl; repeat split; try lra; left; lra|].
    apply tally_out; [intros (x & E & _); discriminate|]. apply (tally_in _ _ _ 0); [exists (1 / 2); simpl; repeat split; try lra; left; lra|].
    apply tally_out; [intros (x & E & H1 & H2); injection E as <-; simpl in *; destruct H2 as [H2|[H2 _]]; [lra|lia]|]. constructor.
  - apply (tally_in _ _ _ 0); [exists 2; simpl; repeat split; try lra; right; split; [lia|lra]|].
    apply tally_out; [intros (x & E & H1 & H2); injection E as <-; simpl in *; lra|].
    apply tally_out; [intros (x & E & _); discriminate|].
    apply tally_out; [intros (x & E & H1 & H2); injection E as <-; simpl in *; lra|].
    apply tally_out; [intros (x & E & H1 & H2); injection E as <-; simpl in *; destruct H2 as [H2|[_ H2]]; lra|]. constructor.
Qed.
(** A fit that finds the least squares, stays where nothing is left to gain and does not mind where zero is *)
Definition careful : Fit := fun x y p => if Req_EM_T (misfit p x y) 0 then Ok p else Raise ValueError.
Lemma misfit_pos : forall p x y, 0 <= misfit p x y.
Proof. intros p x; induction x as [|u x IH]; intros [|v y]; cbn [misfit]; try lra. specialize (IH y). pose proof (pow2_ge_0 (IZR v - bell p (IZR u))). lra. Qed.
Lemma misfit_moved : forall d A m s x y, misfit (A, m + IZR d, s) (map (fun z => (z + d)%Z) x) y = misfit (A, m, s) x y.
Proof.
  intros d A m s x; induction x as [|u x IH]; intros [|v y]; auto. cbn [misfit map]. rewrite IH. f_equal. f_equal. f_equal. unfold bell. cbn [fst snd].
  rewrite plus_IZR. replace (IZR u + IZR d - (m + IZR d)) with (IZR u - m) by ring. reflexivity.
Qed.
Example C81_fits : LeastSquares careful /\ Stays careful /\ Equivariant careful.
Proof.
  unfold careful. split; [|split].
  - intros x y p q E r. destruct (Req_EM_T (misfit p x y) 0) as [H|]; [|discriminate]. injection E as <-. rewrite H. apply misfit_pos.
  - intros x y p H. destruct (Req_EM_T (misfit p x y) 0); [reflexivity|contradiction].
  - intros d x y A m s. rewrite misfit_moved. destruct (Req_EM_T (misfit (A, m, s) x y) 0); reflexivity.
Qed.
Example C81_case_nothing : rn_width careful [None; Some 500; Some 500] (-200, 201)%Z = Ok 10.
Proof.
  apply width_nothing; [apply C81_fits|lia|]. intros v V (x & -> & H). simpl in H, V. destruct V as [V|[V|[V|[]]]]; try discriminate; injection V as <-; lra.
Qed.
Example C81_case_sign : exists fit, LeastSquares fit /\ rn_width fit [None; Some 500; Some 500] (-200, 201)%Z = Ok (- (10)).
Proof. destruct (width_sign careful) as (f & F & H); [apply C81_fits|]. exists f. split; auto. apply H, C81_case_nothing. Qed.
(** A calibration of two pixels of prescan, both 0, with the bins from 1 to 4 *)
Example C81_case_card : exists out, calibrated prescan0 (fun ab f => rn_width still (prescan0 f) ab) dict1 [frames0] [plate 100 0] 1 1 1 (Whole 105) (Whole 190) (Whole 10) out
  /\ k_rn out * sqrt 2 = 10 * k_gain out.
Proof.
  destruct calibrated1 as [out C]. exists out. split; [exact C|]. apply (calibrated_nothing _ _ _ _ _ _ _ _ _ _ _ _ params1 C).
  - intros x y p _. reflexivity.
  - exact reads1.
  - simpl. lia.
  - intros s g h v _ _ _ V. apply (outside1 _ _ V).
Qed.
