(** Proofs of what the read noise from a Gaussian does not do. *)
From Coq Require Import List Arith Bool Reals ZArith Lia Lra String.
From Verif Require Import Base CombineModel CombineSpec ComboSpec FlatModel FlatSpec ThruModel ThruSpec KgainModel KgainSpec KgainProofs RnHistModel RnHistSpec RnHistProofs RnHistMainProofs.
Import ListNotations.
Local Open Scope R_scope.

Lemma bell_gauss : forall p x, snd p <> 0 -> bell p x = gauss p x.
Proof. intros [[A m] s] x H. unfold bell, gauss. cbn [fst snd] in *. f_equal. f_equal. field. exact H. Qed.

Lemma last_edge : forall l a b c n, (a + 2 <= b)%Z -> histc_roi l (rn_bins a b) = Ok c -> nth_error c (Z.to_nat (b - a - 2)) = Some n ->
  exists c', histc_roi (Some (IZR (b - 1)) :: l) (rn_bins a b) = Ok c' /\ nth_error c' (Z.to_nat (b - a - 2)) = Some (n + 1)%Z.
Proof.
  intros l a b c n H E N. rewrite rn_hist in E. injection E as <-. rewrite hist_nth in N by lia. injection N as <-.
  eexists. split; [apply rn_hist|]. rewrite hist_nth by lia. f_equal. rewrite cnt_cons.
  replace (inb a b (Z.to_nat (b - a - 2)) (Some (IZR (b - 1)))) with true; [apply Z.add_comm|]. symmetry. apply inb_ok.
  exists (IZR (b - 1)). split; auto. split; [apply IZR_le; lia|]. right. split; [lia|reflexivity].
Qed.

Lemma misfit_zero : forall A m s x c, A = 0 -> (forall n, In n c -> n = 0%Z) -> misfit (A, m, s) x c = 0.
Proof.
  intros A m s x c HA; revert c. induction x as [|u x IH]; intros [|v c] H; auto. cbn [misfit].
  rewrite IH by (intros; apply H; now right). rewrite (H v (or_introl eq_refl)). unfold bell. cbn [fst snd]. rewrite HA. ring.
Qed.
Lemma tally_zero : forall A (P : A -> Prop) l n, (forall x, In x l -> ~ P x) -> Tally P l n -> n = 0%Z.
Proof.
  intros A P l n H T. induction T; auto.
  - destruct (H x (or_introl eq_refl)); auto.
  - apply IHT. intros; apply H; now right.
Qed.
Lemma width_nothing : forall fit l a b, Stays fit -> (a + 2 <= b)%Z -> (forall v, In v l -> ~ InRange a b v) -> rn_width fit l (a, b) = Ok 10.
Proof.
  intros fit l a b F H O. destruct (width_start fit a b l H) as (x & c & p & S & W). rewrite W.
  destruct S as (_ & (L & C) & k & n & (K & _) & ->).
  assert (Z : forall j z, nth_error c j = Some z -> z = 0%Z).
  { intros j z J. apply (tally_zero _ (InBin a b j) l); [|now apply C]. intros v V B. apply (O v V). eapply in_range; [|exact B].
    rewrite <- L. apply nth_error_Some. congruence. }
  rewrite F; [reflexivity|]. apply misfit_zero; [now rewrite (Z _ _ K)|]. intros z Hz. apply In_nth_error in Hz. destruct Hz as [j J]. eauto.
Qed.

Definition mirror (p : R * R * R) : R * R * R := (fst (fst p), snd (fst p), - snd p).
Lemma misfit_mirror : forall p x c, misfit (mirror p) x c = misfit p x c.
Proof.
  intros p x; induction x as [|u x IH]; intros [|v c]; auto. cbn [misfit]. rewrite IH. f_equal. f_equal. f_equal.
  unfold bell, mirror. cbn [fst snd]. replace ((- snd p) ^ 2) with (snd p ^ 2) by ring. reflexivity.
Qed.
Lemma width_sign : forall fit, LeastSquares fit -> exists fit', LeastSquares fit' /\ forall l ab s, rn_width fit l ab = Ok s -> rn_width fit' l ab = Ok (- s).
Proof.
  intros fit F. exists (fun x y p => do q <- fit x y p; Ok (mirror q)). split.
  - intros x y p q E r. destruct (fit x y p) as [q'|] eqn:Q; [|discriminate]. injection E as <-. rewrite misfit_mirror. eapply F; eauto.
  - intros l [a b] s E. apply width_ok in E. destruct E as (x & c & p & A & m & S & Q). apply width_ok.
    exists x, c, p, A, m. split; auto. rewrite Q. reflexivity.
Qed.

Lemma reads_fun : forall d p q, reads_as d p -> reads_as d q -> p = q.
Proof. intros d p q H1 H2. apply read_iff in H1. apply read_iff in H2. congruence. Qed.
Lemma mean_const : forall l m, (forall x, In x l -> x * sqrt 2 = 10) -> CombineSpec.is_mean l m -> m * sqrt 2 = 10.
Proof.
  intros l m H [N M].
  assert (S : fold_right Rplus 0 l * sqrt 2 = 10 * INR (List.length l)).
  { clear N M. induction l as [|x l IH]; [simpl; ring|]. cbn [fold_right List.length]. rewrite S_INR, Rmult_plus_distr_r, IH by (intros; apply H; now right).
    rewrite (H x (or_introl eq_refl)). ring. }
  rewrite <- M in S. assert (0 < INR (List.length l)) by (apply lt_0_INR; destruct l; [congruence|simpl; lia]).
  apply Rmult_eq_reg_r with (INR (List.length l)); lra.
Qed.
Lemma calibrated_nothing : forall prescan fit d sets means gain n_cal n_mean smin smax sw out p,
  calibrated prescan (fun ab f => rn_width fit (prescan f) ab) d sets means gain n_cal n_mean smin smax sw out ->
  Stays fit -> reads_as d p -> (fst (p_rn p) + 2 <= snd (p_rn p))%Z ->
  (forall s g h v, In s sets -> In g s -> In h s -> In v (prescan (difference g h)) -> ~ InRange (fst (p_rn p)) (snd (p_rn p)) v) ->
  k_rn out * sqrt 2 = 10 * k_gain out.
Proof.
  intros prescan fit d sets means gain n_cal n_mean smin smax sw out p C F P B O.
  destruct C as (p' & a & b & w & m & good & per & t & ks & pts & rn & RP & AC & _ & _ & FS & _ & _ & NE & PO).
  assert (p' = p) by (exact (reads_fun _ _ _ RP P)). subst p'.
  assert (exists fs, In fs sets /\ set_of prescan (fun ab f => rn_width fit (prescan f) ab) p (Z.to_nat w) (region (p_box p) good) fs pts rn) as (fs & Hfs & SO).
  { clear -FS NE. revert NE. generalize (List.length sets - 1)%nat as i. induction FS; intros i NE; [destruct i; discriminate|].
    destruct i as [|i]; [injection NE as ->; exists x; split; [now left|exact H]|]. destruct (IHFS i NE) as (fs & H1 & H2). exists fs. split; [now right|auto]. }
  destruct SO as (frames & diffs & f & whole & a1 & b1 & k & avs & devs & FR & DF & WR & _).
  assert (IN : forall i g, nth_error frames i = Some g -> In g fs).
  { clear -FR. revert FR. generalize (order (List.length fs)). intros o FR. induction FR; intros i g H0; [destruct i; discriminate|].
    destruct i as [|i]; [injection H0 as <-; eapply nth_error_In; eauto|eauto]. }
  assert (R : forall x, In x rn -> x * sqrt 2 = 10).
  { clear -WR DF IN O F B Hfs. revert DF WR. generalize (steps (List.length fs)). intros st DF. revert rn.
    induction DF as [|jk dd st diffs J DF IH]; intros rn WR x X; inversion WR; subst; [destruct X|].
    destruct X as [<-|X]; [|eapply IH; eauto].
    destruct H1 as (s & W & <-). destruct J as (g & h & G & H & ->). destruct (p_rn p) as [pa pb]. cbn [fst snd] in *.
    rewrite (width_nothing fit _ pa pb F B) in W; [congruence|]. intros v V.
    exact (O fs g h v Hfs (IN _ _ G) (IN _ _ H) V). }
  destruct PO as (c & m0 & r & s & _ & _ & _ & _ & (ME & _) & KR & _).
  assert (r * sqrt 2 = 10); [|rewrite KR; replace (r * k_gain out * sqrt 2) with (r * sqrt 2 * k_gain out) by ring; congruence].
  exact (mean_const _ _ R ME).
Qed.
