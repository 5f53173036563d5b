(** Laws of the injection of a PSF. *)
From Coq Require Import List Arith Bool Reals ZArith Lia Lra Permutation.
From Verif Require Import Base AngleModel AngleSpec NearModel NearSpec CombineModel FlatModel ThruModel InjModel InjSpec InjProofs.
Import ListNotations.
Local Open Scope R_scope.

Lemma model_scaled : forall paint positions psfs f s g m xy, inject_psf paint positions psfs f s = Ok (g, (m, xy)) ->
  exists psf peak, ClosestPsf positions psfs xy psf /\ Peak psf peak /\ ScaledBy (s_amp s) peak psf m.
Proof.
  intros paint positions psfs f s g m xy E. apply inject_iff in E. destruct E as (roll & x & y & psf & peak & data & _ & _ & _ & _ & C & P & -> & _ & _).
  exists psf, peak. split; auto. split; auto. apply scale_ok.
Qed.
Lemma inside_scaled : forall amp peak m k r c, ScaledBy amp peak m k -> Inside k r c <-> Inside m r c.
Proof. intros amp peak m k r c (R & C & _). unfold Inside. rewrite R, C. tauto. Qed.
Lemma peak_scaled : forall a p m k, Peak m (Some p) -> 0 < p -> 0 <= a -> ScaledBy (Some a) (Some p) m k -> Peak k (Some a).
Proof.
  intros a p m k [(r & c & I & V) U] P A S. pose proof S as (_ & _ & X). split.
  - exists r, c. split; [now apply (inside_scaled _ _ _ _ r c S)|]. specialize (X r c). rewrite V in X. destruct X as [[_ ->]|[? _]]; [|lra]. f_equal. field. lra.
  - intros r' c' y I' Y. apply (inside_scaled _ _ _ _ r' c' S) in I'. specialize (X r' c'). destruct (pix m r' c') as [z|] eqn:Z; [|congruence].
    destruct X as [[_ X]|[? _]]; [|lra]. rewrite X in Y. injection Y as <-. specialize (U _ _ _ I' Z).
    apply Rmult_le_reg_r with p; auto. replace (a * z / p * p) with (a * z) by (field; lra). now apply Rmult_le_compat_l.
Qed.
Lemma negative_scaled : forall a p v m k, Peak m (Some p) -> Least m v -> v < p -> p < 0 -> 0 < a -> ScaledBy (Some a) (Some p) m k ->
  Peak k (Some (a * v / p)) /\ a < a * v / p.
Proof.
  intros a p v m k _ [(r & c & I & V) U] VP P A S. pose proof S as (_ & _ & X). assert (IP : / p < 0) by now apply Rinv_lt_0_compat.
  split; [split|].
  - exists r, c. split; [now apply (inside_scaled _ _ _ _ r c S)|]. specialize (X r c). rewrite V in X. destruct X as [[_ ->]|[? _]]; [reflexivity|lra].
  - intros r' c' y I' Y. apply (inside_scaled _ _ _ _ r' c' S) in I'. specialize (X r' c'). destruct (pix m r' c') as [z|] eqn:Z; [|congruence].
    destruct X as [[_ X]|[? _]]; [|lra]. rewrite X in Y. injection Y as <-. specialize (U _ _ _ I' Z).
    unfold Rdiv. assert (a * v <= a * z) by (apply Rmult_le_compat_l; lra). nra.
  - replace a with (a * p * / p) at 1 by (field; lra). unfold Rdiv. assert (a * v < a * p) by (apply Rmult_lt_compat_l; lra). nra.
Qed.
Lemma blank_scaled : forall amp peak m k, peak = None \/ peak = Some 0 -> ScaledBy amp peak m k -> forall r c, pix k r c = None.
Proof.
  intros amp peak m k H (_ & _ & X) r c. specialize (X r c). destruct H as [-> | ->]; destruct amp as [a|]; auto; destruct (pix m r c); auto.
  destruct X as [[X _]|[_ X]]; [lra|exact X].
Qed.
Lemma place_apart : forall paint positions psfs f s g m xy, inject_psf paint positions psfs f s = Ok (g, (m, xy)) ->
  exists x y, f_starx f = Some x /\ f_stary f = Some y /\ dist (x, y) xy = Rabs (s_sep s).
Proof.
  intros paint positions psfs f s g m xy E. apply inject_iff in E. destruct E as (roll & x & y & psf & peak & data & _ & X & Y & -> & _).
  exists x, y. split; auto. split; auto. unfold dist, polar. cbn [fst snd]. set (t := (s_pa s - roll + 90) * PI / 180).
  rewrite <- sqrt_Rsqr_abs. f_equal. pose proof (sin2_cos2 t) as H. unfold Rsqr in *. nra.
Qed.
Lemma cards_missing : forall paint positions psfs f s, f_roll f = None \/ f_starx f = None \/ f_stary f = None ->
  inject_psf paint positions psfs f s = Raise KeyError.
Proof.
  intros paint positions psfs f s H. unfold inject_psf.
  destruct (f_roll f) as [r|]; [|reflexivity]. cbn [getkey bind]. destruct (f_starx f) as [x|]; [|reflexivity]. cbn [getkey bind].
  destruct (f_stary f) as [y|]; [|reflexivity]. destruct H as [H|[H|H]]; discriminate.
Qed.
Lemma turn : forall paint positions psfs f s d, inject_psf paint positions psfs (turned d f) (turned_shot d s) =
  match inject_psf paint positions psfs f s with Ok (g, o) => Ok (turned d g, o) | Raise e => Raise e end.
Proof.
  intros paint positions psfs f s d. unfold inject_psf. cbn [turned turned_shot f_data f_roll f_starx f_stary s_amp s_sep s_pa].
  destruct (f_roll f) as [r|]; [|reflexivity]. cbn [option_map getkey bind]. replace (s_pa s + d - (r + d)) with (s_pa s - r) by ring.
  destruct (f_starx f) as [x|]; [|reflexivity]. cbn [getkey bind]. destruct (f_stary f) as [y|]; [|reflexivity]. cbn [getkey bind].
  destruct (get_closest_psf _ _ _ _ _ _) as [psf|]; [|reflexivity]. cbn [bind]. destruct (peak_of psf) as [p|]; [|reflexivity]. cbn [bind].
  destruct (paint _ _ _ _ _); reflexivity.
Qed.
Lemma closest_fun : forall positions psfs at_ m n, ClosestPsf positions psfs at_ m -> ClosestPsf positions psfs at_ n -> m = n.
Proof.
  intros positions psfs at_ m n (i & q & [H1 H2] & M) (j & p & [G1 G2] & N).
  assert (i = j).
  { destruct (H2 _ _ G1) as [A1 A2], (G2 _ _ H1) as [B1 B2]. destruct (Nat.lt_trichotomy i j) as [L|[L|L]]; auto; [specialize (B2 L)|specialize (A2 L)]; lra. }
  congruence.
Qed.
Lemma peak_fun : forall m u v, Peak m u -> Peak m v -> u = v.
Proof. intros m u v U V. apply peak_iff in U. apply peak_iff in V. congruence. Qed.
Lemma louder_model : forall paint positions psfs f s k g m xy g' m' xy', inject_psf paint positions psfs f s = Ok (g, (m, xy)) ->
  inject_psf paint positions psfs f (louder k s) = Ok (g', (m', xy')) ->
  xy' = xy /\ rows m' = rows m /\ cols m' = cols m /\ forall r c, pix m' r c = option_map (fun x => k * x) (pix m r c).
Proof.
  intros paint positions psfs f s k g m xy g' m' xy' E E'. apply inject_iff in E. apply inject_iff in E'. cbn [louder s_amp s_sep s_pa] in E'.
  destruct E as (roll & x & y & psf & peak & data & R & X & Y & XY & C & P & M & _).
  destruct E' as (roll' & x' & y' & psf' & peak' & data' & R' & X' & Y' & XY' & C' & P' & M' & _).
  assert (roll' = roll) by congruence. assert (x' = x) by congruence. assert (y' = y) by congruence. subst roll' x' y'. assert (Q : xy' = xy) by congruence.
  rewrite Q in C'. assert (psf' = psf) by exact (closest_fun _ _ _ _ _ C' C). subst psf'. assert (peak' = peak) by (eapply peak_fun; eauto). subst peak' m m'.
  split; [exact Q|]. split; [reflexivity|]. split; [reflexivity|]. intros r c. cbn [scale pix]. unfold vdiv, InjModel.times.
  destruct (s_amp s) as [a|], peak as [p|]; cbn [option_map]; auto; destruct (Req_EM_T p 0); auto; destruct (pix psf r c); auto. cbn. f_equal. field. auto.
Qed.

(** ** Injections one after the other *)
Lemma all_cards : forall paint positions psfs l f g o, inject_all paint positions psfs f l = Ok (g, o) -> same_cards f g
  /\ Forall2 (fun s q => exists d g', inject_psf paint positions psfs (with_data d f) s = Ok (g', q)) l o.
Proof.
  intros paint positions psfs l; induction l as [|s l IH]; intros f g o E; cbn [inject_all] in E.
  - injection E as <- <-. split; [repeat split|constructor].
  - destruct (inject_psf paint positions psfs f s) as [[f1 q]|] eqn:E1; [|discriminate]. cbn [bind fst snd] in E.
    destruct (inject_all paint positions psfs f1 l) as [[g1 o1]|] eqn:E2; [|discriminate]. cbn [bind fst snd] in E. injection E as <- <-.
    destruct (IH _ _ _ E2) as [(A & B & C) F].
    assert (W : exists d, f1 = with_data d f). { destruct q as [m xy]. apply inject_iff in E1. destruct E1 as (roll & x & y & psf & peak & data & _ & _ & _ & _ & _ & _ & _ & _ & ->). eauto. }
    destruct W as [d ->]. cbn [with_data f_roll f_starx f_stary] in *. split; [repeat split; auto|]. constructor.
    + exists (f_data f). assert (with_data (f_data f) f = f) as -> by (destruct f; reflexivity). eauto.
    + exact F.
Qed.

Definition alike (f g : source) : Prop := SameImage (f_data f) (f_data g) /\ same_cards f g.
Lemma alike_refl : forall f, alike f f. Proof. intros; repeat split. Qed.
Lemma alike_trans : forall f g h, alike f g -> alike g h -> alike f h.
Proof. intros f g h ((A & B & C) & D & E & F) ((A' & B' & C') & D' & E' & F'). split; [split; [|split]|split; [|split]]; congruence. Qed.
Section Add.
Variables (paint : Paint) (stamp : nat -> nat -> R * R -> img -> R -> R -> nat -> nat -> val) (positions : list (R * R)) (psfs : list img).
Hypothesis ADD : Adds paint stamp.
Lemma step_alike : forall f f' s g q, alike f f' -> inject_psf paint positions psfs f s = Ok (g, q) ->
  exists g', inject_psf paint positions psfs f' s = Ok (g', q) /\ alike g g'.
Proof using ADD.
  intros f f' s g [m xy] [(R & C & P) (K1 & K2 & K3)] E. apply inject_iff in E.
  destruct E as (roll & x & y & psf & peak & data & A1 & A2 & A3 & A4 & A5 & A6 & A7 & A8 & ->).
  destruct (ADD (f_data f') (x, y) m (s_sep s) (s_pa s - roll + 90)) as (e & E1 & E2 & E3 & E4).
  destruct (ADD (f_data f) (x, y) m (s_sep s) (s_pa s - roll + 90)) as (e0 & D1 & D2 & D3 & D4). rewrite A8 in D1. injection D1 as <-.
  exists (with_data e f'). split.
  - apply inject_iff. exists roll, x, y, psf, peak, e. rewrite K1, K2, K3. auto 12.
  - split; [|repeat split; assumption]. cbn [with_data f_data]. split; [congruence|]. split; [congruence|]. intros i j. rewrite D4, E4, P, R, C. reflexivity.
Qed.
Lemma all_alike : forall l f f' g o, alike f f' -> inject_all paint positions psfs f l = Ok (g, o) ->
  exists g', inject_all paint positions psfs f' l = Ok (g', o) /\ alike g g'.
Proof using ADD.
  induction l as [|s l IH]; intros f f' g o A E; cbn [inject_all] in *.
  - injection E as <- <-. eauto.
  - destruct (inject_psf paint positions psfs f s) as [[f1 q]|] eqn:E1; [|discriminate]. cbn [bind fst snd] in E.
    destruct (inject_all paint positions psfs f1 l) as [[g1 o1]|] eqn:E2; [|discriminate]. cbn [bind fst snd] in E. injection E as <- <-.
    destruct (step_alike _ _ _ _ _ A E1) as (f1' & S & A1). rewrite S. cbn [bind fst snd]. destruct (IH _ _ _ _ A1 E2) as (g' & T & A2). rewrite T. cbn [bind fst snd]. eauto.
Qed.
Lemma added_swap : forall u v w, added (added u v) w = added (added u w) v.
Proof. intros [u|] [v|] [w|]; simpl; auto. f_equal. ring. Qed.
Lemma swap : forall f s t g o1 h o2, inject_psf paint positions psfs f s = Ok (g, o1) -> inject_psf paint positions psfs g t = Ok (h, o2) ->
  exists g' h', inject_psf paint positions psfs f t = Ok (g', o2) /\ inject_psf paint positions psfs g' s = Ok (h', o1) /\ alike h h'.
Proof using ADD.
  intros f s t g [m xy] h [m' xy'] E1 E2. apply inject_iff in E1. apply inject_iff in E2.
  destruct E1 as (roll & x & y & psf & peak & data & A1 & A2 & A3 & A4 & A5 & A6 & A7 & A8 & ->).
  destruct E2 as (roll' & x' & y' & psf' & peak' & data' & B1 & B2 & B3 & B4 & B5 & B6 & B7 & B8 & ->). cbn [with_data f_roll f_starx f_stary f_data] in *.
  destruct (ADD (f_data f) (x, y) m (s_sep s) (s_pa s - roll + 90)) as (e & D1 & D2 & D3 & D4). rewrite A8 in D1. injection D1 as <-.
  destruct (ADD data (x', y') m' (s_sep t) (s_pa t - roll' + 90)) as (e & F1 & F2 & F3 & F4). rewrite B8 in F1. injection F1 as <-.
  destruct (ADD (f_data f) (x', y') m' (s_sep t) (s_pa t - roll' + 90)) as (e1 & G1 & G2 & G3 & G4).
  destruct (ADD e1 (x, y) m (s_sep s) (s_pa s - roll + 90)) as (e2 & H1 & H2 & H3 & H4).
  exists (with_data e1 f), (with_data e2 f). split; [apply inject_iff; exists roll', x', y', psf', peak', e1; auto 12|].
  split; [apply inject_iff; exists roll, x, y, psf, peak, e2; cbn [with_data f_roll f_starx f_stary f_data]; auto 12|].
  split; [|repeat split]. cbn [with_data f_data]. split; [congruence|]. split; [congruence|]. intros i j. rewrite F4, D4, H4, G4, D2, D3, G2, G3. apply added_swap.
Qed.
Lemma all_order : forall l l', Permutation l l' -> forall f g o, inject_all paint positions psfs f l = Ok (g, o) ->
  exists g' o', inject_all paint positions psfs f l' = Ok (g', o') /\ SameImage (f_data g) (f_data g') /\ Permutation (combine l o) (combine l' o').
Proof using ADD.
  assert (W : forall l l', Permutation l l' -> forall f g o, inject_all paint positions psfs f l = Ok (g, o) ->
    exists g' o', inject_all paint positions psfs f l' = Ok (g', o') /\ alike g g' /\ Permutation (combine l o) (combine l' o')).
  { intros l l' P. induction P as [|s l l' P IH|s t l|l1 l2 l3 P1 IH1 P2 IH2]; intros f g o E.
    - exists g, o. split; auto. split; [apply alike_refl|reflexivity].
    - cbn [inject_all] in *. destruct (inject_psf paint positions psfs f s) as [[f1 q]|] eqn:E1; [|discriminate]. cbn [bind fst snd] in *.
      destruct (inject_all paint positions psfs f1 l) as [[g1 o1]|] eqn:E2; [|discriminate]. cbn [bind fst snd] in E. injection E as <- <-.
      destruct (IH _ _ _ E2) as (g' & o' & -> & A & Q). cbn [bind fst snd]. exists g', (q :: o'). split; auto. split; auto. cbn [combine]. now constructor.
    - cbn [inject_all] in *. destruct (inject_psf paint positions psfs f t) as [[f1 q]|] eqn:E1; [|discriminate]. cbn [bind fst snd] in *.
      destruct (inject_psf paint positions psfs f1 s) as [[f2 q2]|] eqn:E2; [|discriminate]. cbn [bind fst snd] in *.
      destruct (inject_all paint positions psfs f2 l) as [[g1 o1]|] eqn:E3; [|discriminate]. cbn [bind fst snd] in E. injection E as <- <-.
      destruct (swap _ _ _ _ _ _ _ E1 E2) as (g' & h' & -> & S & A). cbn [bind fst snd]. rewrite S. cbn [bind fst snd].
      destruct (all_alike _ _ _ _ _ A E3) as (g2 & -> & A2). cbn [bind fst snd]. exists g2, (q2 :: q :: o1). split; auto. split; auto. cbn [combine]. apply perm_swap.
    - destruct (IH1 _ _ _ E) as (g1 & o1 & F1 & A1 & Q1). destruct (IH2 _ _ _ F1) as (g2 & o2 & F2 & A2 & Q2). exists g2, o2. split; auto.
      split; [eapply alike_trans; eauto|]. now rewrite Q1. }
  intros l l' P f g o E. destruct (W _ _ P _ _ _ E) as (g' & o' & H & A & Q). exists g', o'. split; auto. split; auto. apply A.
Qed.
End Add.
Lemma all_sum : forall paint stamp positions psfs, Adds paint stamp -> forall l f g o roll x y, inject_all paint positions psfs f l = Ok (g, o) ->
  f_roll f = Some roll -> f_starx f = Some x -> f_stary f = Some y ->
  rows (f_data g) = rows (f_data f) /\ cols (f_data g) = cols (f_data f) /\ forall i j, pix (f_data g) i j =
    fold_left added (map (fun q => stamp (rows (f_data f)) (cols (f_data f)) (x, y) (fst (snd q)) (s_sep (fst q)) (s_pa (fst q) - roll + 90) i j) (combine l o)) (pix (f_data f) i j).
Proof.
  intros paint stamp positions psfs ADD l; induction l as [|s l IH]; intros f g o roll x y E R X Y; cbn [inject_all] in E.
  - injection E as <- <-. auto.
  - destruct (inject_psf paint positions psfs f s) as [[f1 [m xy]]|] eqn:E1; [|discriminate]. cbn [bind fst snd] in E.
    destruct (inject_all paint positions psfs f1 l) as [[g1 o1]|] eqn:E2; [|discriminate]. cbn [bind fst snd] in E. injection E as <- <-.
    apply inject_iff in E1. destruct E1 as (roll' & x' & y' & psf & peak & data & R' & X' & Y' & _ & _ & _ & _ & P & ->).
    assert (roll' = roll) by congruence. assert (x' = x) by congruence. assert (y' = y) by congruence. subst roll' x' y'.
    destruct (ADD (f_data f) (x, y) m (s_sep s) (s_pa s - roll + 90)) as (e & D1 & D2 & D3 & D4). rewrite P in D1. injection D1 as <-.
    destruct (IH _ _ _ roll x y E2 R X Y) as (A & B & C). cbn [with_data f_data] in *. split; [congruence|]. split; [congruence|]. intros i j.
    rewrite C, D4, D2, D3. reflexivity.
Qed.
