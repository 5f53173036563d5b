(** Noise maps: laws. *)
From Verif Require CtDataProofs.
From Coq Require Import List Arith Bool Reals ZArith Lia Lra Sorting.Sorted Sorting.Permutation String.
From Verif Require Import Base CombineModel CombineSpec CombineProofs ComboSpec ComboProofs DqModel DqProofs GeomModel GeomSpec FlatModel FlatSpec FlatProofs FlatTopProofs NoiseModel NoiseSpec NoiseFitProofs NoiseProofs NoiseTopProofs NoiseMainProofs.
Import ListNotations.
Local Open Scope R_scope.

Section Laws.
Variable rg : regions.
Variable tel : Z * option Z.

(** ** When maps are made *)
Lemma med_some : forall res ps z, 0 < snd z -> (med_left res ps z <> None <-> exists p, In p ps /\ res (fst (fst z)) (fst (snd (fst z))) (snd (snd (fst z))) (fst p) (snd p) <> None).
Proof using.
  intros res ps z K. unfold med_left, offset_of. set (g := res (fst (fst z)) (fst (snd (fst z))) (snd (snd (fst z)))). split.
  - intros H. destruct (nanmedian (map (fun p => g (fst p) (snd p)) ps)) as [m|] eqn:M; [|elim H; reflexivity]. clear H.
    assert (N : ~ Forall (fun v => v = None) (map (fun p => g (fst p) (snd p)) ps)) by (intros F; apply nanmedian_none in F; congruence). clear M.
    induction ps as [|p ps IH]; [elim N; constructor|]. destruct (g (fst p) (snd p)) as [x|] eqn:X; [exists p; split; [left; reflexivity|congruence]|].
    destruct IH as (q & I & Q); [intros F; apply N; cbn [map]; constructor; assumption|]. exists q. split; [right; exact I|exact Q].
  - intros (p & I & P). destruct (nanmedian (map (fun p => g (fst p) (snd p)) ps)) as [m|] eqn:M.
    + cbn [vdiv]. destruct (Req_EM_T (snd z) 0); [lra|discriminate].
    + apply nanmedian_none in M. rewrite Forall_forall in M. exfalso. apply P. apply M. apply in_map_iff. exists p. auto.
Qed.
Lemma per_some : forall ps ss gts ks res, Forall (fun k => 0 < k) ks ->
  ((exists b, per ps ss gts ks res = Some b) <-> forall z, In z (combine (combine ss gts) ks) -> exists p, In p ps /\ res (fst (fst z)) (fst (snd (fst z))) (snd (snd (fst z))) (fst p) (snd p) <> None).
Proof using.
  intros ps ss gts ks res K. assert (KZ : forall z, In z (combine (combine ss gts) ks) -> 0 < snd z) by (intros [z k] Z; rewrite Forall_forall in K; apply K; eapply in_combine_r; exact Z).
  unfold per, mean_all. split.
  - intros (b & H) z Z. apply med_some; [apply KZ; exact Z|]. destruct (allsome _) eqn:A in H; [|discriminate H]. intros N. assert (X : In None (map (med_left res ps) (combine (combine ss gts) ks))) by (apply in_map_iff; exists z; auto). apply allsome_false in X. congruence.
  - intros H. destruct (allsome (map (med_left res ps) (combine (combine ss gts) ks))) eqn:A; [eexists; reflexivity|]. apply allsome_false in A. apply in_map_iff in A as (z & E & Z). exfalso. apply (proj2 (med_some res ps z (KZ z Z)) (H z Z)). exact E.
Qed.
Lemma parts_some : forall nr gts ss r c, parts tel nr gts ss r c <> None <-> ~ telemetry tel nr r /\ forall s, In s ss -> mean_pix tel s r c <> None.
Proof using.
  intros nr gts ss r c. unfold parts, observed. destruct (among (telem tel nr) r) eqn:T.
  - apply telem_iff in T. split; [intros H; elim H; reflexivity|intros [N _]; contradiction].
  - assert (NT : ~ telemetry tel nr r) by (intros X; apply telem_iff in X; congruence). destruct (allsome (map (fun s => mean_pix tel s r c) ss)) eqn:A.
    + split; [|discriminate]. intros _. split; [exact NT|]. intros s S0 E. assert (X : In None (map (fun s => mean_pix tel s r c) ss)) by (apply in_map_iff; exists s; auto). apply allsome_false in X. congruence.
    + split; [intros H; elim H; reflexivity|]. intros [_ H]. apply allsome_false in A. apply in_map_iff in A as (s & E & S0). destruct (H s S0 E).
Qed.
Lemma errs_some : forall ss r c, stacks_err tel ss r c <> None <-> forall s, In s ss -> total_err tel s r c <> None.
Proof using.
  intros ss r c. unfold stacks_err. destruct (allsome (map (fun s => total_err tel s r c) ss)) eqn:A.
  - split; [|discriminate]. intros _ s S0 E. assert (X : In None (map (fun s => total_err tel s r c) ss)) by (apply in_map_iff; exists s; auto). apply allsome_false in X. congruence.
  - split; [intros H; elim H; reflexivity|]. intros H. apply allsome_false in A. apply in_map_iff in A as (s & E & S0). destruct (H s S0 E).
Qed.
Lemma err_mean : forall s r c, total_err tel s r c <> None -> mean_pix tel s r c <> None.
Proof using. intros s r c H E. apply H. unfold total_err, stat_std. unfold mean_pix in E. rewrite E. destruct (mean_err s r c); reflexivity. Qed.
Lemma over_some : forall nr gts ss d s g t r c, In s ss -> (left_over tel nr gts ss d s g t r c <> None <-> ~ telemetry tel nr r /\ forall s, In s ss -> total_err tel s r c <> None).
Proof using.
  intros nr gts ss d s g t r c S0. split.
  - intros H. assert (P : parts tel nr gts ss r c <> None /\ stacks_err tel ss r c <> None).
    { unfold left_over in H. destruct (parts tel nr gts ss r c) as [[[[F C0] D] [[sF sC] sD]]|]; [|elim H; reflexivity]. destruct (stacks_err tel ss r c); [|elim H; reflexivity]. split; discriminate. }
    destruct P as [P Q]. split; [apply parts_some in P; exact (proj1 P)|apply errs_some; exact Q].
  - intros [N H]. assert (P : parts tel nr gts ss r c <> None) by (apply parts_some; split; [exact N|]; intros x X; apply err_mean; apply H; exact X). assert (Q : stacks_err tel ss r c <> None) by (apply errs_some; exact H).
    assert (M : mean_pix tel s r c <> None) by (apply err_mean; apply H; exact S0). unfold left_over. destruct (parts tel nr gts ss r c) as [[[[F C0] D] [[sF sC] sD]]|]; [|congruence]. destruct (stacks_err tel ss r c); [|congruence]. destruct (mean_pix tel s r c); [discriminate|congruence].
Qed.
Lemma mid_some : forall nr gts ss d s g t r c, left_over tel nr gts ss d s g t r c <> None -> left_mid tel nr gts ss s g t r c <> None.
Proof using. intros nr gts ss d s g t r c H. unfold left_over in H. unfold left_mid. destruct (parts tel nr gts ss r c) as [[[[F C0] D] [[sF sC] sD]]|]; [|congruence]. destruct (stacks_err tel ss r c); [|congruence]. destruct (mean_pix tel s r c); [discriminate|congruence]. Qed.

Lemma gains_len : forall fs gs, Forall2 (fun s g => exists f t, s = f :: t /\ gain_is f g) (substacks fs) gs -> List.length gs = List.length (times (substacks fs)) /\ List.length (combine gs (times (substacks fs))) = List.length (substacks fs).
Proof using. intros fs gs GS. pose proof (f2_length _ _ _ _ _ GS) as L. unfold times. rewrite combine_length, map_length. split; lia. Qed.
Theorem works_iff : forall fs, (exists m, calibrate_darks rg tel fs = Ok m) <-> workable rg tel fs.
Proof using.
  intros fs. split.
  - intros (m & Q). apply calibrate_ok in Q as (a & si & sp & gs & r0 & c0 & h & w & b & up & low & L & A & SI & PRE & SH & G & SB & NG & D & PN & B & U & LO & ->).
    apply (gather_iff rg tel a si _ None gs A SI) in G as (GS & RD & EQ & _). destruct (gains_len fs gs GS) as [Lg Lt]. set (ss := substacks fs) in *. set (gts := combine gs (times ss)) in *.
    assert (NE : gts <> []) by (intros Z; rewrite Z in Lt; cbn in Lt; lia). apply settings_iff in SB; [|exact Lg]. assert (KP : Forall (fun k => 0 < k) (kgains ss)) by (destruct SB as (_ & _ & _ & K & _); exact K).
    assert (Z0 : exists z, In z (combine (combine ss gts) (kgains ss)) /\ In (fst (fst z)) ss).
    { assert (LZ : List.length (combine (combine ss gts) (kgains ss)) = List.length ss) by (rewrite !combine_length; unfold kgains; rewrite map_length, Lt; lia).
      destruct (combine (combine ss gts) (kgains ss)) as [|z zs] eqn:CE; [cbn in LZ; lia|]. exists z. split; [left; reflexivity|]. assert (I : In z (combine (combine ss gts) (kgains ss))) by (rewrite CE; left; reflexivity). destruct z as [[x y] k]. apply in_combine_l in I. apply in_combine_l in I. exact I. }
    destruct Z0 as (z & Z & ZS). destruct (proj1 (per_some _ _ _ _ _ KP) (ex_intro _ up U) z Z) as (p & P & NP). apply (over_some _ _ _ _ _ _ _ _ _ ZS) in NP as [NT ER].
    exists ss, a, si, sp, gts, (kgains ss), r0, c0, h, w, p. split; [apply splits_iff; reflexivity|]. split; [exact L|]. split; [exact A|]. split; [exact SI|]. split; [exact PRE|]. split; [exact SH|]. split; [exact EQ|].
    split. { apply Forall_forall. intros f F. apply substacks_all in F as (s & S0 & F). rewrite Forall_forall in RD. specialize (RD s S0). rewrite Forall_forall in RD. destruct (RD f F) as [X [Y V]]. auto. }
    split; [apply settings_split; exists gs; auto|]. split; [exact SB|]. split; [apply gain_above_iff; exact NG|]. split; [apply regular_iff; assumption|]. split; [apply (cells_in (mkimg (Z.to_nat (a_rows a)) (Z.to_nat (a_cols a)) (fun _ _ => None))); exact P|]. split; [exact NT|].
    intros s S0. specialize (ER s S0). destruct (total_err tel s (fst p) (snd p)) as [e|] eqn:E; [|congruence]. exists e. apply stack_err_iff. symmetry. exact E.
  - intros (ss & a & si & sp & gts & ks & r0 & c0 & h & w & p & SP & L & A & SI & PRE & SH & EQ & RD & ST & AD & GA & DT & P & NT & ER).
    apply splits_iff in SP. subst ss. apply settings_split in ST as (gs & GS & -> & ->). destruct (gains_len fs gs GS) as [Lg Lt]. set (ss := substacks fs) in *. set (gts := combine gs (times ss)) in *.
    assert (NE : gts <> []) by (intros Z; rewrite Z in Lt; cbn in Lt; lia). assert (KP : Forall (fun k => 0 < k) (kgains ss)) by (destruct AD as (_ & _ & _ & K & _); exact K).
    set (nr := Z.to_nat (a_rows a)) in *. set (nc := Z.to_nat (a_cols a)) in *. set (ps := cells (mkimg nr nc (fun _ _ => None)) sp).
    assert (PI : In p ps) by (apply (cells_in (mkimg nr nc (fun _ _ => None))); exact P).
    assert (TE : forall s, In s ss -> total_err tel s (fst p) (snd p) <> None) by (intros s S0; destruct (ER s S0) as (e & E); apply stack_err_iff in E; rewrite <- E; discriminate).
    assert (O : forall d z, In z (combine (combine ss gts) (kgains ss)) -> exists p, In p ps /\ left_over tel nr gts ss d (fst (fst z)) (fst (snd (fst z))) (snd (snd (fst z))) (fst p) (snd p) <> None).
    { intros d [[x y] k] Z. exists p. split; [exact PI|]. apply in_combine_l in Z. apply in_combine_l in Z. apply over_some; [exact Z|]. split; [exact NT|exact TE]. }
    destruct (proj2 (per_some ps ss gts (kgains ss) (left_over tel nr gts ss 1) KP) (O 1)) as (up & U). destruct (proj2 (per_some ps ss gts (kgains ss) (left_over tel nr gts ss (-1)) KP) (O (-1))) as (low & LO).
    destruct (proj2 (per_some ps ss gts (kgains ss) (left_mid tel nr gts ss) KP)) as (b & B). { intros z Z. destruct (O 1 z Z) as (q & Q & N). exists q. split; [exact Q|]. apply mid_some in N. exact N. }
    eexists. apply calibrate_ok. exists a, si, sp, gs, r0, c0, h, w, b, up, low. cbv zeta. fold ss gts nr nc ps.
    split; [exact L|]. split; [exact A|]. split; [exact SI|]. split; [exact PRE|]. split; [exact SH|].
    split. { apply (gather_iff rg tel a si ss None gs A SI). split; [exact GS|]. split; [|split; [exact EQ|intros n s Z; discriminate Z]]. apply Forall_forall. intros s S0. apply Forall_forall. intros f F. rewrite Forall_forall in RD. apply (RD f). apply substacks_all. exists s. auto. }
    split; [apply settings_iff; [exact Lg|exact AD]|]. split; [apply gain_above_iff; exact GA|]. split; [apply regular_iff; assumption|]. split; [intros Z; rewrite Z in PI; destruct PI|]. split; [exact B|]. split; [exact U|]. split; [exact LO|]. reflexivity.
Qed.

(** ** Twin datasets *)
Definition twin (k : nat -> nat -> R) (s s' : list frame) : Prop := List.length s = List.length s'
  /\ (forall f t, s = f :: t -> exists f' t', s' = f' :: t' /\ (forall g, gain_is f g <-> gain_is f' g) /\ f_time f = f_time f' /\ f_kgain f = f_kgain f')
  /\ (forall a si, Forall (fun f => readable tel si f /\ sized a f) s -> Forall (fun f => readable tel si f /\ sized a f) s'
        /\ forall r c, (~ telemetry tel (Z.to_nat (a_rows a)) r -> mean_pix tel s' r c = option_map (fun x => x + k r c) (mean_pix tel s r c)) /\ total_err tel s' r c = total_err tel s r c /\ List.length (good r c s') = List.length (good r c s)).
Lemma fit_shift : forall gts ys k, det (normal_of gts) <> 0 -> List.length ys = List.length gts ->
  fit gts (map (fun y => y + k) ys) = (fst (fst (fit gts ys)) + k, snd (fst (fit gts ys)), snd (fit gts ys)) /\ sigma2 gts (map (fun y => y + k) ys) = sigma2 gts ys.
Proof using.
  intros gts ys k N L. assert (M : forall ys q, misfit gts (map (fun y => y + k) ys) (fst (fst q) + k, snd (fst q), snd q) = misfit gts ys q).
  { clear. intros ys q. unfold misfit. revert ys. induction gts as [|p gts IH]; intros [|y ys]; cbn [combine map fold_right fst snd]; try reflexivity. rewrite IH. unfold predicted. cbn [fst snd]. ring. }
  assert (E : (fst (fst (fit gts ys)) + k, snd (fst (fit gts ys)), snd (fit gts ys)) = fit gts (map (fun y => y + k) ys)).
  { apply best_iff; [exact N|rewrite map_length; exact L|]. intros q'. rewrite M. replace q' with (fst (fst (fst (fst q') - k, snd (fst q'), snd q')) + k, snd (fst (fst (fst q') - k, snd (fst q'), snd q')), snd (fst (fst q') - k, snd (fst q'), snd q')).
    - rewrite M. apply fit_best; assumption.
    - destruct q' as [[a b] c]. cbn [fst snd]. f_equal. f_equal. ring. }
  split; [symmetry; exact E|]. rewrite !sigma2_misfit, <- E, M. reflexivity.
Qed.
Definition up_by (k : R) (x : (R * R * R) * (R * R * R)) : (R * R * R) * (R * R * R) := ((fst (fst (fst x)) + k, snd (fst (fst x)), snd (fst x)), snd x).
Lemma parts_shift : forall nr gts ss ss' r c k, det (normal_of gts) <> 0 -> List.length gts = List.length ss -> (~ telemetry tel nr r -> Forall2 (fun s s' => mean_pix tel s' r c = option_map (fun x => x + k) (mean_pix tel s r c)) ss ss') ->
  parts tel nr gts ss' r c = option_map (up_by k) (parts tel nr gts ss r c).
Proof using.
  intros nr gts ss ss' r c k N L F. unfold parts, observed. destruct (among (telem tel nr) r) eqn:T; [reflexivity|]. assert (NT : ~ telemetry tel nr r) by (intros X; apply telem_iff in X; congruence). specialize (F NT).
  assert (E : map (fun s => mean_pix tel s r c) ss' = map (option_map (fun x => x + k)) (map (fun s => mean_pix tel s r c) ss)) by (clear L; induction F as [|s s' ss0 ss1 H F IH]; [reflexivity|]; cbn [map]; rewrite H, IH; reflexivity).
  rewrite E. destruct (allsome (map (fun s => mean_pix tel s r c) ss)) eqn:A.
  - apply allsome_iff in A. rewrite A. set (ys := somes (map (fun s => mean_pix tel s r c) ss)) in *.
    assert (Ly : List.length ys = List.length gts) by (rewrite L, <- (map_length Some ys), <- A; apply map_length).
    rewrite map_map. cbn [option_map]. rewrite <- (map_map (fun y => y + k) Some). rewrite allsome_map, somes_map. destruct (fit_shift gts ys k N Ly) as [E1 E2]. cbn [option_map]. rewrite somes_map, E1, E2. unfold up_by. cbn [fst snd]. reflexivity.
  - apply allsome_false in A. assert (A' : allsome (map (option_map (fun x => x + k)) (map (fun s => mean_pix tel s r c) ss)) = false).
    { apply allsome_false. apply in_map_iff. exists None. split; [reflexivity|exact A]. }
    rewrite A'. reflexivity.
Qed.
Lemma per_ext : forall ps (ss ss' : list (list frame)) gts ks res res', (forall p, In p ps -> Forall2 (fun s s' => forall g t, res s g t (fst p) (snd p) = res' s' g t (fst p) (snd p)) ss ss') -> List.length ss = List.length ss' ->
  per ps ss gts ks res = per ps ss' gts ks res'.
Proof using.
  intros ps ss ss' gts ks res res' H L. unfold per. f_equal. revert ss' L H gts ks. induction ss as [|s ss IH]; intros [|s' ss'] L H gts ks; try discriminate L; [reflexivity|]. destruct gts as [|p0 gts]; [reflexivity|]. destruct ks as [|k ks]; [reflexivity|].
  cbn [combine map]. f_equal.
  - unfold med_left, offset_of. f_equal. f_equal. apply map_ext_in. intros p P. cbn [fst snd]. specialize (H p P). inversion H; subst. auto.
  - apply IH; [injection L as L; exact L|]. intros p P. specialize (H p P). inversion H; subst. assumption.
Qed.
Lemma twin_maps : forall k fs fs' m, Forall2 (twin k) (substacks fs) (substacks fs') -> calibrate_darks rg tel fs = Ok m -> exists m', calibrate_darks rg tel fs' = Ok m' /\ shifted_maps k m m'.
Proof using.
  intros k fs fs' m T Q. apply calibrate_ok in Q as (a & si & sp & gs & r0 & c0 & h & w & b & up & low & L & A & SI & PRE & SH & G & SB & NG & D & PN & B & U & LO & ->).
  apply (gather_iff rg tel a si _ None gs A SI) in G as (GS & RD & EQ & _). destruct (gains_len fs gs GS) as [Lg Lt]. set (ss := substacks fs) in *. set (ss' := substacks fs') in *. set (nr := Z.to_nat (a_rows a)) in *. set (nc := Z.to_nat (a_cols a)) in *.
  pose proof (f2_length _ _ _ _ _ T) as LL.
  assert (TT : times ss' = times ss). { clear - T GS. revert T. generalize ss'. clear ss'. induction GS as [|s g ss0 gs0 (f & t & -> & _) GS IH]; intros ss' T; inversion T as [|? s' ? ss1 T1 T2]; subst; [reflexivity|]. unfold times. cbn [map]. f_equal; [|apply IH; exact T2].
    destruct T1 as (_ & H & _). destruct (H f t eq_refl) as (f' & t' & -> & _ & E & _). congruence. }
  assert (KK : kgains ss' = kgains ss). { clear - T GS. revert T. generalize ss'. clear ss'. induction GS as [|s g ss0 gs0 (f & t & -> & _) GS IH]; intros ss' T; inversion T as [|? s' ? ss1 T1 T2]; subst; [reflexivity|]. unfold kgains. cbn [map]. f_equal; [|apply IH; exact T2].
    destruct T1 as (_ & H & _). destruct (H f t eq_refl) as (f' & t' & -> & _ & _ & E). congruence. }
  assert (GS' : Forall2 (fun s g => exists f t, s = f :: t /\ gain_is f g) ss' gs). { clear - T GS. revert T. generalize ss'. clear ss'. induction GS as [|s g ss0 gs0 (f & t & -> & E) GS IH]; intros ss' T; inversion T as [|? s' ? ss1 T1 T2]; subst; [constructor|]. constructor; [|apply IH; exact T2].
    destruct T1 as (_ & H & _). destruct (H f t eq_refl) as (f' & t' & -> & X & _). exists f', t'. split; [reflexivity|]. apply X. exact E. }
  assert (PX : Forall2 (fun s s' => List.length s = List.length s' /\ Forall (fun f => readable tel si f /\ sized a f) s' /\ forall r c, (~ telemetry tel nr r -> mean_pix tel s' r c = option_map (fun x => x + k r c) (mean_pix tel s r c)) /\ total_err tel s' r c = total_err tel s r c /\ List.length (good r c s') = List.length (good r c s)) ss ss').
  { clear - T RD. revert T. generalize ss'. clear ss'. induction RD as [|s ss0 R1 RD IH]; intros ss' T; inversion T as [|? s' ? ss1 T1 T2]; subst; [constructor|]. constructor; [|apply IH; exact T2]. destruct T1 as (E & _ & H). destruct (H a si R1) as [H1 H2]. auto. }
  clear T. set (gts := combine gs (times ss)) in *.
  assert (PE : forall r c, parts tel nr gts ss' r c = option_map (up_by (k r c)) (parts tel nr gts ss r c)). { intros r c. apply parts_shift; [exact D|exact Lt|]. intros NT. revert PX. apply CtDataProofs.f2_impl. intros s s' (_ & _ & H). apply (H r c). exact NT. }
  assert (SE : forall r c, stacks_err tel ss' r c = stacks_err tel ss r c). { intros r c. unfold stacks_err. rewrite <- LL. replace (map (fun s => total_err tel s r c) ss') with (map (fun s => total_err tel s r c) ss); [reflexivity|]. clear - PX. induction PX as [|s s' ss0 ss1 (_ & _ & H) PX IH]; [reflexivity|]. cbn [map]. f_equal; [symmetry; apply (H r c)|exact IH]. }
  assert (FE : forall r c, flag ss' r c = flag ss r c). { intros r c. unfold flag, unfittable, unreliable. rewrite <- LL.
    replace (List.length (filter (fun s => Nat.eqb (List.length (good r c s)) 0) ss')) with (List.length (filter (fun s => Nat.eqb (List.length (good r c s)) 0) ss)).
    2:{ clear - PX. induction PX as [|s s' ss0 ss1 (_ & _ & H) PX IH]; [reflexivity|]. cbn [filter]. destruct (H r c) as (_ & _ & ->). destruct (Nat.eqb _ 0); cbn [List.length]; congruence. }
    replace (List.length (filter (fun s => Nat.ltb (2 * List.length (good r c s)) (List.length s)) ss')) with (List.length (filter (fun s => Nat.ltb (2 * List.length (good r c s)) (List.length s)) ss)).
    2:{ clear - PX. induction PX as [|s s' ss0 ss1 (E & _ & H) PX IH]; [reflexivity|]. cbn [filter]. destruct (H r c) as (_ & _ & ->). rewrite E. destruct (Nat.ltb _ _); cbn [List.length]; congruence. }
    reflexivity. }
  assert (MD : forall p, Forall2 (fun s s' => forall g t, left_mid tel nr gts ss s g t (fst p) (snd p) = left_mid tel nr gts ss' s' g t (fst p) (snd p)) ss ss').
  { intros [r c]. cbn [fst snd]. revert PX. apply CtDataProofs.f2_impl. intros s s' (_ & _ & H) g t. unfold left_mid. rewrite PE. destruct (parts tel nr gts ss r c) as [[[[F C0] D0] e]|] eqn:P; [|reflexivity]. cbn [option_map up_by fst snd].
    destruct (H r c) as (Hm & _). rewrite Hm; [|apply (parts_some nr gts ss r c); congruence]. destruct (mean_pix tel s r c); [|reflexivity]. cbn [option_map]. f_equal. ring. }
  assert (OV : forall d p, Forall2 (fun s s' => forall g t, left_over tel nr gts ss d s g t (fst p) (snd p) = left_over tel nr gts ss' d s' g t (fst p) (snd p)) ss ss').
  { intros d [r c]. cbn [fst snd]. revert PX. apply CtDataProofs.f2_impl. intros s s' (_ & _ & H) g t. unfold left_over. rewrite PE, SE. destruct (parts tel nr gts ss r c) as [[[[F C0] D0] [[sF sC] sD]]|] eqn:P; [|reflexivity]. cbn [option_map up_by fst snd]. destruct (stacks_err tel ss r c); [|reflexivity].
    destruct (H r c) as (Hm & _). rewrite Hm; [|apply (parts_some nr gts ss r c); congruence]. destruct (mean_pix tel s r c); [|reflexivity]. cbn [option_map]. f_equal. ring. }
  set (ps := cells (mkimg nr nc (fun _ _ => None)) sp) in *.
  exists (product tel a ss' gts r0 c0 h w b (Rmax (up - b) (b - low))). split.
  - apply calibrate_ok. exists a, si, sp, gs, r0, c0, h, w, b, up, low. cbv zeta. fold ss' nr nc. rewrite TT, KK. fold gts ps. split; [lia|]. split; [exact A|]. split; [exact SI|]. split; [exact PRE|]. split; [exact SH|].
    split. { apply (gather_iff rg tel a si ss' None gs A SI). split; [exact GS'|]. split; [|split; [|intros n s Z; discriminate Z]].
      - clear - PX. induction PX as [|s s' ss0 ss1 (_ & H & _) PX IH]; constructor; assumption.
      - assert (X : forall s', In s' ss' -> exists s, In s ss /\ List.length s = List.length s'). { clear - PX. induction PX as [|s s' ss0 ss1 (E & _) PX IH]; intros x X; [destruct X|]. destruct X as [<-|X]; [exists s; split; [left; reflexivity|exact E]|]. destruct (IH x X) as (y & Y & E'). exists y. split; [right; exact Y|exact E']. }
        intros x y X1 Y1. destruct (X x X1) as (x0 & X0 & <-). destruct (X y Y1) as (y0 & Y0 & <-). apply EQ; assumption. }
    split; [exact SB|]. split; [exact NG|]. split; [exact D|]. split; [exact PN|].
    split; [rewrite <- B; symmetry; apply per_ext; [intros p _; apply MD|exact LL]|]. split; [rewrite <- U; symmetry; apply per_ext; [intros p _; apply OV|exact LL]|]. split; [rewrite <- LO; symmetry; apply per_ext; [intros p _; apply OV|exact LL]|]. reflexivity.
  - unfold shifted_maps, product. cbn [m_rows m_cols m_fpn m_cic m_dc e_fpn e_cic e_dc m_dq m_off m_off_err]. fold nr nc. split; [reflexivity|]. split; [reflexivity|]. split; [|split; reflexivity].
    intros r c. rewrite PE, SE, FE. destruct (parts tel nr gts ss r c) as [x|]; cbn [option_map up_by fst snd]; repeat (split; [reflexivity|]); reflexivity.
Qed.
Lemma shifted_same : forall p q, shifted_maps (fun _ _ => 0) p q -> same_maps p q.
Proof using. intros p q (R0 & C0 & E & O & OE). split; [exact R0|]. split; [exact C0|]. split; [|split; assumption]. intros r c. destruct (E r c) as (E1 & E2). split; [|exact E2]. rewrite E1. destruct (m_fpn p r c) as [x|]; [cbn; f_equal; ring|reflexivity]. Qed.
End Laws.
