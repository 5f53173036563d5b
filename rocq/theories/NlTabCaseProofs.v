(** Proofs: a small table, and claims that do not hold. *)
From Coq Require Import List Arith Bool Reals ZArith String Lia Lra.
From Verif Require Import Base DqModel DqProofs CombineModel ComboSpec ComboProofs FindModel FlatModel FlatSpec CtModel CtSpec CtProofs CropModel NlTabModel NlTabSpec NlTabProofs NlTabColProofs NlTabLawProofs.
Import ListNotations.
Local Open Scope R_scope.

Lemma params0 : check_nonlin_params d0 = Ok tt.
Proof. reflexivity. Qed.
Lemma no_neg0 : no_negative d0.
Proof. intros k z _. unfold d0. destruct (existsb _ _); intros Q; injection Q as <-; lia. Qed.
Lemma checks0 : forall z lo up, (0 < z)%Z -> step_ok z -> limits_ok (o0 z lo up) -> between_ok (o0 z lo up) z -> checks (o0 z lo up) = Ok z.
Proof.
  intros z lo up P S1 L B. apply checks_iff. unfold valid. split; [split; [reflexivity|assumption]|]. split; [assumption|]. split; [assumption|]. split; [assumption|]. split; [|split].
  - split; [exists (Some 1)|exists (Some 2)]; (split; [constructor|]); intros (x & y & E1 & E2 & X); injection E1 as <-; injection E2 as <-; lra.
  - intros a b CA CB (x & y & E1 & E2 & X). apply worth_as in CA. apply worth_as in CB. cbn [o0 n_low n_upp worth] in CA, CB. rewrite <- CB in E1. rewrite <- CA in E2. injection E1 as <-. injection E2 as <-. lra.
  - repeat constructor; cbn [o0 n_frac n_up1 n_up2 n_lo1 n_lo2]; eexists; constructor.
Qed.
Lemma mask0 : exists g m, regions d0 = Ok g /\ mask_of hist0 d0 g [frame0] = Ok m /\ exists v, signal m (g_row1 g) (g_col1 g) (g_row2 g) (g_col2 g) frame0 = Ok v.
Proof.
  eexists. assert (T : exists t, threshold [(0, 1%nat)] (Some (IZR 0)) (Some (IZR 1)) = Ok t). { unfold threshold. cbn [filter fst upto]. destruct (Rle_dec (IZR 0) 0) as [L|L]; [|exfalso; apply L; lra]. cbn [top low fst snd andb]. destruct (Rle_dec 0 0) as [L'|L']; [|exfalso; apply L'; lra]. cbn [low fst]. eauto. } destruct T as (t & ET).
  eexists. split; [reflexivity|]. split.
  - unfold mask_of. cbn [mean_frame bind roi_values g_row g_col fst snd Nat.leb orb rows cols frame0 Nat.ltb map]. cbn [hist0 bind]. change (worth (setting d0 "min_bin")) with (Some (IZR 0)). change (worth (setting d0 "min_mask_factor")) with (Some (IZR 1)). unfold hist0. cbn [bind]. rewrite ET. cbn [bind]. reflexivity.
  - match goal with |- exists v, ?x = Ok v => destruct x as [v|e] eqn:E end; [eauto|]. apply signal_fails in E. destruct E as (SE & _). unfold some_empty, empty in SE. cbn [g_row1 g_col1 g_row2 g_col2 fst snd] in SE. change (Z.to_nat 0) with 0%nat in SE. change (Z.to_nat 1) with 1%nat in SE. lia.
Qed.
Lemma gain0 : forall o z m g v, signal m (g_row1 g) (g_col1 g) (g_row2 g) (g_col2 g) frame0 = Ok v -> gain_column fit0 lowess0 interp0 drift0 o z m g (snd (1, [(1, 0, frame0)])) = column fit0 lowess0 interp0 o z [1; 2] [Some 40; Some 20].
Proof. intros o z m g v E. unfold gain_column. cbn [snd mapR]. rewrite E. reflexivity. Qed.
Definition f0 (c : R) : val := if Req_EM_T c 40 then Some (1 / 2) else if Req_EM_T c 20 then Some 2 else Some (1 / 2).
Lemma second0 : forall z lo up e, second_fit fit0 (o0 z lo up) e [1; 2] [Some 40; Some 20] = Ok (Some 20, Some 0).
Proof. intros z lo up e. unfold second_fit. destruct (under _ _); [reflexivity|]. destruct (_ && _); reflexivity. Qed.
Lemma gains0 : map2 vdiv [Some 40; Some 20] (map (line (Some 20, Some 0)) [1; 2]) = [Some 2; Some (1 / 2)].
Proof.
  unfold line, vdiv, vadd, vmul. cbn [map map2 fst snd]. cbn. destruct (Req_EM_T (20 * 1 + 0) 0) as [X|_]; [lra|]. destruct (Req_EM_T (20 * 2 + 0) 0) as [X|_]; [lra|]. replace (40 / (20 * 1 + 0)) with 2 by field. replace (20 / (20 * 2 + 0)) with (1 / 2) by field. reflexivity.
Qed.
Lemma column0 : forall z lo up, column fit0 lowess0 interp0 (o0 z lo up) z [1; 2] [Some 40; Some 20] = if existsb (Z.eqb z) grid then Ok (fun c => vdiv (Some 1) (vdiv (f0 c) (f0 (IZR z)))) else Raise IndexError.
Proof.
  intros z lo up. unfold column. cbn [List.length Nat.eqb negb]. unfold fit0 at 1. cbn [bind]. rewrite second0. cbn [bind]. rewrite gains0. unfold lowess0. destruct (Rlt_dec 20 40) as [_|X]; [|lra]. cbn [bind interp0]. reflexivity.
Qed.
Lemma table0_iff : forall z lo up r, (0 < z)%Z -> step_ok z -> limits_ok (o0 z lo up) -> between_ok (o0 z lo up) z ->
  (table0 d0 (o0 z lo up) = r <-> (gridded z /\ exists T, r = Ok T /\ rows_of (o0 z lo up) [1] [fun c => quot (Some 1) (quot (f0 c) (f0 (IZR z)))] T) \/ (~ gridded z /\ r = Raise IndexError)).
Proof.
  intros z lo up r P S1 L B. unfold table0, calibrate_nonlin. rewrite params0. cbn [bind sets0]. rewrite (checks0 z lo up P S1 L B). cbn [bind]. destruct mask0 as (g & m & EG & EM & v & EV). rewrite EG. cbn [bind]. rewrite EM. cbn [bind]. unfold sets0. cbn [mapR]. rewrite (gain0 _ z m g v EV), column0. destruct (grid_or z) as [(-> & GZ)|(-> & GZ)]; cbn [bind].
  - split.
    + intros <-. left. split; [assumption|]. eexists. split; [reflexivity|]. eexists. split; [apply kept_iff; [assumption|reflexivity]|]. reflexivity.
    + intros [(_ & T & -> & cs & SV & ->)|(X & _)]; [|contradiction]. apply (kept_iff _ _ L) in SV. subst cs. reflexivity.
  - split; [intros <-; right; auto|]. intros [(X & _)|(_ & ->)]; [contradiction|reflexivity].
Qed.
Lemma limits0 : forall z (a b : R), 0 < a -> a < b -> a <= IZR z <= b -> limits_ok (o0 z (NFloat (Some a)) (NFloat (Some b))) /\ between_ok (o0 z (NFloat (Some a)) (NFloat (Some b))) z.
Proof.
  intros z a b A B C. split.
  - split; eexists; (split; [constructor|]); intros (x & y & E1 & E2 & X); injection E1 as <-; injection E2 as <-; lra.
  - intros u v CU CV. apply worth_as in CU. apply worth_as in CV. cbn [o0 n_min n_max worth] in CU, CV. rewrite <- CU, <- CV. repeat split; intros (x & y & E1 & E2 & X); injection E1 as <-; injection E2 as <-; lra.
Qed.
Lemma row0 : forall z a b T c, rows_of (o0 z (NFloat (Some a)) (NFloat (Some b))) [1] [fun c => quot (Some 1) (quot (f0 c) (f0 (IZR z)))] T -> gridded c -> a <= IZR c <= b -> row_for T c [quot (Some 1) (quot (f0 (IZR c)) (f0 (IZR z)))].
Proof.
  intros z a b T c (cs & SV & ->) GC C. unfold row_for. cbn [tl]. apply in_map_iff. exists c. split; [reflexivity|]. apply (NlTabLawProofs.sieve_in _ _ _ _ c SV). split; [apply steps_in; assumption|]. exists (Some a), (Some b). split; [constructor|]. split; [constructor|]. split; eexists; eexists; (split; [reflexivity|]); (split; [reflexivity|]); lra.
Qed.
(** The order of exposures against that of signals *)
Lemma order_false : exists T, table0 d0 (o0 20 (NFloat (Some 20)) (NFloat (Some 40))) = Ok T /\
  (forall n, lowess0 n [Some 2; Some (1 / 2)] [Some 40; Some 20] = Ok [Some (1 / 2); Some 2]) /\
  (forall a b, exists f, interp0 [Some 40; Some 20] [a; b] = Ok f /\ f 40 = a /\ f 20 = b) /\
  on_line (Some 20, Some 0) 1 = Some 20 /\ on_line (Some 20, Some 0) 2 = Some 40 /\
  row_for T 20 [Some 1] /\ row_for T 40 [Some 4] /\ quot (Some 1) (quot (quot (Some 40) (Some 20)) (quot (Some 20) (Some 40))) = Some (1 / 4).
Proof.
  destruct (limits0 20 20 40) as (L & B); [lra|lra|lra|]. destruct (table0 d0 (o0 20 (NFloat (Some 20)) (NFloat (Some 40)))) as [T|e] eqn:E; apply (table0_iff 20 _ _ _ ltac:(lia) ltac:(exists 1%Z; reflexivity) L B) in E; destruct E as [(GZ & T' & Q & RO)|(NG & Q)]; try discriminate.
  2: { exfalso. apply NG. exists 1%Z. lia. }
  injection Q as <-. exists T. split; [reflexivity|]. split; [intros n; unfold lowess0; destruct (Rlt_dec 20 40); [reflexivity|lra]|]. split; [|split; [|split; [|split; [|split]]]].
  - intros a b. eexists. split; [reflexivity|]. cbn beta. destruct (Req_EM_T 40 40); [|lra]. destruct (Req_EM_T 20 40); [lra|]. destruct (Req_EM_T 20 20); [auto|lra].
  - cbn. f_equal. ring.
  - cbn. f_equal. ring.
  - pose proof (row0 _ _ _ _ 20 RO GZ ltac:(lra)) as R1. replace (quot (Some 1) (quot (f0 20) (f0 20))) with (Some 1) in R1; [assumption|]. unfold f0, quot. destruct (Req_EM_T 20 40); [lra|]. destruct (Req_EM_T 20 20); [|lra]. destruct (Req_EM_T 2 0); [lra|]. destruct (Req_EM_T (2 / 2) 0); [lra|]. f_equal. field.
  - pose proof (row0 _ _ _ _ 40 RO ltac:(exists 2%Z; lia) ltac:(lra)) as R1. replace (quot (Some 1) (quot (f0 40) (f0 20))) with (Some 4) in R1; [assumption|]. unfold f0, quot. destruct (Req_EM_T 20 40); [lra|]. destruct (Req_EM_T 20 20); [|lra]. destruct (Req_EM_T 40 40); [|lra]. destruct (Req_EM_T 2 0); [lra|]. destruct (Req_EM_T (1 / 2 / 2) 0); [lra|]. f_equal. field.
  - unfold quot. destruct (Req_EM_T 20 0); [lra|]. destruct (Req_EM_T 40 0); [lra|]. destruct (Req_EM_T (20 / 40) 0); [lra|]. destruct (Req_EM_T (40 / 20 / (20 / 40)) 0); [lra|]. f_equal. field.
Qed.
(** A limit that is NaN *)
Lemma nan_false : valid (o0 20 (NFloat None) (NFloat (Some 40))) 20 /\ table0 d0 (o0 20 (NFloat None) (NFloat (Some 40))) = Ok [[None; Some 1]].
Proof.
  assert (L : limits_ok (o0 20 (NFloat None) (NFloat (Some 40)))). { split; eexists; (split; [constructor|]); intros (x & y & E1 & E2 & X); [discriminate|]. injection E1 as <-. injection E2 as <-. lra. }
  assert (B : between_ok (o0 20 (NFloat None) (NFloat (Some 40))) 20). { intros u v CU CV. apply worth_as in CU. apply worth_as in CV. cbn [o0 n_min n_max worth] in CU, CV. rewrite <- CU, <- CV. repeat split; intros (x & y & E1 & E2 & X); try discriminate. injection E1 as <-. injection E2 as <-. lra. }
  split; [apply checks_iff; apply checks0; [lia|exists 1%Z; reflexivity|assumption|assumption]|]. apply (table0_iff 20 _ _ _ ltac:(lia) ltac:(exists 1%Z; reflexivity) L B). left. split; [exists 1%Z; lia|]. eexists. split; [reflexivity|]. exists []. split; [|reflexivity]. assert (X : forall l, sieve (within (o0 20 (NFloat None) (NFloat (Some 40)))) l []); [|apply X]. induction l as [|c l IH]; constructor; [|assumption]. intros (a & b & CA & _ & (x & y & E1 & _) & _). apply worth_as in CA. cbn [o0 n_min worth] in CA. congruence.
Qed.
(** A norm past the end of the counts *)
Lemma norm_false : valid (o0 14020 (NFloat (Some 800)) (NFloat (Some 15000))) 14020 /\ table0 d0 (o0 14020 (NFloat (Some 800)) (NFloat (Some 15000))) = Raise IndexError.
Proof.
  destruct (limits0 14020 800 15000) as (L & B); [lra|lra|lra|]. split; [apply checks_iff; apply checks0; [lia|exists 701%Z; reflexivity|assumption|assumption]|]. apply (table0_iff 14020 _ _ _ ltac:(lia) ltac:(exists 701%Z; reflexivity) L B). right. split; [|reflexivity]. intros (k & K & Q). lia.
Qed.
(** Limits between the counts, or past them *)
Lemma start_false : exists T, table0 d0 (o0 3000 (NFloat (Some 810)) (NFloat (Some 15000))) = Ok T /\ (forall vs, ~ row_for T 810 vs) /\ (forall vs, ~ row_for T 14020 vs) /\ (exists vs, row_for T 820 vs) /\ exists vs, row_for T 14000 vs.
Proof.
  destruct (limits0 3000 810 15000) as (L & B); [lra|lra|lra|]. destruct (table0 d0 (o0 3000 (NFloat (Some 810)) (NFloat (Some 15000)))) as [T|e] eqn:E; apply (table0_iff 3000 _ _ _ ltac:(lia) ltac:(exists 150%Z; reflexivity) L B) in E; destruct E as [(GZ & T' & Q & RO)|(NG & Q)]; try discriminate.
  2: { exfalso. apply NG. exists 150%Z. lia. }
  injection Q as <-. exists T. split; [reflexivity|]. assert (X : forall c vs, row_for T c vs -> gridded c). { destruct RO as (cs & SV & ->). intros c vs R0. unfold row_for in R0. cbn [tl] in R0. apply in_map_iff in R0. destruct R0 as (c' & Q & I1). injection Q as Q _. apply eq_IZR in Q. subst c'. apply (NlTabLawProofs.sieve_in _ _ _ _ c SV) in I1. apply steps_in. tauto. }
  split; [intros vs R0; apply X in R0; destruct R0 as (k & K & Q); lia|]. split; [intros vs R0; apply X in R0; destruct R0 as (k & K & Q); lia|]. split; eexists; apply (row0 _ _ _ _ _ RO); [exists 41%Z; lia|lra|exists 700%Z; lia|lra].
Qed.
(** Floats for rows *)
Lemma float_false : check_nonlin_params d1 = Ok tt /\ valid (o0 3000 (NFloat (Some 800)) (NFloat (Some 10000))) 3000 /\ table0 d1 (o0 3000 (NFloat (Some 800)) (NFloat (Some 10000))) = Raise TypeError.
Proof.
  destruct (limits0 3000 800 10000) as (L & B); [lra|lra|lra|]. assert (C : checks (o0 3000 (NFloat (Some 800)) (NFloat (Some 10000))) = Ok 3000%Z) by (apply checks0; [lia|exists 150%Z; reflexivity|assumption|assumption]). split; [reflexivity|]. split; [apply checks_iff; assumption|]. unfold table0, calibrate_nonlin. change (check_nonlin_params d1) with (@Ok unit tt). cbn [bind sets0]. rewrite C. reflexivity.
Qed.
(** The case of the examples: a whole table, and a linear detector *)
Lemma case_ok : no_negative d0 /\ exists T, table0 d0 (o0 20 (NFloat (Some 20)) (NFloat (Some 40))) = Ok T /\ limits_known (o0 20 (NFloat (Some 20)) (NFloat (Some 40))) /\ row_for T 40 [Some 4].
Proof. split; [apply no_neg0|]. destruct order_false as (T & E & _ & _ & _ & _ & _ & R & _). exists T. split; [assumption|]. split; [exists 20, 40; split; constructor|assumption]. Qed.
(** Tools for which a linear detector is found to be one *)
Lemma slope_finds : forall a b t ts ys, Forall2 (fun t y => exists v, v <> 0 /\ y = Some v /\ on_line (Some a, Some b) t = Some v) ts ys ->
  slope t (a * t + b) ts ys = a \/ (slope t (a * t + b) ts ys = 0 /\ Forall (fun u => u = t) ts).
Proof.
  intros a b t ts ys H. induction H as [|u y ts ys (v & V0 & -> & E) H IH]; cbn [slope]; [right; auto|]. cbn in E. injection E as <-. destruct (Req_EM_T u t) as [->|N].
  - destruct IH as [IH|(IH & F)]; [left; assumption|right; split; [assumption|constructor; auto]].
  - left. field. lra.
Qed.
Lemma ideal1 : ideal fit1 lowess1 interp1.
Proof.
  split; [|split].
  - intros ts ys ([pa pb] & H). destruct H as [|t y ts ys X H]; [exists (Some 0, Some 0); split; [reflexivity|constructor]|]. pose proof X as (v & V0 & -> & E). unfold on_line in E. cbn [fst snd] in E. destruct pa as [a|]; [|discriminate]. destruct pb as [b|]; [|discriminate]. cbn in E. injection E as E. assert (EV : v = a * t + b) by congruence. clear E. unfold fit1. eexists. split; [reflexivity|]. rewrite EV. destruct (slope_finds a b t ts ys H) as [->|(-> & F)].
    + replace (a * t + b - a * t) with b by ring. constructor; [exists (a * t + b); split; [rewrite <- EV; assumption|split; reflexivity]|exact H].
    + assert (X0 : forall u, on_line (Some 0, Some (a * t + b - 0 * t)) u = Some (a * t + b)) by (intros u; cbn; f_equal; ring). constructor; [exists (a * t + b); split; [rewrite <- EV; assumption|split; [reflexivity|apply X0]]|]. clear X. induction H as [|u y ts ys (w & W0 & -> & E) H IH]; constructor.
      * inversion F as [|? ? U F']; subst u. exists w. split; [assumption|]. split; [reflexivity|]. rewrite X0. exact E.
      * apply IH. inversion F; assumption.
  - intros n gs ys O. exists gs. split; [reflexivity|assumption].
  - intros ys gs f O E c. injection E as <-. destruct O as [|g gs -> O]; reflexivity.
Qed.
Lemma case_linear : exists T, calibrate_nonlin hist0 fit1 lowess1 interp1 drift1 d0 (o0 20 (NFloat (Some 20)) (NFloat (Some 40))) [frame0] sets0 = Ok T /\ row_for T 40 [Some 1] /\ linear [1; 2] [Some 20; Some 40] /\
  ideal fit1 lowess1 interp1.
Proof.
  assert (LI : linear [1; 2] [Some 20; Some 40]). { exists (Some 20, Some 0). constructor; [exists 20; cbn; split; [lra|split; [reflexivity|f_equal; ring]]|]. constructor; [exists 40; cbn; split; [lra|split; [reflexivity|f_equal; ring]]|constructor]. }
  destruct (limits0 20 20 40) as (L & B); [lra|lra|lra|]. pose proof (checks0 20 _ _ ltac:(lia) ltac:(exists 1%Z; reflexivity) L B) as C. set (o := o0 20 (NFloat (Some 20)) (NFloat (Some 40))) in *.
  destruct mask0 as (g & m & EG & EM & v & EV).
  assert (G : exists F, gain_column fit1 lowess1 interp1 drift1 o 20 m g (snd (1, [(1, 0, frame0)])) = Ok F).
  { unfold gain_column. cbn [snd mapR]. rewrite EV. cbn [bind drift1 fst snd]. unfold drift1. cbn [bind fst snd]. unfold column. cbn [List.length Nat.eqb negb]. destruct (fit1 [1; 2] [Some 20; Some 40]) as [p|] eqn:E; [|discriminate]. cbn [bind].
    assert (S2 : forall e, second_fit fit1 o e [1; 2] [Some 20; Some 40] = Ok p) by (intros e; unfold second_fit; destruct (under _ _); [exact E|destruct (_ && _); exact E]). rewrite S2. cbn [bind lowess1 interp1]. unfold lowess1, interp1. cbn [bind]. destruct (grid_or 20) as [(-> & _)|(_ & X)]; [eauto|]. exfalso. apply X. exists 1%Z. lia. }
  destruct G as (F & EF). assert (EX : exists T, calibrate_nonlin hist0 fit1 lowess1 interp1 drift1 d0 o [frame0] sets0 = Ok T). { unfold calibrate_nonlin. rewrite params0. cbn [bind sets0]. rewrite C. cbn [bind]. rewrite EG. cbn [bind]. rewrite EM. cbn [bind]. unfold sets0. cbn [mapR]. rewrite EF. cbn [bind]. eexists. reflexivity. }
  destruct EX as (T & ET). exists T. split; [assumption|]. split; [|split; [assumption|apply ideal1]].
  destruct (has_row hist0 fit1 lowess1 interp1 drift1 d0 o [frame0] sets0 T 40 no_neg0 ET) as (vs & R0); [exists 2%Z; lia|exists (Some 20), (Some 40); split; [constructor|]; split; [constructor|]; split; eexists; eexists; (split; [reflexivity|]); (split; [reflexivity|]); lra|].
  assert (O : ones vs). { eapply (linear_law hist0 fit1 lowess1 interp1 drift1 d0 o [frame0] sets0 T no_neg0 ET ideal1); [exists 1; split; [constructor|lra]| |exact R0]. intros g' m' s sg ts ys _ _ _ _ D. injection D as <- <-. exact LI. }
  destruct (entry_law hist0 fit1 lowess1 interp1 drift1 d0 o [frame0] sets0 T 20 no_neg0 ET eq_refl) as (_ & fs & LF & H & _). assert (LV : List.length vs = 1%nat) by (rewrite (H 40%Z vs R0), map_length; exact LF). destruct vs as [|x [|]]; try discriminate. inversion O as [|? ? X]; subst. exact R0.
Qed.
