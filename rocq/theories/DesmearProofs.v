From Coq Require Import List Arith Bool QArith Qpower ZArith Lia.
From Verif Require Import Base BaseProofs FloatModel DqModel DqProofs DesmearModel DesmearSpec.
Import ListNotations.
Local Open Scope nat_scope.

Lemma zipw_length : forall A B C (f : A -> B -> C) l m, List.length l = List.length m -> List.length (zipw f l m) = List.length l.
Proof. intros A B C f l m H. unfold zipw. rewrite map_length, combine_length. lia. Qed.
Lemma zipw_nth : forall A B C (f : A -> B -> C) l m i x y, nth_error l i = Some x -> nth_error m i = Some y ->
  nth_error (zipw f l m) i = Some (f x y).
Proof.
  intros A B C f. unfold zipw. induction l as [|a l IH]; intros [|b m] [|i] x y; cbn [nth_error combine map fst snd]; try discriminate.
  - intros E1 E2. injection E1 as <-. injection E2 as <-. reflexivity.
  - apply IH.
Qed.

(** the per-pixel column sum *)
Definition csum (a : Q) (r : nat) (col : nat -> fl) (l : list nat) (z : fl) : fl :=
  fold_left (fun acc s => fadd acc (fmul (Fin (coef a r s)) (col s))) l z.
Definition colf (im : image) (c : nat) (s : nat) : fl := nth c (nth s im []) NaN.

Lemma row_length : forall im nr nc s, rectangular im nr nc -> s < nr -> List.length (nth s im []) = nc.
Proof.
  intros im nr nc s [L F] H. apply (proj1 (Forall_forall _ _) F). apply nth_In. lia.
Qed.
Lemma width_rect : forall im nr nc, rectangular im nr nc -> 0 < nr -> width im = nc.
Proof. intros [|row t] nr nc [L F] H; cbn [List.length] in L; [lia|]. inversion F; subst. reflexivity. Qed.

Lemma colsum_nth : forall a im nr nc r l acc c z, rectangular im nr nc -> (forall s, In s l -> s < nr) ->
  List.length acc = nc -> nth_error acc c = Some z ->
  let out := fold_left (fun acc s => zipw fadd acc (map (fmul (Fin (coef a r s))) (nth s im []))) l acc in
  List.length out = nc /\ nth_error out c = Some (csum a r (colf im c) l z).
Proof.
  intros a im nr nc r l. induction l as [|s l IH]; intros acc c z R Hl L E; cbn [fold_left csum]; [split; assumption|].
  apply IH; [exact R|intros u Hu; apply Hl; right; exact Hu| |].
  - rewrite zipw_length; [exact L|]. rewrite map_length, (row_length im nr nc s R); [exact L|apply Hl; left; reflexivity].
  - apply zipw_nth; [exact E|]. rewrite nth_error_map.
    assert (Lc : c < List.length (nth s im [])).
    { rewrite (row_length im nr nc s R) by (apply Hl; left; reflexivity). rewrite <- L. apply nth_error_Some. rewrite E. discriminate. }
    unfold colf. rewrite (nth_error_nth' _ NaN Lc). reflexivity.
Qed.

Lemma columnsum_nth : forall a im nr nc r c, rectangular im nr nc -> r < nr -> c < nc ->
  List.length (columnsum a im r) = nc /\ nth_error (columnsum a im r) c = Some (csum a r (colf im c) (seq 0 (S r)) (Fin 0)).
Proof.
  intros a im nr nc r c R Hr Hc. unfold columnsum. apply (colsum_nth a im nr nc r); [exact R| | |].
  - intros s Hs. apply in_seq in Hs. lia.
  - rewrite repeat_length. apply (width_rect _ nr); [exact R|lia].
  - rewrite (width_rect _ nr nc) by (try exact R; lia). apply nth_error_repeat. exact Hc.
Qed.

Lemma pix_colf : forall im nr nc r c, rectangular im nr nc -> r < nr -> c < nc -> pix im r c = Some (colf im c r).
Proof.
  intros im nr nc r c R Hr Hc. unfold pix, colf.
  rewrite (nth_error_nth' im []) by (destruct R; lia).
  apply nth_error_nth'. rewrite (row_length im nr nc); auto.
Qed.

Definition out_px (a : Q) (im : image) (r c : nat) : fl := fsub (colf im c r) (csum a r (colf im c) (seq 0 (S r)) (Fin 0)).

Lemma desmear_rect : forall a im nr nc, rectangular im nr nc -> rectangular (desmear_img a im) nr nc.
Proof.
  intros a im nr nc R. unfold desmear_img. destruct R as [L F]. assert (R : rectangular im nr nc) by (split; assumption).
  split.
  - rewrite zipw_length; [exact L|]. rewrite map_length, seq_length. reflexivity.
  - apply Forall_forall. intros row I. apply In_nth_error in I. destruct I as [r E].
    assert (Hr : r < nr).
    { assert (T : r < List.length (zipw (zipw fsub) im (map (columnsum a im) (seq 0 (List.length im))))) by (apply nth_error_Some; rewrite E; discriminate).
      rewrite zipw_length in T by (rewrite map_length, seq_length; reflexivity). lia. }
    assert (E1 : nth_error im r = Some (nth r im [])) by (apply nth_error_nth'; lia).
    assert (E2 : nth_error (map (columnsum a im) (seq 0 (List.length im))) r = Some (columnsum a im r)).
    { rewrite nth_error_map. rewrite (nth_error_nth' _ 0) by (rewrite seq_length; lia). rewrite seq_nth by lia. reflexivity. }
    rewrite (zipw_nth _ _ _ _ _ _ _ _ _ E1 E2) in E. injection E as <-.
    destruct nc as [|nc'].
    + apply length_zero_iff_nil. assert (Z0 := row_length im nr 0 r R Hr). apply length_zero_iff_nil in Z0. rewrite Z0. reflexivity.
    + destruct (columnsum_nth a im nr (S nc') r 0 R Hr) as [Lc _]; [lia|].
      rewrite zipw_length; rewrite (row_length im nr (S nc')) by assumption; [reflexivity|]. symmetry. exact Lc.
Qed.

Lemma desmear_pix : forall a im nr nc r c, rectangular im nr nc -> r < nr -> c < nc ->
  pix (desmear_img a im) r c = Some (out_px a im r c).
Proof.
  intros a im nr nc r c R Hr Hc. unfold pix, desmear_img.
  assert (L : List.length im = nr) by (destruct R; assumption).
  assert (E1 : nth_error im r = Some (nth r im [])) by (apply nth_error_nth'; lia).
  assert (E2 : nth_error (map (columnsum a im) (seq 0 (List.length im))) r = Some (columnsum a im r)).
  { rewrite nth_error_map. rewrite (nth_error_nth' _ 0) by (rewrite seq_length; lia). rewrite seq_nth by lia. reflexivity. }
  rewrite (zipw_nth _ _ _ _ _ _ _ _ _ E1 E2).
  destruct (columnsum_nth a im nr nc r c R Hr Hc) as [_ E3].
  unfold out_px. apply zipw_nth; [|exact E3].
  unfold colf. apply nth_error_nth'. rewrite (row_length im nr nc); auto.
Qed.

(** ** Finite columns *)
Fixpoint qsum_l (l : list nat) (f : nat -> Q) : Q := match l with [] => 0%Q | s :: t => (f s + qsum_l t f)%Q end.

Lemma qsum_l_app : forall l m f, (qsum_l (l ++ m) f == qsum_l l f + qsum_l m f)%Q.
Proof. induction l as [|x l IH]; intros m f; cbn [app qsum_l]; [ring|]. rewrite IH. ring. Qed.
Lemma qsum_l_seq : forall r f, (qsum_l (seq 0 (S r)) f == qsum_to r f)%Q.
Proof.
  induction r as [|r IH]; intros f; [cbn [seq qsum_l qsum_to]; ring|].
  rewrite seq_S, qsum_l_app, IH. cbn [plus qsum_l qsum_to]. ring.
Qed.
Lemma qsum_to_ext : forall r f g, (forall s, s <= r -> (f s == g s)%Q) -> (qsum_to r f == qsum_to r g)%Q.
Proof.
  induction r as [|r IH]; intros f g H; cbn [qsum_to]; [apply H; lia|].
  rewrite (IH f g) by (intros s Hs; apply H; lia). rewrite (H (S r)) by lia. reflexivity.
Qed.
Lemma qsum_to_scale : forall r k f, (qsum_to r (fun s => k * f s) == k * qsum_to r f)%Q.
Proof. induction r as [|r IH]; intros k f; cbn [qsum_to]; [reflexivity|]. rewrite IH. ring. Qed.

Lemma csum_fin : forall a r col x l z, (forall s, In s l -> exists q, col s = Fin q /\ (q == x s)%Q) ->
  exists q, csum a r col l (Fin z) = Fin q /\ (q == z + qsum_l l (fun s => coef a r s * x s))%Q.
Proof.
  intros a r col x l. induction l as [|s l IH]; intros z H; cbn [csum fold_left qsum_l].
  - exists z. split; [reflexivity|ring].
  - destruct (H s (or_introl eq_refl)) as (q & E & Hq). rewrite E. cbn [fmul fadd].
    destruct (IH (z + coef a r s * q)%Q (fun u Hu => H u (or_intror Hu))) as (q' & E' & Hq').
    exists q'. split; [exact E'|]. rewrite Hq', Hq. ring.
Qed.

Lemma coef_step : forall a r s, ~ (1 + a == 0)%Q -> ((1 + a) * coef a (S r) s == coef a r s)%Q.
Proof.
  intros a r s H. unfold coef.
  replace (Z.of_nat s + 1 - (Z.of_nat r + 1) - 1)%Z with (1 + (Z.of_nat s + 1 - (Z.of_nat (S r) + 1) - 1))%Z by lia.
  rewrite (Qpower_plus _ 1) by exact H. change (Qpower (1 + a) 1) with (1 + a)%Q. ring.
Qed.
Lemma coef_diag : forall a r, ~ (1 + a == 0)%Q -> ((1 + a) * coef a r r == a)%Q.
Proof.
  intros a r H. unfold coef. replace (Z.of_nat r + 1 - (Z.of_nat r + 1) - 1)%Z with (-1)%Z by lia.
  change (Qpower (1 + a) (-1)) with (/ (1 + a))%Q. field. exact H.
Qed.

(** Smear of row r: S r = Σ_{s<=r} coef a r s * x s; (1+a) S(r+1) = S r + a x(r+1). *)
Lemma smear_step : forall a x r, ~ (1 + a == 0)%Q ->
  ((1 + a) * qsum_to (S r) (fun s => coef a (S r) s * x s) == qsum_to r (fun s => coef a r s * x s) + a * x (S r))%Q.
Proof.
  intros a x r H. cbn [qsum_to].
  rewrite Qmult_plus_distr_r, <- qsum_to_scale, Qmult_assoc, coef_diag by exact H.
  rewrite (qsum_to_ext r _ (fun s => coef a r s * x s)%Q); [reflexivity|].
  intros s _. rewrite Qmult_assoc, coef_step by exact H. reflexivity.
Qed.

Definition outq (a : Q) (x : nat -> Q) (r : nat) : Q := (x r - qsum_to r (fun s => coef a r s * x s))%Q.

Lemma outq_sum : forall a x r, ~ (1 + a == 0)%Q -> (a * qsum_to r (outq a x) == qsum_to r (fun s => coef a r s * x s))%Q.
Proof.
  intros a x r H. induction r as [|r IH].
  - cbn [qsum_to]. unfold outq. cbn [qsum_to].
    assert (D := coef_diag a 0 H). set (k := coef a 0 0) in *.
    assert (T : (a - a * k == k)%Q) by (rewrite <- D at 1; ring).
    setoid_replace (a * (x 0%nat - k * x 0%nat))%Q with ((a - a * k) * x 0%nat)%Q by ring. rewrite T. reflexivity.
  - cbn [qsum_to]. rewrite Qmult_plus_distr_r, IH.
    assert (D := smear_step a x r H). unfold outq.
    change (qsum_to r (fun s => coef a (S r) s * x s) + coef a (S r) (S r) * x (S r))%Q with (qsum_to (S r) (fun s => coef a (S r) s * x s)%Q).
    set (s1 := qsum_to (S r) (fun s => coef a (S r) s * x s)%Q) in *. set (s0 := qsum_to r (fun s => coef a r s * x s)%Q) in *.
    assert (T : (s0 == (1 + a) * s1 - a * x (S r))%Q) by (rewrite D; ring). rewrite T. ring.
Qed.

Lemma outq_smeared : forall a n x, ~ (1 + a == 0)%Q -> smeared a n (outq a x) x.
Proof. intros a n x H r _. rewrite outq_sum by exact H. unfold outq. ring. Qed.

Lemma smeared_unique : forall a n x x' y, ~ (1 + a == 0)%Q -> smeared a n x y -> smeared a n x' y -> forall r, r < n -> (x r == x' r)%Q.
Proof.
  intros a n x x' y H A B.
  assert (G : forall r, forall s, s <= r -> r < n -> (x s == x' s)%Q).
  { assert (Cancel : forall u v : Q, ((1 + a) * u == (1 + a) * v)%Q -> (u == v)%Q).
    { intros u v E. setoid_replace u with ((1 + a) * u / (1 + a))%Q by (field; exact H). rewrite E. field. exact H. }
    induction r as [|r IH]; intros s Hs Hn.
    - replace s with 0 by lia. assert (E1 := A 0 Hn). assert (E2 := B 0 Hn). cbn [qsum_to] in E1, E2.
      apply Cancel. transitivity (y 0); [rewrite E1|rewrite E2]; ring.
    - destruct (Nat.eq_dec s (S r)) as [->|N]; [|apply IH; lia].
      assert (E1 := A (S r) Hn). assert (E2 := B (S r) Hn). cbn [qsum_to] in E1, E2.
      assert (T : (qsum_to r x == qsum_to r x')%Q) by (apply qsum_to_ext; intros u Hu; apply IH; lia).
      apply Cancel.
      transitivity (y (S r) - a * qsum_to r x)%Q; [rewrite E1; ring|].
      rewrite T. rewrite E2. ring. }
  intros r Hr. apply (G r); [lia|exact Hr].
Qed.

Lemma desmear_col : forall a im nr nc c x, rectangular im nr nc -> c < nc -> ~ (1 + a == 0)%Q -> col_is im c x ->
  exists y, col_is (desmear_img a im) c y /\ smeared a nr y x.
Proof.
  intros a im nr nc c x R Hc H K. exists (outq a x). split; [|apply outq_smeared; exact H].
  assert (L : List.length im = nr) by (destruct R; assumption).
  assert (L' : List.length (desmear_img a im) = nr) by (apply (desmear_rect a im nr nc R)).
  intros r Hr. rewrite L' in Hr.
  assert (C : forall s, s < nr -> exists q, colf im c s = Fin q /\ (q == x s)%Q).
  { intros s Hs. destruct (K s) as (q & E & Hq); [lia|]. rewrite (pix_colf im nr nc s c R Hs Hc) in E. injection E as E. exists q. auto. }
  destruct (csum_fin a r (colf im c) x (seq 0 (S r)) 0%Q) as (q & E & Hq).
  { intros s Hs. apply in_seq in Hs. apply C. lia. }
  destruct (C r Hr) as (q0 & E0 & Hq0).
  exists (q0 + - q)%Q. split.
  - rewrite (desmear_pix a im nr nc r c R Hr Hc). unfold out_px. rewrite E, E0. reflexivity.
  - unfold outq. rewrite Hq, Hq0, qsum_l_seq. ring.
Qed.

Lemma col_is_unique : forall im c x y r, col_is im c x -> col_is im c y -> r < List.length im -> (x r == y r)%Q.
Proof.
  intros im c x y r A B H. destruct (A r H) as (p & E & P). destruct (B r H) as (q & E' & P').
  rewrite E in E'. injection E' as <-. rewrite <- P, <- P'. reflexivity.
Qed.

(** ** NaN and locality *)
Lemma csum_nan : forall a r col l, csum a r col l NaN = NaN.
Proof. intros a r col l. induction l as [|s l IH]; cbn [csum fold_left]; [reflexivity|]. exact IH. Qed.
Lemma fadd_nan_r : forall x, fadd x NaN = NaN.
Proof. intros []; reflexivity. Qed.
Lemma csum_has_nan : forall a r col l z s, In s l -> col s = NaN -> csum a r col l z = NaN.
Proof.
  intros a r col l. induction l as [|u l IH]; intros z s I E; [contradiction|].
  cbn [csum fold_left]. destruct I as [->|I].
  - rewrite E. cbn [fmul]. rewrite fadd_nan_r. apply csum_nan.
  - apply (IH _ s I E).
Qed.
Lemma desmear_nan : forall a im nr nc s r c, rectangular im nr nc -> s <= r -> r < nr -> c < nc ->
  pix im s c = Some NaN -> pix (desmear_img a im) r c = Some NaN.
Proof.
  intros a im nr nc s r c R Hs Hr Hc E. rewrite (desmear_pix a im nr nc r c R Hr Hc). f_equal. unfold out_px.
  rewrite (pix_colf im nr nc s c R) in E by lia. injection E as E.
  rewrite (csum_has_nan a r (colf im c) (seq 0 (S r)) (Fin 0) s); [apply fadd_nan_r| |exact E].
  apply in_seq. lia.
Qed.

Lemma csum_ext : forall a r col col' l z, (forall s, In s l -> col s = col' s) -> csum a r col l z = csum a r col' l z.
Proof.
  intros a r col col' l. induction l as [|s l IH]; intros z H; cbn [csum fold_left]; [reflexivity|].
  rewrite (H s (or_introl eq_refl)). apply IH. intros u Hu. apply H. right. exact Hu.
Qed.
Lemma desmear_local : forall a im im' nr nc nr' nc' r c c', rectangular im nr nc -> rectangular im' nr' nc' ->
  r < nr -> r < nr' -> c < nc -> c' < nc' -> (forall s, s <= r -> pix im s c = pix im' s c') ->
  pix (desmear_img a im) r c = pix (desmear_img a im') r c'.
Proof.
  intros a im im' nr nc nr' nc' r c c' R R' Hr Hr' Hc Hc' E.
  rewrite (desmear_pix a im nr nc r c R Hr Hc), (desmear_pix a im' nr' nc' r c' R' Hr' Hc').
  assert (C : forall s, s <= r -> colf im c s = colf im' c' s).
  { intros s Hs. assert (T := E s Hs). rewrite (pix_colf im nr nc s c R), (pix_colf im' nr' nc' s c' R') in T by lia. congruence. }
  unfold out_px. rewrite (C r) by lia. do 2 f_equal. apply csum_ext. intros s Hs. apply in_seq in Hs. apply C. lia.
Qed.

(** ** Linearity *)
Lemma qsum_to_plus : forall r f g, (qsum_to r (fun s => f s + g s) == qsum_to r f + qsum_to r g)%Q.
Proof. induction r as [|r IH]; intros f g; cbn [qsum_to]; [reflexivity|]. rewrite IH. ring. Qed.
Lemma desmear_linear : forall a k1 k2 im1 im2 im nr nc c x1 x2 y1 y2 y, ~ (1 + a == 0)%Q ->
  rectangular im1 nr nc -> rectangular im2 nr nc -> rectangular im nr nc -> c < nc ->
  col_is im1 c x1 -> col_is im2 c x2 -> col_is im c (fun r => k1 * x1 r + k2 * x2 r)%Q ->
  col_is (desmear_img a im1) c y1 -> col_is (desmear_img a im2) c y2 -> col_is (desmear_img a im) c y ->
  forall r, r < nr -> (y r == k1 * y1 r + k2 * y2 r)%Q.
Proof.
  intros a k1 k2 im1 im2 im nr nc c x1 x2 y1 y2 y H R1 R2 R Hc K1 K2 K O1 O2 O r Hr.
  destruct (desmear_col a im1 nr nc c x1 R1 Hc H K1) as (z1 & Z1 & S1).
  destruct (desmear_col a im2 nr nc c x2 R2 Hc H K2) as (z2 & Z2 & S2).
  destruct (desmear_col a im nr nc c _ R Hc H K) as (z & Z & S0).
  assert (L1 : List.length (desmear_img a im1) = nr) by (apply (desmear_rect a im1 nr nc R1)).
  assert (L2 : List.length (desmear_img a im2) = nr) by (apply (desmear_rect a im2 nr nc R2)).
  assert (L : List.length (desmear_img a im) = nr) by (apply (desmear_rect a im nr nc R)).
  rewrite (col_is_unique _ _ y z r O Z) by lia.
  rewrite (col_is_unique _ _ y1 z1 r O1 Z1) by lia.
  rewrite (col_is_unique _ _ y2 z2 r O2 Z2) by lia.
  apply (smeared_unique a nr z (fun r => k1 * z1 r + k2 * z2 r)%Q (fun r => k1 * x1 r + k2 * x2 r)%Q H S0); [|exact Hr].
  intros s Hs. rewrite (S1 s Hs), (S2 s Hs), qsum_to_plus, !qsum_to_scale. ring.
Qed.

(** ** The whole function *)
Lemma desmear_frame_ok : forall rt f g, desmear_frame rt f = Ok g <-> desmear_ok rt f g.
Proof.
  intros rt [im t] [im' t']. unfold desmear_frame, desmear_ok. cbn [d_exptime d_img]. destruct t as [t|]; cbn [getkey bind].
  2:{ split; [discriminate|]. intros (t & E & _). discriminate. }
  destruct im as [|row im].
  - split.
    + intros E. injection E as <- <-. exists t. split; [reflexivity|]. split; [reflexivity|]. split; [reflexivity|]. intros N; contradiction N; reflexivity.
    + intros (u & E1 & -> & -> & _). injection E1 as ->. reflexivity.
  - destruct (Qeq_bool t 0) eqn:T; cbn [orb].
    { apply Qeq_bool_iff in T. split; [discriminate|]. intros (u & E1 & _ & _ & N). injection E1 as <-. destruct N as [N _]; [discriminate|]. contradiction. }
    destruct (Qeq_bool (1 + rt / t) 0) eqn:T2.
    { apply Qeq_bool_iff in T2. split; [discriminate|]. intros (u & E1 & _ & _ & N). injection E1 as <-. destruct N as [_ N]; [discriminate|]. contradiction. }
    apply Qeq_bool_neq in T, T2. split.
    + intros E. injection E as <- <-. exists t. split; [reflexivity|]. split; [reflexivity|]. split; [reflexivity|]. auto.
    + intros (u & E1 & -> & -> & _). injection E1 as ->. reflexivity.
Qed.
Lemma desmear_spec : forall rt fs out, desmear rt fs = Ok out <-> exists r, rt = Some r /\ Forall2 (desmear_ok r) fs out.
Proof.
  intros [r|] fs out; unfold desmear; cbn [getkey bind].
  2:{ split; [discriminate|]. intros (r & E & _). discriminate. }
  assert (G : mapR (desmear_frame r) fs = Ok out <-> Forall2 (desmear_ok r) fs out).
  { revert out. induction fs as [|f fs IH]; intros out; cbn [mapR].
    - split; [intros E; injection E as <-; constructor|intros E; inversion E; reflexivity].
    - split.
      + destruct (desmear_frame r f) as [g|] eqn:E; cbn [bind]; [|discriminate].
        destruct (mapR (desmear_frame r) fs) as [gs|] eqn:E'; cbn [bind]; [|discriminate].
        intros X. injection X as <-. constructor; [apply desmear_frame_ok; exact E|apply IH; reflexivity].
      + intros X. inversion X as [|? g ? gs A B]; subst. apply desmear_frame_ok in A. rewrite A. apply IH in B. rewrite B. reflexivity. }
  rewrite G. split; [intros F; exists r; auto|intros (r' & E & F); injection E as <-; exact F].
Qed.
