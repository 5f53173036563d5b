(** Proofs on cropping. *)
From Coq Require Import List Arith Bool QArith Qabs Qround ZArith String Lia Lqa.
From Verif Require Import Base CropModel CropSpec.
Import ListNotations.
Local Open Scope Z_scope.
Local Open Scope list_scope.

(** ** Rounding *)
Lemma half_not_int : forall z w : Z, ~ (inject_Z z == inject_Z w + (1 # 2))%Q.
Proof. intros z w H. unfold Qeq, inject_Z, Qplus in H. cbn in H. lia. Qed.
Lemma inj_lt : forall a b, (inject_Z a < inject_Z b)%Q <-> a < b.
Proof. intros a b. rewrite <- Zlt_Qlt. reflexivity. Qed.
Lemma inj_S : forall a, (inject_Z (a + 1) == inject_Z a + 1)%Q.
Proof. intros a. rewrite inject_Z_plus. reflexivity. Qed.

Lemma abs_le : forall a b : Q, (Qabs a <= b)%Q <-> (- b <= a /\ a <= b)%Q.
Proof. exact Qabs_Qle_condition. Qed.
Lemma abs_eq : forall a b : Q, (0 <= b)%Q -> ((Qabs a == b)%Q <-> (a == b)%Q \/ (a == - b)%Q).
Proof.
  intros a b B. apply (Qabs_case a); intros H; split; intros X; try (left; exact X) || (destruct X; lra) || idtac.
  right. lra.
Qed.

Lemma corner_fun : forall c r r', corner c r -> corner c r' -> r = r'.
Proof.
  intros c r r' [A B] [A' B']. apply abs_le in A, A'.
  assert (B1 := fun h => B (proj2 (abs_eq _ (1 # 2) ltac:(lra)) h)). assert (B1' := fun h => B' (proj2 (abs_eq _ (1 # 2) ltac:(lra)) h)). clear B B'.
  destruct (Z.lt_trichotomy r r') as [L|[L|L]]; [exfalso|exact L|exfalso].
  - assert (r' = r + 1).
    { assert (r' < r + 2); [|lia]. apply inj_lt. rewrite inject_Z_plus. change (inject_Z 2) with 2%Q. lra. }
    subst r'. rewrite inj_S in *. assert (E : Z.Even r) by (apply B1; left; lra). assert (E' : Z.Even (r + 1)) by (apply B1'; right; lra).
    destruct E as (k & ->), E' as (k' & E'). lia.
  - assert (r = r' + 1).
    { assert (r < r' + 2); [|lia]. apply inj_lt. rewrite inject_Z_plus. change (inject_Z 2) with 2%Q. lra. }
    subst r. rewrite inj_S in *. assert (E : Z.Even (r' + 1)) by (apply B1; right; lra). assert (E' : Z.Even r') by (apply B1'; left; lra).
    destruct E' as (k & ->), E as (k' & E'). lia.
Qed.
Lemma round_corner : forall c, corner c (round_even (c - (1 # 2))).
Proof.
  intros c. set (q := (c - (1 # 2))%Q). unfold corner. fold q. unfold round_even.
  pose proof (Qfloor_le q) as L. pose proof (Qlt_floor q) as U. rewrite inj_S in U. set (f := Qfloor q) in *. cbv zeta.
  rewrite abs_le, (abs_eq _ (1 # 2)) by lra.
  destruct (Qcompare_spec (q - inject_Z f) (1 # 2)) as [E|E|E].
  - destruct (Z.even f) eqn:EV.
    + split; [lra|]. intros _. apply Z.even_spec. exact EV.
    + rewrite inj_S. split; [lra|]. intros _. apply Z.even_spec. rewrite Z.add_1_r, Z.even_succ, <- Z.negb_even, EV. reflexivity.
  - split; [lra|]. intros [H|H]; lra.
  - rewrite inj_S. split; [lra|]. intros [H|H]; lra.
Qed.
Lemma is_half_iff : forall q, is_half q = true <-> exists r, (q == inject_Z r + (1 # 2))%Q.
Proof.
  intros q. unfold is_half. rewrite Qeq_bool_iff. split.
  - intros H. exists (Qfloor q). lra.
  - intros (r & E). assert (F : Qfloor q = r).
    { pose proof (Qfloor_le q) as L. pose proof (Qlt_floor q) as U. assert (A : Qfloor q < r + 1) by (apply inj_lt; rewrite inj_S; lra).
      assert (B : r < Qfloor q + 1) by (apply inj_lt; lra). lia. }
    rewrite F. lra.
Qed.
Lemma corner_half : forall c r, (c == inject_Z r + (1 # 2))%Q -> corner c r.
Proof. intros c r E. unfold corner. rewrite abs_le, (abs_eq _ (1 # 2)) by lra. split; [lra|]. intros [H|H]; lra. Qed.
Lemma corner_compat : forall c c' r, (c == c')%Q -> corner c r -> corner c' r.
Proof. intros c c' r E [A B]. unfold corner. rewrite <- E. auto. Qed.
(** snapping finds the corners, and is the identity on corners *)
Lemma snap_corner : forall x y rx ry, corner x rx -> corner y ry ->
  (fst (snap (x, y)) == inject_Z rx + (1 # 2))%Q /\ (snd (snap (x, y)) == inject_Z ry + (1 # 2))%Q.
Proof.
  intros x y rx ry X Y. unfold snap. cbn [fst snd]. destruct (is_half x && is_half y) eqn:H.
  - apply andb_true_iff in H. destruct H as [H1 H2]. apply is_half_iff in H1, H2. destruct H1 as (r1 & E1), H2 as (r2 & E2). cbn [fst snd].
    rewrite (corner_fun _ _ _ X (corner_half _ _ E1)), (corner_fun _ _ _ Y (corner_half _ _ E2)). split; assumption.
  - cbn [fst snd]. rewrite (corner_fun _ _ _ X (round_corner x)), (corner_fun _ _ _ Y (round_corner y)). split; reflexivity.
Qed.
Lemma snap_idem : forall x y rx ry, (x == inject_Z rx + (1 # 2))%Q -> (y == inject_Z ry + (1 # 2))%Q -> snap (x, y) = (x, y).
Proof.
  intros x y rx ry X Y. unfold snap. cbn [fst snd]. rewrite (proj2 (is_half_iff x)), (proj2 (is_half_iff y)) by (eexists; eassumption). reflexivity.
Qed.

Lemma trunc_int : forall q z, (q == inject_Z z)%Q -> truncQ q = z.
Proof.
  intros q z E. unfold truncQ. destruct (Qle_bool 0 q); rewrite E; [apply Qfloor_Z|apply Qceiling_Z].
Qed.
Lemma even_half : forall s, Z.Even s -> (inject_Z s / 2 == inject_Z (s / 2))%Q.
Proof.
  intros s (k & ->). rewrite Z.mul_comm, Z.div_mul by lia. rewrite inject_Z_mult. change (inject_Z 2) with 2%Q. field.
Qed.
Lemma first_pixel : forall c r s, Z.Even s -> (c == inject_Z r + (1 # 2))%Q -> truncQ (c + (1 # 2) - inject_Z s / 2) = r + 1 - s / 2.
Proof.
  intros c r s S E. apply trunc_int. rewrite (even_half s S), E. replace (r + 1 - s / 2) with (r + 1 + - (s / 2)) by lia. rewrite inject_Z_plus, inj_S, inject_Z_opp. lra.
Qed.
Lemma last_pixel : forall c r s, Z.Even s -> (c == inject_Z r + (1 # 2))%Q -> truncQ (c + (1 # 2) + inject_Z s / 2) = (r + 1 - s / 2) + s.
Proof.
  intros c r s S E. apply trunc_int. rewrite (even_half s S), E.
  assert (H : r + 1 - s / 2 + s = r + 1 + s / 2) by (destruct S as (k & ->); rewrite Z.mul_comm, Z.div_mul by lia; lia).
  rewrite H, inject_Z_plus, inj_S. lra.
Qed.

(** ** Windows *)
Lemma slice_in : forall X (l : list X) i s, 0 <= i -> 0 <= s -> i + s <= Z.of_nat (List.length l) -> slice i (i + s) l = firstn (Z.to_nat s) (skipn (Z.to_nat i) l).
Proof.
  intros X l i s I S L. unfold slice. replace (i <? 0) with false by (symmetry; apply Z.ltb_ge; lia). replace (i + s <? 0) with false by (symmetry; apply Z.ltb_ge; lia).
  f_equal; [|f_equal]; lia.
Qed.
Lemma nthf : forall A n k (l : list A), (k < n)%nat -> nth_error (firstn n l) k = nth_error l k.
Proof. intros A. induction n as [|n IH]; intros k l H; [lia|]. destruct l; [reflexivity|]. destruct k; [reflexivity|]. cbn. apply IH. lia. Qed.
Lemma nths : forall A n k (l : list A), nth_error (skipn n l) k = nth_error l (n + k).
Proof. intros A. induction n as [|n IH]; intros k [|x l]; try reflexivity; [destruct k; reflexivity|]. cbn. apply IH. Qed.
Lemma nth_ext : forall A (l m : list A), List.length l = List.length m -> (forall i, (i < List.length l)%nat -> nth_error l i = nth_error m i) -> l = m.
Proof.
  intros A. induction l as [|x l IH]; intros [|y m] L H; cbn in L; try lia; [reflexivity|]. assert (E := H 0%nat ltac:(cbn; lia)). cbn in E. injection E as ->. f_equal.
  apply IH; [lia|]. intros i I. apply (H (S i)). cbn. lia.
Qed.

Section W.
Variable X : Type.
Variables h w x1 y1 sx sy : Z.
Hypothesis B : 0 <= x1 /\ 0 <= y1 /\ 0 <= sx /\ 0 <= sy /\ x1 + sx <= w /\ y1 + sy <= h.
Lemma slice_nth : forall A (l : list A) i s k, 0 <= i -> 0 <= s -> i + s <= Z.of_nat (List.length l) -> Z.of_nat k < s -> nth_error (slice i (i + s) l) k = nth_error l (k + Z.to_nat i).
Proof. intros A l i s k I S L K. rewrite slice_in by assumption. rewrite nthf by lia. rewrite nths. f_equal. lia. Qed.
Lemma slice_len : forall A (l : list A) i s, 0 <= i -> 0 <= s -> i + s <= Z.of_nat (List.length l) -> Z.of_nat (List.length (slice i (i + s) l)) = s.
Proof. intros A l i s I S L. rewrite slice_in by assumption. rewrite firstn_length, skipn_length. lia. Qed.

Lemma cut_window : forall (p : list (list X)), sized h w p -> window x1 y1 sx sy p (cut x1 (x1 + sx) y1 (y1 + sy) p).
Proof.
  intros p [HL HR]. unfold cut. split.
  - split.
    + rewrite map_length. apply slice_len; lia.
    + rewrite Forall_forall in *. intros r I. apply in_map_iff in I. destruct I as (r0 & <- & I). assert (J : In r0 p).
      { rewrite slice_in in I by lia. apply In_nth_error in I. destruct I as (n & I). assert (n < Z.to_nat sy)%nat by (assert (n < List.length (firstn (Z.to_nat sy) (skipn (Z.to_nat y1) p)))%nat by (apply nth_error_Some; congruence); rewrite firstn_length in *; lia).
        rewrite nthf, nths in I by lia. exact (nth_error_In _ _ I). }
      apply slice_len; try lia. rewrite (HR r0 J). lia.
  - intros i j I J. unfold pix. rewrite nth_error_map, (slice_nth _ p y1 sy i) by lia.
    destruct (nth_error p (i + Z.to_nat y1)) as [r|] eqn:R; [|reflexivity]. cbn [option_map]. rewrite Forall_forall in HR.
    apply slice_nth; try lia. rewrite (HR r (nth_error_In _ _ R)). lia.
Qed.
Lemma window_fun : forall (p a b : list (list X)), window x1 y1 sx sy p a -> window x1 y1 sx sy p b -> a = b.
Proof.
  intros p a b [[LA RA] PA] [[LB RB] PB]. apply nth_ext; [lia|]. intros i I.
  destruct (nth_error a i) as [r|] eqn:EA; [|apply nth_error_None in EA; lia]. destruct (nth_error b i) as [s|] eqn:EB; [|apply nth_error_None in EB; lia]. f_equal.
  rewrite Forall_forall in RA, RB. pose proof (RA r (nth_error_In _ _ EA)) as Lr. pose proof (RB s (nth_error_In _ _ EB)) as Ls.
  apply nth_ext; [lia|]. intros j J. pose proof (PA i j ltac:(lia) ltac:(lia)) as Q1. pose proof (PB i j ltac:(lia) ltac:(lia)) as Q2.
  unfold pix at 1 in Q1. unfold pix at 1 in Q2. rewrite EA in Q1. rewrite EB in Q2. congruence.
Qed.
Lemma windows_iff : forall (ps qs : list (list (list X))), Forall (sized h w) ps -> (Forall2 (window x1 y1 sx sy) ps qs <-> qs = map (cut x1 (x1 + sx) y1 (y1 + sy)) ps).
Proof.
  intros ps. induction ps as [|p ps IH]; intros qs F.
  - split; [intros H; inversion H; reflexivity|intros ->; constructor].
  - inversion F as [|? ? F1 F2]; subst. split.
    + intros H. inversion H as [|? q ? qs' W H']; subst. cbn [map]. f_equal; [exact (window_fun p _ _ W (cut_window p F1))|apply IH; assumption].
    + intros ->. cbn [map]. constructor; [exact (cut_window p F1)|apply IH; [assumption|reflexivity]].
Qed.
Lemma layers_iff : forall (ps qs : list (list (list (list X)))), Forall (Forall (sized h w)) ps -> (Forall2 (Forall2 (window x1 y1 sx sy)) ps qs <-> qs = map (map (cut x1 (x1 + sx) y1 (y1 + sy))) ps).
Proof.
  intros ps. induction ps as [|p ps IH]; intros qs F.
  - split; [intros H; inversion H; reflexivity|intros ->; constructor].
  - inversion F as [|? ? F1 F2]; subst. split.
    + intros H. inversion H as [|? q ? qs' W H']; subst. cbn [map]. f_equal; [apply windows_iff; assumption|apply IH; assumption].
    + intros ->. cbn [map]. constructor; [apply windows_iff; [assumption|reflexivity]|apply IH; [assumption|reflexivity]].
Qed.
End W.

(** ** Header pairs *)
Lemma shift_iff : forall a b x y r, shift_pair a b x y = Ok r <-> moved a b (fst r) (snd r) x y.
Proof.
  intros a b x y (a' & b'). unfold shift_pair, sub, moved. cbn [fst snd]. destruct a as [p|]; [|split; [intros H; injection H as <- <-; left; auto|intros [(_ & -> & ->)|(p & q & H & _)]; [reflexivity|discriminate H]]].
  cbn [getkey bind]. destruct b as [q|]; cbn [getkey bind].
  - split; [intros H; injection H as <- <-; right; exists p, q; auto|]. intros [(H & _)|(p' & q' & Hp & Hq & -> & ->)]; [discriminate H|]. injection Hp as <-. injection Hq as <-. reflexivity.
  - split; [discriminate|]. intros [(H & _)|(p' & q' & _ & H & _)]; discriminate H.
Qed.
Lemma det_iff : forall a b x y r, det_pair a b x y = Ok r <-> origin a b (fst r) (snd r) x y.
Proof.
  intros a b x y (a' & b'). unfold det_pair, origin. cbn [fst snd]. destruct a as [p|].
  - destruct b as [q|]; cbn [getkey bind].
    + split; [intros H; injection H as <- <-; right; exists p, q; auto|]. intros [(H & _)|(p' & q' & Hp & Hq & -> & ->)]; [discriminate H|]. injection Hp as <-. injection Hq as <-. reflexivity.
    + split; [discriminate|]. intros [(H & _)|(p' & q' & _ & H & _)]; discriminate H.
  - split; [intros H; injection H as <- <-; left; auto|]. intros [(_ & -> & ->)|(p & q & H & _)]; [reflexivity|discriminate H].
Qed.

Section Frames.
Variables V E D : Type.
Notation frame := (cframe V E D).

Lemma frame_iff : forall sx sy rx ry c (f g : frame), wf f -> 0 <= sx -> 0 <= sy -> Z.Even sx -> Z.Even sy ->
  (fst c == inject_Z rx + (1 # 2))%Q -> (snd c == inject_Z ry + (1 # 2))%Q ->
  (crop_frame sx sy c f = Ok g <-> framed sx sy rx ry f g).
Proof.
  intros sx sy rx ry c f g (W1 & W2 & W3) SX SY EX EY CX CY. unfold crop_frame, framed. cbv zeta.
  rewrite (first_pixel _ _ _ EX CX), (last_pixel _ _ _ EX CX), (first_pixel _ _ _ EY CY), (last_pixel _ _ _ EY CY).
  set (x1 := rx + 1 - sx / 2). set (y1 := ry + 1 - sy / 2). clearbody x1 y1. clear CX CY EX EY.
  destruct ((x1 <? 0) || (c_w f <? x1 + sx) || (y1 <? 0) || (c_h f <? y1 + sy)) eqn:BB.
  { split; [discriminate|]. intros (A1 & A2 & A3 & A4 & _). rewrite !orb_true_iff, !Z.ltb_lt in BB. lia. }
  rewrite !orb_false_iff, !Z.ltb_ge in BB. destruct BB as [[[B1 B2] B3] B4].
  assert (BND : 0 <= x1 /\ 0 <= y1 /\ 0 <= sx /\ 0 <= sy /\ x1 + sx <= c_w f /\ y1 + sy <= c_h f) by lia.
  destruct ((c_ndim f =? 2)%nat || (c_ndim f =? 3)%nat) eqn:ND; cbn [negb].
  2:{ split; [discriminate|]. intros (_ & _ & _ & _ & [A|A] & _); rewrite A in ND; discriminate ND. }
  assert (NDP : (c_ndim f = 2 \/ c_ndim f = 3)%nat) by (apply orb_true_iff in ND; rewrite !Nat.eqb_eq in ND; exact ND). clear ND.
  rewrite (windows_iff V _ _ _ _ _ _ BND _ _ W1), (layers_iff E _ _ _ _ _ _ BND _ _ W2), (windows_iff D _ _ _ _ _ _ BND _ _ W3).
  destruct g as [nd gh gw gd ge gq [ls s1 s2 p1 p2 d1 d2 ax qx rxx]]. cbn [c_ndim c_h c_w c_data c_err c_dq c_hdr h_lsam h_starx h_stary h_crpix1 h_crpix2 h_det0x h_det0y h_ext_naxis h_dq_naxis h_err_naxis].
  destruct (h_ext_naxis (c_hdr f)) as [[ex1 ex2] ex3]. destruct (h_dq_naxis (c_hdr f)) as [[q1 q2] q3]. destruct (h_err_naxis (c_hdr f)) as [[[r1 r2] r3] r4]. cbn [snd].
  split.
  - intros H. destruct (shift_pair (h_starx (c_hdr f)) _ _ _) as [s|] eqn:S; cbn [bind] in H; [|discriminate H].
    destruct (shift_pair (h_crpix1 (c_hdr f)) _ _ _) as [p|] eqn:P; cbn [bind] in H; [|discriminate H].
    destruct (det_pair _ _ _ _) as [d|] eqn:DP; cbn [bind] in H; [|discriminate H].
    apply shift_iff in S, P. apply det_iff in DP. injection H as <- <- <- <- <- <- <- <- <- <- <- <- <- <- <- <-.
    do 4 (split; [assumption|]). split; [exact NDP|]. do 6 (split; [reflexivity|]). split; [exact S|]. split; [exact P|]. split; [exact DP|]. repeat split.
  - intros (_ & _ & _ & _ & _ & -> & -> & -> & -> & -> & -> & S & P & DP & -> & -> & -> & ->).
    apply (proj2 (shift_iff _ _ _ _ (_, _))) in S. apply (proj2 (shift_iff _ _ _ _ (_, _))) in P. apply (proj2 (det_iff _ _ _ _ (_, _))) in DP.
    rewrite S. cbn [bind]. rewrite P. cbn [bind]. rewrite DP. reflexivity.
Qed.

Lemma all_pair : forall sx sy rx ry x y (fs : list frame) r, Forall wf fs -> 0 <= sx -> 0 <= sy -> Z.Even sx -> Z.Even sy ->
  (x == inject_Z rx + (1 # 2))%Q -> (y == inject_Z ry + (1 # 2))%Q ->
  (crop_all (SzPair sx sy) (CePair x y) fs = Ok r <-> Forall2 (framed sx sy rx ry) fs (fst r) /\ snd r = CePair x y).
Proof.
  intros sx sy rx ry x y fs. induction fs as [|f fs IH]; intros (out & c) W SX SY EX EY CX CY.
  - cbn [crop_all fst snd]. split; [intros H; injection H as <- <-; split; [constructor|reflexivity]|]. intros [F ->]. inversion F. reflexivity.
  - inversion W as [|? ? Wf W']; subst. cbn [crop_all settle_size settle_centre bind fst snd]. rewrite (snap_idem x y rx ry CX CY). cbn [fst snd bind].
    split.
    + intros H. destruct (crop_frame sx sy (x, y) f) as [g|] eqn:G; cbn [bind] in H; [|discriminate H].
      remember (crop_all (SzPair sx sy) (CePair x y) fs) as ca eqn:T in H. symmetry in T. destruct ca as [t|]; cbn [bind] in H; [|discriminate H]. injection H as <- <-.
      apply (IH t W' SX SY EX EY CX CY) in T. destruct T as [T ->]. split; [|reflexivity]. constructor; [|exact T].
      apply (frame_iff sx sy rx ry (x, y) f g Wf SX SY EX EY CX CY). exact G.
    + intros [F ->]. inversion F as [|? g ? out' G F']; subst. apply (frame_iff sx sy rx ry (x, y) f g Wf SX SY EX EY CX CY) in G. rewrite G. cbn [bind].
      rewrite (proj2 (IH (out', CePair x y) W' SX SY EX EY CX CY) (conj F' eq_refl)). reflexivity.
Qed.

Lemma asked_size_iff : forall s (f : frame) sx sy, settle_size V E D s f = Ok (sx, sy) <-> asked_size s f sx sy.
Proof.
  intros s f sx sy. destruct s as [|n|x y]; cbn [settle_size asked_size].
  - destruct (h_lsam (c_hdr f)) as [l|]; cbn [getkey bind].
    + destruct (String.eqb l "NFOV") eqn:L.
      * apply String.eqb_eq in L. subst. split; [intros H; injection H as <- <-; auto|intros (_ & -> & ->); reflexivity].
      * apply String.eqb_neq in L. split; [discriminate|]. intros (H & _). congruence.
    + split; [discriminate|]. intros (H & _). discriminate H.
  - split; [intros H; injection H as <- <-; auto|intros [-> ->]; reflexivity].
  - split; [intros H; injection H as <- <-; auto|intros [-> ->]; reflexivity].
Qed.

(** the centre settled for the first frame *)
Lemma settled : forall c (f : frame) p c', settle_centre V E D c f = Ok (p, c') -> exists rx ry, asked_centre c f rx ry
  /\ (fst p == inject_Z rx + (1 # 2))%Q /\ (snd p == inject_Z ry + (1 # 2))%Q /\ ((exists z, c = CeInt z) /\ c' = CeFloat (fst p) \/ (forall z, c <> CeInt z) /\ c' = CePair (fst p) (snd p)).
Proof.
  intros c f p c' H.
  assert (G : forall x y, exists rx ry, corner x rx /\ corner y ry /\ (fst (snap (x, y)) == inject_Z rx + (1 # 2))%Q /\ (snd (snap (x, y)) == inject_Z ry + (1 # 2))%Q).
  { intros x y. exists (round_even (x - (1 # 2))), (round_even (y - (1 # 2))). pose proof (round_corner x) as A. pose proof (round_corner y) as B. split; [exact A|]. split; [exact B|]. exact (snap_corner x y _ _ A B). }
  unfold asked_centre. destruct c as [|z|q|x y]; cbn [settle_centre] in H.
  - destruct (h_starx (c_hdr f)) as [x|]; [|discriminate H]. destruct (h_stary (c_hdr f)) as [y|]; [|discriminate H]. injection H as <- <-. destruct (G x y) as (rx & ry & A & B & C & C').
    exists rx, ry. split; [exists x, y; auto|]. split; [exact C|]. split; [exact C'|]. right. split; [discriminate|reflexivity].
  - injection H as <- <-. destruct (G (inject_Z z) (inject_Z z)) as (rx & ry & A & B & C & C'). exists rx, ry. split; [exists (inject_Z z), (inject_Z z); auto|]. split; [exact C|]. split; [exact C'|]. left. split; [exists z; reflexivity|reflexivity].
  - injection H as <- <-. destruct (G q q) as (rx & ry & A & B & C & C'). exists rx, ry. split; [exists q, q; auto|]. split; [exact C|]. split; [exact C'|]. right. split; [discriminate|reflexivity].
  - injection H as <- <-. destruct (G x y) as (rx & ry & A & B & C & C'). exists rx, ry. split; [exists x, y; auto|]. split; [exact C|]. split; [exact C'|]. right. split; [discriminate|reflexivity].
Qed.
Lemma settle_total : forall c (f : frame) rx ry, asked_centre c f rx ry -> exists p c', settle_centre V E D c f = Ok (p, c').
Proof.
  intros c f rx ry (x & y & _ & _ & H). destruct c as [|z|q|a b]; cbn [settle_centre]; try (eexists; eexists; reflexivity).
  destruct H as [-> ->]. eexists. eexists. reflexivity.
Qed.
Lemma asked_fun : forall c (f : frame) rx ry rx' ry', asked_centre c f rx ry -> asked_centre c f rx' ry' -> rx = rx' /\ ry = ry'.
Proof.
  intros c f rx ry rx' ry' (x & y & A & B & H) (x' & y' & A' & B' & H').
  assert (x = x' /\ y = y') as [-> ->] by (destruct c; destruct H as [H1 H2], H' as [H1' H2']; split; congruence).
  split; [exact (corner_fun _ _ _ A A')|exact (corner_fun _ _ _ B B')].
Qed.

Lemma even_size_spec : forall s (f : frame) sx sy, asked_size s f sx sy -> (even_size s = true <-> Z.Even sx /\ Z.Even sy).
Proof.
  assert (M : forall n, (n mod 2 =? 0) = true <-> Z.Even n).
  { intros n. rewrite Z.eqb_eq. split; [intros H; exists (n / 2); pose proof (Z.div_mod n 2 ltac:(lia)); lia|]. intros (k & ->). rewrite Z.mul_comm. apply Z.mod_mul. lia. }
  intros s f sx sy H. destruct s as [|n|x y]; cbn [even_size asked_size] in *.
  - destruct H as (_ & -> & ->). split; [intros _; split; exists 30; reflexivity|reflexivity].
  - destruct H as [-> ->]. rewrite M. tauto.
  - destruct H as [-> ->]. rewrite andb_true_iff, !M. reflexivity.
Qed.
Lemma nonneg_size : forall s (f : frame) sx sy, nonneg s -> asked_size s f sx sy -> 0 <= sx /\ 0 <= sy.
Proof. intros [|n|x y] f sx sy N H; cbn in *; destruct H as [H1 H2]; [destruct H2|..]; lia. Qed.

Lemma all_first : forall s c (f : frame) r sx sy out c', Forall wf (f :: r) -> nonneg s -> asked_size s f sx sy -> Z.Even sx -> Z.Even sy ->
  (crop_all s c (f :: r) = Ok (out, c') <-> exists rx ry x y, asked_centre c f rx ry /\ (x == inject_Z rx + (1 # 2))%Q /\ (y == inject_Z ry + (1 # 2))%Q /\ settle_centre V E D c f = Ok ((x, y), match c with CeInt _ => CeFloat x | _ => CePair x y end)
     /\ Forall2 (framed sx sy rx ry) (f :: r) out /\ c' = match c, r with CeInt _, [] => CeFloat x | CeInt _, _ => CePair x x | _, _ => CePair x y end).
Proof.
  intros s c f r sx sy out c' W N S EX EY. inversion W as [|? ? Wf W']; subst. destruct (nonneg_size s f sx sy N S) as [PX PY].
  assert (REST : forall rx ry x y, asked_centre c f rx ry -> (x == inject_Z rx + (1 # 2))%Q -> (y == inject_Z ry + (1 # 2))%Q ->
    forall out c', crop_all (SzPair sx sy) (match c with CeInt _ => CeFloat x | _ => CePair x y end) r = Ok (out, c') <->
     Forall2 (framed sx sy rx ry) r out /\ c' = match c, r with CeInt _, [] => CeFloat x | CeInt _, _ => CePair x x | _, _ => CePair x y end).
  { intros rx ry x y A CX CY o k. destruct c as [|z|q|a b]; try (apply (all_pair sx sy rx ry x y r (o, k) W' PX PY EX EY CX CY)).
    assert (RR : ry = rx) by (destruct A as (u & v & U & Vv & -> & ->); exact (corner_fun _ _ _ Vv U)). subst ry.
    destruct r as [|f' r'].
    - cbn [crop_all]. split; [intros H; injection H as <- <-; split; [constructor|reflexivity]|]. intros [F ->]. inversion F. reflexivity.
    - rewrite <- (all_pair sx sy rx rx x x (f' :: r') (o, k) W' PX PY EX EY CX CX). cbn [crop_all settle_centre settle_size bind fst snd]. reflexivity. }
  cbn [crop_all]. rewrite (proj2 (asked_size_iff s f sx sy) S). cbn [bind fst snd]. split.
  - intros H. destruct (settle_centre V E D c f) as [((x & y) & k)|] eqn:SC; cbn [bind] in H; [|discriminate H]. cbn [fst snd] in H.
    destruct (settled c f _ _ SC) as (rx & ry & A & CX & CY & K). cbn [fst snd] in CX, CY, K.
    assert (EK : k = match c with CeInt _ => CeFloat x | _ => CePair x y end) by (destruct K as [[(z & ->) ->]|[NZ ->]]; [reflexivity|destruct c; try reflexivity; destruct (NZ z eq_refl)]).
    destruct (crop_frame sx sy (x, y) f) as [g|] eqn:G; cbn [bind] in H; [|discriminate H]. destruct (crop_all _ _ r) as [(o & k')|] eqn:T; cbn [bind fst snd] in H; [|discriminate H]. injection H as <- <-.
    rewrite EK in T. apply (REST rx ry x y A CX CY) in T. destruct T as [T ->]. exists rx, ry, x, y. split; [exact A|]. split; [exact CX|]. split; [exact CY|]. split; [rewrite EK; reflexivity|]. split; [|reflexivity].
    constructor; [|exact T]. apply (frame_iff sx sy rx ry (x, y) f g Wf PX PY EX EY CX CY). exact G.
  - intros (rx & ry & x & y & A & CX & CY & SC & F & ->). rewrite SC. cbn [bind fst snd]. inversion F as [|? g ? o G F']; subst.
    apply (frame_iff sx sy rx ry (x, y) f g Wf PX PY EX EY CX CY) in G. rewrite G. cbn [bind].
    rewrite (proj2 (REST rx ry x y A CX CY o _) (conj F' eq_refl)). reflexivity.
Qed.

Theorem crop_iff : forall s c (fs out : list frame), Forall wf fs -> nonneg s -> (crop s c fs = Ok out <-> cropped s c fs out).
Proof.
  intros s c fs out W N. unfold crop, cropped. destruct fs as [|f r].
  { split.
    - destruct (even_size s); [|discriminate]. cbn [crop_all bind fst]. discriminate.
    - intros (f & r & sx & sy & rx & ry & H & _). discriminate H. }
  split.
  - destruct (even_size s) eqn:ES; [|discriminate]. intros H. destruct (crop_all s c (f :: r)) as [(o & c')|] eqn:CA; cbn [bind fst snd] in H; [|discriminate H].
    destruct (settle_size V E D s f) as [(sx & sy)|] eqn:SS; [|cbn [crop_all] in CA; rewrite SS in CA; discriminate CA].
    apply asked_size_iff in SS. destruct (proj1 (even_size_spec s f sx sy SS) ES) as [EX EY].
    apply (all_first s c f r sx sy o c' W N SS EX EY) in CA. destruct CA as (rx & ry & x & y & A & CX & CY & SC & F & EC).
    exists f, r, sx, sy, rx, ry. split; [reflexivity|]. split; [exact SS|]. split; [exact EX|]. split; [exact EY|]. split; [exact A|].
    inversion F as [|? g ? o' G F']; subst. cbn [fst] in H. split.
    + intros z -> ->. cbn in H. discriminate H.
    + destruct c; [..|]; try (injection H as <-; exact F). destruct r; [discriminate H|injection H as <-; exact F].
  - intros (f0 & r0 & sx & sy & rx & ry & E0 & SS & EX & EY & A & NI & F). injection E0 as <- <-.
    rewrite (proj2 (even_size_spec s f sx sy SS) (conj EX EY)).
    destruct (settle_total c f rx ry A) as (p & k & SC). destruct (settled c f p k SC) as (rx' & ry' & A' & CX & CY & K). destruct (asked_fun c f _ _ _ _ A A') as [<- <-].
    destruct p as (x & y). cbn [fst snd] in *.
    assert (EK : k = match c with CeInt _ => CeFloat x | _ => CePair x y end) by (destruct K as [[(z & ->) ->]|[NZ ->]]; [reflexivity|destruct c; try reflexivity; destruct (NZ z eq_refl)]).
    rewrite (proj2 (all_first s c f r sx sy out (match c, r with CeInt _, [] => CeFloat x | CeInt _, _ => CePair x x | _, _ => CePair x y end) W N SS EX EY)); [|exists rx, ry, x, y; split; [exact A|]; split; [exact CX|]; split; [exact CY|]; split; [rewrite <- EK; exact SC|]; split; [exact F|reflexivity]].
    cbn [bind fst snd]. inversion F as [|? g ? o G F']; subst out. destruct c as [|z|q|a b]; try reflexivity. destruct r; [destruct (NI z eq_refl eq_refl)|reflexivity].
Qed.
End Frames.

(** ** Facts *)
Section Facts.
Variables V E D : Type.
Notation frame := (cframe V E D).

Lemma crop_sky : forall s c (fs out : list frame) k f g, Forall wf fs -> nonneg s -> crop s c fs = Ok out -> nth_error fs k = Some f -> nth_error out k = Some g ->
  forall x y dx dy, h_starx (c_hdr f) = Some x -> h_stary (c_hdr f) = Some y -> h_det0x (c_hdr f) = Some dx -> h_det0y (c_hdr f) = Some dy ->
  exists x' y' dx' dy', h_starx (c_hdr g) = Some x' /\ h_stary (c_hdr g) = Some y' /\ h_det0x (c_hdr g) = Some dx' /\ h_det0y (c_hdr g) = Some dy'
    /\ (x' + dx' == x + dx)%Q /\ (y' + dy' == y + dy)%Q.
Proof.
  intros s c fs out k f g W N H Hf Hg x y dx dy X Y DX DY. apply (crop_iff V E D s c fs out W N) in H. destruct H as (f0 & r & sx & sy & rx & ry & _ & _ & _ & _ & _ & _ & F).
  assert (G : framed sx sy rx ry f g).
  { clear - F Hf Hg. revert k Hf Hg. induction F as [|a b l m Hab _ IH]; intros [|k] Hf Hg; cbn in Hf, Hg; try discriminate; [injection Hf as <-; injection Hg as <-; exact Hab|exact (IH k Hf Hg)]. }
  destruct G as (_ & _ & _ & _ & _ & _ & _ & _ & _ & _ & _ & S & _ & O & _).
  destruct S as [(S & _)|(p & q & S1 & S2 & S3 & S4)]; [congruence|]. destruct O as [(O & _)|(p' & q' & O1 & O2 & O3 & O4)]; [congruence|].
  rewrite X in S1. rewrite Y in S2. rewrite DX in O1. rewrite DY in O2. injection S1 as <-. injection S2 as <-. injection O1 as <-. injection O2 as <-.
  do 4 eexists. split; [exact S3|]. split; [exact S4|]. split; [exact O3|]. split; [exact O4|]. split; ring.
Qed.
Lemma crop_one_int : forall s z (f : frame), crop s (CeInt z) [f] = Raise TypeError \/ exists e, crop s (CeInt z) [f] = Raise e.
Proof.
  intros s z f. unfold crop. destruct (even_size s); [|right; eexists; reflexivity]. cbn [crop_all]. destruct (settle_size V E D s f); cbn [bind]; [|right; eexists; reflexivity].
  cbn [settle_centre bind]. destruct (crop_frame _ _ _ f); cbn [bind fst snd]; [left; reflexivity|right; eexists; reflexivity].
Qed.

Lemma crop_odd : forall c (fs : list frame), (forall n, ~ Z.Even n -> crop (SzInt n) c fs = Raise PyException) /\ (forall x y, ~ (Z.Even x /\ Z.Even y) -> crop (SzPair x y) c fs = Raise PyException).
Proof.
  intros c fs. assert (M : forall n, (n mod 2 =? 0) = true -> Z.Even n).
  { intros n H. apply Z.eqb_eq in H. exists (n / 2). pose proof (Z.div_mod n 2 ltac:(lia)). lia. }
  unfold crop. split.
  - intros n H. cbn [even_size]. destruct (n mod 2 =? 0) eqn:X; [destruct (H (M n X))|reflexivity].
  - intros x y H. cbn [even_size]. destruct ((x mod 2 =? 0) && (y mod 2 =? 0)) eqn:X; [|reflexivity]. apply andb_true_iff in X. destruct (H (conj (M _ (proj1 X)) (M _ (proj2 X)))).
Qed.
Lemma frame_outside : forall sx sy rx ry c (f : frame), Z.Even sx -> Z.Even sy -> (fst c == inject_Z rx + (1 # 2))%Q -> (snd c == inject_Z ry + (1 # 2))%Q ->
  outside sx sy rx ry f -> crop_frame sx sy c f = Raise ValueError.
Proof.
  intros sx sy rx ry c f EX EY CX CY O. unfold crop_frame, outside in *. cbv zeta in O |- *.
  rewrite (first_pixel _ _ _ EX CX), (last_pixel _ _ _ EX CX), (first_pixel _ _ _ EY CY), (last_pixel _ _ _ EY CY).
  replace (_ || _ || _ || _) with true; [reflexivity|]. symmetry. rewrite !orb_true_iff, !Z.ltb_lt. tauto.
Qed.
Lemma all_outside : forall sx sy rx ry x y (pre : list frame) f post out, Forall wf pre -> 0 <= sx -> 0 <= sy -> Z.Even sx -> Z.Even sy ->
  (x == inject_Z rx + (1 # 2))%Q -> (y == inject_Z ry + (1 # 2))%Q -> Forall2 (framed sx sy rx ry) pre out -> outside sx sy rx ry f ->
  crop_all (SzPair sx sy) (CePair x y) (pre ++ f :: post) = Raise ValueError.
Proof.
  intros sx sy rx ry x y pre f post out W SX SY EX EY CX CY F O. revert W. induction F as [|a b l m Hab _ IH]; intros W.
  - cbn [app crop_all settle_size settle_centre bind fst snd]. rewrite (snap_idem x y rx ry CX CY). cbn [fst snd bind]. rewrite (frame_outside sx sy rx ry (x, y) f EX EY CX CY O). reflexivity.
  - inversion W as [|? ? Wa W']; subst. cbn [app crop_all settle_size settle_centre bind fst snd]. rewrite (snap_idem x y rx ry CX CY). cbn [fst snd bind].
    rewrite (proj2 (frame_iff V E D sx sy rx ry (x, y) a b Wa SX SY EX EY CX CY) Hab). cbn [bind]. rewrite (IH W'). reflexivity.
Qed.
Lemma crop_outside : forall s c (pre post : list frame) f sx sy rx ry out, Forall wf pre -> nonneg s ->
  asked_size s (hd f pre) sx sy -> Z.Even sx -> Z.Even sy -> asked_centre c (hd f pre) rx ry -> Forall2 (framed sx sy rx ry) pre out -> outside sx sy rx ry f ->
  crop s c (pre ++ f :: post) = Raise ValueError.
Proof.
  intros s c pre post f sx sy rx ry out W N SS EX EY A F O. unfold crop. rewrite (proj2 (even_size_spec V E D s _ sx sy SS) (conj EX EY)).
  destruct (nonneg_size V E D s _ sx sy N SS) as [PX PY].
  destruct (settle_total V E D c _ rx ry A) as (p & k & SC). destruct (settled V E D c _ p k SC) as (rx' & ry' & A' & CX & CY & K). destruct (asked_fun V E D c _ _ _ _ _ A A') as [<- <-].
  destruct p as (x & y). cbn [fst snd] in *. destruct F as [|a b l m Hab F]; cbn [hd] in *.
  - cbn [app crop_all]. rewrite (proj2 (asked_size_iff V E D s f sx sy) SS). cbn [bind fst snd]. rewrite SC. cbn [bind fst snd]. rewrite (frame_outside sx sy rx ry (x, y) f EX EY CX CY O). reflexivity.
  - inversion W as [|? ? Wa W']; subst. cbn [app crop_all]. rewrite (proj2 (asked_size_iff V E D s a sx sy) SS). cbn [bind fst snd]. rewrite SC. cbn [bind fst snd].
    rewrite (proj2 (frame_iff V E D sx sy rx ry (x, y) a b Wa PX PY EX EY CX CY) Hab). cbn [bind].
    assert (R : crop_all (SzPair sx sy) k (l ++ f :: post) = Raise ValueError); [|rewrite R; reflexivity].
    destruct K as [[(z & ->) ->]|[_ ->]].
    + assert (RR : ry = rx) by (destruct A as (u & v & U & Vv & -> & ->); exact (corner_fun _ _ _ Vv U)). subst ry.
      rewrite <- (all_outside sx sy rx rx x x l f post m W' PX PY EX EY CX CX F O). destruct l; reflexivity.
    + exact (all_outside sx sy rx ry x y l f post m W' PX PY EX EY CX CY F O).
Qed.
End Facts.
