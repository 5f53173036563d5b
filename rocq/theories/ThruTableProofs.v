(** Proofs for the throughput of the PSF subtraction: the background, the cutouts and the table. *)
From Coq Require Import List Arith Bool Reals ZArith String Sorted Permutation Lia Lra FunctionalExtensionality.
From Verif Require Import Base DqModel AngleModel NearModel NearProofs CombineModel CombineSpec CombineProofs ComboSpec ComboProofs FindModel FlatModel FlatSpec FlatProofs FluxRunProofs ThruModel ThruSpec ThruProofs.
Import ListNotations.
Local Open Scope R_scope.

(** ** The background *)
Lemma median_one : forall l a b, median_of l a -> median_of l b -> a = b.
Proof.
  intros l [a|] [b|] A B; cbn [median_of] in *; [f_equal; exact (is_median_unique _ _ _ A B)| | |reflexivity]; exfalso.
  - rewrite B in A. destruct A as (s & _ & _ & [(k & x & y & L & _)|(k & L & _)]); cbn in L; lia.
  - rewrite A in B. destruct B as (s & _ & _ & [(k & x & y & L & _)|(k & L & _)]); cbn in L; lia.
Qed.
Lemma median_nan : forall l v, median_of l v <-> v = nanmedian l.
Proof. intros l v. split; [intro H; exact (median_one _ _ _ H (nanmedian_of l))|intros ->; apply nanmedian_of]. Qed.
Lemma spread_iff : forall l v, spread_of l v <-> v = nanstd l.
Proof. intros l v. split; [intro H; exact (spread_unique _ _ _ H (spread_value l))|intros ->; apply spread_value]. Qed.
Lemma option_ext : forall (a b : val), (forall y, a = Some y <-> b = Some y) -> a = b.
Proof. intros [a|] [b|] H; [apply H; reflexivity|symmetry; apply (H a); reflexivity|apply (H b); reflexivity|reflexivity]. Qed.
Lemma clipped_iff : forall l m, clipped l m <-> m = clip l.
Proof.
  intros l m. unfold clipped, clip. pose proof (spread_value l) as S. pose proof (nanmedian_of l) as M. destruct (nanstd l) as [s|] eqn:ES; cbn [spread_of] in S.
  - assert (NE : somes l <> []) by (destruct S as (_ & x & (N & _) & _); exact N). destruct (nanmedian l) as [x|] eqn:EM; cbn [median_of] in M; [|congruence]. split.
    + intros [(E & _)|(s' & x' & S' & M' & H)]; [congruence|]. apply spread_iff in S'. rewrite ES in S'. injection S' as ->. pose proof (is_median_unique _ _ _ M M') as <-. revert H. apply f2_map. intros a b. split.
      * intros H. apply option_ext. intro y. rewrite H. destruct a as [a|]; [|split; [intros (E & _)|intro E]; discriminate E]. destruct (Rlt_dec (3 * s) (Rabs (a - x))) as [L|L]; split; intro E; [destruct E as (E & B); injection E as ->; lra|discriminate E|destruct E as (E & _); exact E|]. injection E as ->. split; [reflexivity|lra].
      * intros ->. intro y. destruct a as [a|]; [|split; [intro E|intros (E & _)]; discriminate E]. destruct (Rlt_dec (3 * s) (Rabs (a - x))) as [L|L]; split; intro E; [discriminate E|destruct E as (E & B); injection E as ->; lra| |destruct E as (E & _); exact E]. injection E as ->. split; [reflexivity|lra].
    + intros ->. right. exists s, x. split; [exact S|]. split; [exact M|]. apply (f2_map _ _ _ (fun v => match v with Some z => if Rlt_dec (3 * s) (Rabs (z - x)) then None else Some z | None => None end)); [|reflexivity]. intros a b. split.
      * intros H. apply option_ext. intro y. rewrite H. destruct a as [a|]; [|split; [intros (E & _)|intro E]; discriminate E]. destruct (Rlt_dec (3 * s) (Rabs (a - x))) as [L|L]; split; intro E; [destruct E as (E & B); injection E as ->; lra|discriminate E|destruct E as (E & _); exact E|]. injection E as ->. split; [reflexivity|lra].
      * intros ->. intro y. destruct a as [a|]; [|split; [intro E|intros (E & _)]; discriminate E]. destruct (Rlt_dec (3 * s) (Rabs (a - x))) as [L|L]; split; intro E; [discriminate E|destruct E as (E & B); injection E as ->; lra| |destruct E as (E & _); exact E]. injection E as ->. split; [reflexivity|lra].
  - split; [intros [(_ & E)|(s' & x' & S' & _)]; [exact E|]|intros ->; left; split; [exact S|reflexivity]]. apply spread_iff in S'. congruence.
Qed.
Lemma iter_out : forall n (l : list val), clip (Nat.iter n clip l) = Nat.iter n clip (clip l).
Proof. induction n as [|n IH]; intros l; [reflexivity|]. cbn [Nat.iter nat_rect]. f_equal. exact (IH l). Qed.
Lemma rounds_iff : forall n l m, rounds n l m <-> m = Nat.iter n clip l.
Proof.
  induction n as [|n IH]; intros l m; split; intro H.
  - inversion H. reflexivity.
  - subst m. constructor.
  - inversion H as [|? ? m1 ? C0 R0]; subst. apply clipped_iff in C0. apply IH in R0. subst. change (Nat.iter (S n) clip l) with (clip (Nat.iter n clip l)). symmetry. apply iter_out.
  - subst m. change (Nat.iter (S n) clip l) with (clip (Nat.iter n clip l)). rewrite iter_out. econstructor; [apply clipped_iff; reflexivity|apply IH; reflexivity].
Qed.
Lemma level_iff : forall f b, level_of f b <-> b = background f.
Proof.
  intros f b. unfold level_of, background. split.
  - intros (l & R0 & M). apply rounds_iff in R0. apply median_nan in M. subst. reflexivity.
  - intros ->. exists (Nat.iter 5 clip (values f)). split; [apply rounds_iff; reflexivity|apply nanmedian_of].
Qed.

(** ** The cutouts *)
Lemma whole_iff : forall x z, whole x z <-> z = trunc x.
Proof.
  intros x z. unfold whole, trunc. destruct (Rlt_dec x 0) as [L|L].
  - pose proof (base_Int_part (- x)) as (A & B). set (k := Int_part (- x)) in *. split.
    + intros (_ & H). specialize (H L). assert (P : IZR (z - 1) < IZR (- k + 1)) by (rewrite minus_IZR, plus_IZR, opp_IZR; lra). assert (P' : IZR (- k - 1) < IZR z) by (rewrite minus_IZR, opp_IZR; lra). apply lt_IZR in P, P'. assert (D : (z = - k \/ z = - k + 1)%Z) by lia. destruct D as [D|D]; [exact D|]. exfalso. subst z. rewrite plus_IZR, opp_IZR in H. lra.
    + intros ->. split; [lra|]. intros _. rewrite opp_IZR. lra.
  - pose proof (base_Int_part x) as (A & B). set (k := Int_part x) in *. split.
    + intros (H & _). assert (H0 : 0 <= x) by lra. specialize (H H0). assert (P : IZR z < IZR (k + 1)) by (rewrite plus_IZR; lra). assert (P' : IZR k < IZR (z + 1)) by (rewrite plus_IZR; lra). apply lt_IZR in P, P'. lia.
    + intros ->. split; [|lra]. intros _. lra.
Qed.
Lemma img_ext : forall f g, rows f = rows g -> cols f = cols g -> (forall r c, pix f r c = pix g r c) -> f = g.
Proof. intros [a b p] [a' b' p'] A B P. cbn [rows cols pix] in *. subst. f_equal. extensionality r. extensionality c. apply P. Qed.
Lemma padded_iff : forall m f, padded m = Ok f <-> framed m f.
Proof.
  intros m f. unfold padded, framed. destruct (Nat.eqb_spec (rows m) (cols m)) as [E|E]; [|split; [discriminate|intros (A & _); congruence]]. set (n := rows m) in *. assert (NN : (n / 2 <= n)%nat) by (apply Nat.div_le_upper_bound; lia).
  assert (V : forall r c, (if (Nat.leb (n - n / 2) r && Nat.ltb r (n - n / 2 + n) && Nat.leb (n - n / 2) c && Nat.ltb c (n - n / 2 + n))%bool then pix m (r - (n - n / 2)) (c - (n - n / 2)) else Some 0) = if Nat.ltb r (n - n / 2) then Some 0 else if Nat.leb (2 * n - n / 2) r then Some 0 else if Nat.ltb c (n - n / 2) then Some 0 else if Nat.leb (2 * n - n / 2) c then Some 0 else pix m (r - (n - n / 2)) (c - (n - n / 2))).
  { intros r c. destruct (Nat.leb_spec (n - n / 2) r); destruct (Nat.ltb_spec r (n - n / 2 + n)); destruct (Nat.leb_spec (n - n / 2) c); destruct (Nat.ltb_spec c (n - n / 2 + n)); destruct (Nat.ltb_spec r (n - n / 2)); destruct (Nat.leb_spec (2 * n - n / 2) r); destruct (Nat.ltb_spec c (n - n / 2)); destruct (Nat.leb_spec (2 * n - n / 2) c); try lia; reflexivity. }
  split.
  - intro H. injection H as <-. cbn [rows cols pix]. repeat split; [congruence|]. exact V.
  - intros (_ & A & B & P). f_equal. symmetry. apply img_ext; cbn [rows cols pix]; [exact A|exact B|]. intros r c. rewrite P, <- V. reflexivity.
Qed.
Lemma half : forall n, (Z.of_nat (2 * n + 1) / 2 = Z.of_nat n)%Z.
Proof. intro n. symmetry. apply (Z.div_unique _ _ _ 1); [left; lia|rewrite Nat2Z.inj_add, Nat2Z.inj_mul; ring]. Qed.
Lemma bound_in : forall n k, (0 <= k <= Z.of_nat n)%Z -> bound n k = Z.to_nat k.
Proof. intros n k H. unfold bound. destruct (Z.ltb_spec k 0); lia. Qed.
Lemma bound_big : forall n k, (Z.of_nat n <= k)%Z -> bound n k = n.
Proof. intros n k H. unfold bound. destruct (Z.ltb_spec k 0); lia. Qed.
Lemma bound_neg : forall n k, (k < 0)%Z -> bound n k = Z.to_nat (k + Z.of_nat n).
Proof. intros n k H. unfold bound. destruct (Z.ltb_spec k 0); lia. Qed.
(** Windows that overlap with the axis or touch it *)
Lemma slices_near : forall n N c, (c - Z.of_nat n <= Z.of_nat N)%Z -> (0 <= c + Z.of_nat n + 1)%Z ->
  slices (2 * n + 1) N c = ((Z.to_nat (Z.of_nat n - c), Z.to_nat (Z.min (2 * Z.of_nat n + 1) (Z.of_nat N - c + Z.of_nat n))), (Z.to_nat (c - Z.of_nat n), Z.to_nat (Z.min (Z.of_nat N) (c + Z.of_nat n + 1)))).
Proof.
  intros n N c H1 H2. unfold slices, span. rewrite half. destruct (Z.ltb_spec (c - Z.of_nat n) 0) as [A|A]; destruct (Z.leb_spec (Z.of_nat N) (c - Z.of_nat n + Z.of_nat (2 * n + 1))) as [B|B]; cbn [fst snd]; rewrite !bound_in by lia; f_equal; f_equal; lia.
Qed.
Lemma slices_right : forall n N c, (Z.of_nat N < c - Z.of_nat n)%Z -> slices (2 * n + 1) N c = ((O, Z.to_nat (Z.of_nat N - c + 3 * Z.of_nat n + 1)), (N, N)).
Proof.
  intros n N c H. unfold slices, span. rewrite half. destruct (Z.ltb_spec (c - Z.of_nat n) 0) as [A|A]; [lia|]. destruct (Z.leb_spec (Z.of_nat N) (c - Z.of_nat n + Z.of_nat (2 * n + 1))) as [B|B]; [|lia]. cbn [fst snd]. rewrite (bound_in (2 * n + 1) 0) by lia. rewrite !(bound_big N) by lia. rewrite bound_neg by lia. f_equal. f_equal. f_equal. lia.
Qed.
Lemma slices_left : forall n N c, (c + Z.of_nat n + 1 < 0)%Z -> slices (2 * n + 1) N c = ((2 * n + 1, 2 * n + 1)%nat, (O, Z.to_nat (c + Z.of_nat n + 1 + Z.of_nat N))).
Proof.
  intros n N c H. unfold slices, span. rewrite half. destruct (Z.ltb_spec (c - Z.of_nat n) 0) as [A|A]; [|lia]. destruct (Z.leb_spec (Z.of_nat N) (c - Z.of_nat n + Z.of_nat (2 * n + 1))) as [B|B]; [lia|]. cbn [fst snd]. rewrite !(bound_big (2 * n + 1)) by lia. rewrite (bound_in N 0) by lia. rewrite bound_neg by lia. f_equal. f_equal. f_equal. lia.
Qed.
Lemma takes_iff : forall n N c, assignable (slices (2 * n + 1) N c) = true <-> takes n N c.
Proof.
  intros n N c. unfold assignable, takes. cbv zeta. rewrite orb_true_iff, !Nat.eqb_eq. destruct (Z_le_gt_dec (c - Z.of_nat n) (Z.of_nat N)) as [A|A].
  - destruct (Z_le_gt_dec 0 (c + Z.of_nat n + 1)) as [B|B].
    + rewrite slices_near by assumption. cbn [fst snd]. split; [left; lia|]. intros _. left. lia.
    + rewrite slices_left by lia. cbn [fst snd]. lia.
  - rewrite slices_right by lia. cbn [fst snd]. lia.
Qed.
Lemma source_iff : forall n N c r, takes n N c -> source (slices (2 * n + 1) N c) r =
  (let y := (c - Z.of_nat n + Z.of_nat r)%Z in if (Nat.ltb r (2 * n + 1) && (0 <=? y)%Z && (y <? Z.of_nat N)%Z)%bool then Some (Z.to_nat y) else None).
Proof.
  intros n N c r T. unfold takes in T. cbv zeta in T |- *. unfold source. destruct (Z_le_gt_dec (c - Z.of_nat n) (Z.of_nat N)) as [A|A].
  - destruct (Z_le_gt_dec 0 (c + Z.of_nat n + 1)) as [B|B].
    + rewrite slices_near by assumption. cbn [fst snd]. clear T.
      destruct (Nat.leb_spec (Z.to_nat (Z.of_nat n - c)) r) as [P|P]; cbn [andb]; [|destruct (Z.leb_spec 0 (c - Z.of_nat n + Z.of_nat r)); [lia|]; rewrite andb_false_r; reflexivity].
      destruct (Z.leb_spec 0 (c - Z.of_nat n + Z.of_nat r)) as [P0|P0]; [|lia].
      destruct (Nat.ltb_spec r (Z.to_nat (Z.min (2 * Z.of_nat n + 1) (Z.of_nat N - c + Z.of_nat n)))) as [U|U].
      * destruct (Nat.ltb_spec r (2 * n + 1)) as [V|V]; [|lia]. destruct (Z.ltb_spec (c - Z.of_nat n + Z.of_nat r) (Z.of_nat N)) as [W|W]; [|lia]. cbn [andb]. f_equal. destruct (Nat.eqb_spec (Z.to_nat (Z.min (Z.of_nat N) (c + Z.of_nat n + 1)) - Z.to_nat (c - Z.of_nat n)) 1); lia.
      * destruct (Nat.ltb_spec r (2 * n + 1)) as [V|V]; [|reflexivity]. destruct (Z.ltb_spec (c - Z.of_nat n + Z.of_nat r) (Z.of_nat N)) as [W|W]; [lia|reflexivity].
    + rewrite slices_left by lia. cbn [fst snd]. destruct (Nat.leb_spec (2 * n + 1) r) as [P|P]; destruct (Nat.ltb_spec r (2 * n + 1)) as [P'|P']; try lia; cbn [andb]; [reflexivity|]. destruct (Z.leb_spec 0 (c - Z.of_nat n + Z.of_nat r)); [lia|reflexivity].
  - rewrite slices_right by lia. cbn [fst snd]. destruct (Z.ltb_spec (c - Z.of_nat n + Z.of_nat r) (Z.of_nat N)) as [W|W]; [lia|]. rewrite andb_false_r. destruct (Nat.ltb_spec r (Z.to_nat (Z.of_nat N - c + 3 * Z.of_nat n + 1))) as [P|P]; [lia|]. rewrite andb_false_r. reflexivity.
Qed.
Lemma covered_iff : forall n N c r, (Nat.ltb r (2 * n + 1) && (0 <=? c - Z.of_nat n + Z.of_nat r)%Z && (c - Z.of_nat n + Z.of_nat r <? Z.of_nat N)%Z)%bool = true <-> (r < 2 * n + 1)%nat /\ (0 <= c - Z.of_nat n + Z.of_nat r < Z.of_nat N)%Z.
Proof. intros n N c r. rewrite !andb_true_iff, Nat.ltb_lt, Z.leb_le, Z.ltb_lt. tauto. Qed.
Lemma cutout_iff : forall n d cy cx f, cutout d ((2 * n + 1)%nat, (2 * n + 1)%nat) cy cx = Ok f <->
  takes n (rows d) cy /\ takes n (cols d) cx /\ surroundings n d cy cx f.
Proof.
  intros n d cy cx f. unfold cutout. cbn [fst snd]. pose proof (takes_iff n (rows d) cy) as TY. pose proof (takes_iff n (cols d) cx) as TX.
  destruct (assignable (slices (2 * n + 1) (rows d) cy)) eqn:EY; cbn [andb]; [|split; [discriminate|intros (H & _); apply TY in H; discriminate H]].
  destruct (assignable (slices (2 * n + 1) (cols d) cx)) eqn:EX; cbn [andb]; [|split; [discriminate|intros (_ & H & _); apply TX in H; discriminate H]].
  apply proj1 in TY, TX. specialize (TY eq_refl). specialize (TX eq_refl).
  set (G := fun r c => match source (slices (2 * n + 1) (rows d) cy) r, source (slices (2 * n + 1) (cols d) cx) c with Some y, Some x => pix d y x | _, _ => None end).
  assert (V : forall r c, let y := (cy - Z.of_nat n + Z.of_nat r)%Z in let x := (cx - Z.of_nat n + Z.of_nat c)%Z in
    let covered := (r < 2 * n + 1 /\ c < 2 * n + 1)%nat /\ (0 <= y < Z.of_nat (rows d))%Z /\ (0 <= x < Z.of_nat (cols d))%Z in
    (covered -> G r c = pix d (Z.to_nat y) (Z.to_nat x)) /\ (~ covered -> G r c = None)).
  { intros r c. cbv zeta. unfold G. rewrite !source_iff by assumption. cbv zeta. pose proof (covered_iff n (rows d) cy r) as A. pose proof (covered_iff n (cols d) cx c) as B. destruct (_ && _ && (cy - _ + _ <? _)%Z)%bool eqn:E1; destruct (_ && _ && (cx - _ + _ <? _)%Z)%bool eqn:E2; split; intro H; try reflexivity; exfalso.
    - apply H. apply proj1 in A, B. specialize (A eq_refl). specialize (B eq_refl). tauto.
    - assert (false = true) by (apply B; tauto). discriminate.
    - assert (false = true) by (apply A; tauto). discriminate.
    - assert (false = true) by (apply A; tauto). discriminate. }
  split.
  - intro H. injection H as <-. split; [exact TY|]. split; [exact TX|]. unfold surroundings. cbn [rows cols pix]. split; [reflexivity|]. split; [reflexivity|]. exact V.
  - intros (_ & _ & A & B & P). f_equal. symmetry. apply img_ext; cbn [rows cols pix]; [exact A|exact B|]. intros r c. change (pix f r c = G r c). specialize (P r c). specialize (V r c). cbv zeta in P, V. destruct P as (P1 & P2). destruct V as (V1 & V2).
    assert (D : ((r < 2 * n + 1 /\ c < 2 * n + 1)%nat /\ (0 <= cy - Z.of_nat n + Z.of_nat r < Z.of_nat (rows d))%Z /\ (0 <= cx - Z.of_nat n + Z.of_nat c < Z.of_nat (cols d))%Z) \/ ~ ((r < 2 * n + 1 /\ c < 2 * n + 1)%nat /\ (0 <= cy - Z.of_nat n + Z.of_nat r < Z.of_nat (rows d))%Z /\ (0 <= cx - Z.of_nat n + Z.of_nat c < Z.of_nat (cols d))%Z)) by lia.
    destruct D as [D|D]; [rewrite P1, V1 by exact D; reflexivity|rewrite P2, V2 by exact D; reflexivity].
Qed.
Lemma counts_volume : forall q, counts q = volume q.
Proof.
  intros ([a|] & [w|]); cbn [counts volume]; try reflexivity. f_equal. field. pose proof ln_lt_2. lra.
Qed.
Section Fit.
Variable fit : img -> R * R -> R -> val -> val * val.
Lemma measure_iff : forall fwhm guess data cen p v, measure fit fwhm guess data cen p = Ok v <-> measured fit fwhm guess data cen p v.
Proof using.
  intros fwhm guess data cen p v. unfold measure, measured. split.
  - destruct (padded (p_model p)) as [big|e] eqn:EP; cbn [bind]; [|discriminate]. apply padded_iff in EP. pose proof EP as (SQ & RB & CB & _). rewrite RB, CB.
    destruct (cutout data _ _ _) as [cut|e] eqn:EC; cbn [bind]; [|discriminate]. apply cutout_iff in EC. destruct EC as (TY & TX & S). intro E. injection E as <-.
    assert (PE : (fst cen, snd cen) = cen) by (destruct cen; reflexivity). rewrite point_seppa, PE in *.
    exists big, cut, (trunc (snd (point_of cen (p_loc p)))), (trunc (fst (point_of cen (p_loc p)))). split; [exact EP|]. split; [apply whole_iff; reflexivity|]. split; [apply whole_iff; reflexivity|]. split; [exact TY|]. split; [exact TX|]. split; [exact S|]. cbv zeta. rewrite !counts_volume, SQ. reflexivity.
  - intros (big & cut & cy & cx & EP & WY & WX & TY & TX & S & ->). apply whole_iff in WY, WX. pose proof EP as (SQ & RB & CB & _). apply padded_iff in EP. rewrite EP. cbn [bind]. rewrite RB, CB. assert (PE : (fst cen, snd cen) = cen) by (destruct cen; reflexivity). rewrite point_seppa, PE, <- WY, <- WX.
    assert (EC : cutout data ((2 * rows (p_model p) + 1)%nat, (2 * rows (p_model p) + 1)%nat) cy cx = Ok cut) by (apply cutout_iff; tauto). rewrite EC. cbn [bind]. rewrite !counts_volume, SQ. reflexivity.
Qed.
End Fit.

(** ** The table *)
Lemma uinsert_in : forall x l y, In y (uinsert x l) <-> y = x \/ In y l.
Proof.
  intros x. induction l as [|z l IH]; intros y; cbn [uinsert In]; [intuition|]. destruct (Req_EM_T x z) as [->|N]; [cbn [In]; intuition|]. destruct (Rlt_dec x z); cbn [In]; [intuition|]. rewrite IH. intuition.
Qed.
Lemma unique_in : forall l y, In y (unique l) <-> In y l.
Proof. induction l as [|x l IH]; intros y; cbn [unique fold_right In]; [tauto|]. fold (unique l). rewrite uinsert_in, IH. intuition. Qed.
Lemma uinsert_sorted : forall x l, StronglySorted Rlt l -> StronglySorted Rlt (uinsert x l).
Proof.
  intros x. induction l as [|z l IH]; intros S; cbn [uinsert]; [repeat constructor|]. destruct (Req_EM_T x z) as [->|N]; [exact S|]. inversion S as [|? ? S' G]; subst. destruct (Rlt_dec x z) as [L|L].
  - constructor; [exact S|]. constructor; [exact L|]. apply Forall_forall. intros y I. rewrite Forall_forall in G. specialize (G y I). lra.
  - constructor; [apply IH, S'|]. apply Forall_forall. intros y I. apply uinsert_in in I. destruct I as [->|I]; [lra|]. rewrite Forall_forall in G. apply G, I.
Qed.
Lemma unique_sorted : forall l, StronglySorted Rlt (unique l).
Proof. induction l as [|x l IH]; cbn [unique fold_right]; [constructor|]. apply uinsert_sorted, IH. Qed.
Lemma sorted_nodup : forall l, StronglySorted Rlt l -> NoDup l.
Proof. induction l as [|x l IH]; intros S; constructor; inversion S as [|? ? S' G]; subst; [|apply IH, S']. intro I. rewrite Forall_forall in G. specialize (G x I). lra. Qed.
Lemma sorted_R_one : forall l m, StronglySorted Rlt l -> StronglySorted Rlt m -> (forall k, In k l <-> In k m) -> l = m.
Proof.
  induction l as [|x l IH]; intros [|y m] L M H; [reflexivity|exfalso; apply (proj2 (H y)); left; reflexivity|exfalso; apply (proj1 (H x)); left; reflexivity|]. inversion L as [|? ? L' GL]; inversion M as [|? ? M' GM]; subst. rewrite Forall_forall in GL, GM.
  assert (x = y). { pose proof (proj1 (H x) (or_introl eq_refl)) as [E|I]; [congruence|]. pose proof (proj2 (H y) (or_introl eq_refl)) as [E|J]; [congruence|]. specialize (GM x I). specialize (GL y J). lra. } subst y. f_equal. apply IH; [assumption|assumption|]. intro k. split; intro I.
  - pose proof (proj1 (H k) (or_intror I)) as [->|J]; [specialize (GL k I); lra|exact J].
  - pose proof (proj2 (H k) (or_intror I)) as [->|J]; [specialize (GM k I); lra|exact J].
Qed.
Lemma pick_all : forall A (t : list A) n row, mapR (fun i => pick t i) (seq 0 n) = Ok row <-> (n <= List.length t)%nat /\ row = firstn n t.
Proof.
  assert (G : forall A n (t : list A) k row, mapR (fun i => pick t i) (seq k n) = Ok row <-> (n = 0 \/ k + n <= List.length t)%nat /\ row = firstn n (skipn k t)).
  { induction n as [|n IH]; intros t k row; cbn [seq mapR firstn]; [split; [intro E; injection E as <-; split; [left; reflexivity|reflexivity]|intros (_ & ->); reflexivity]|]. destruct (pick t k) as [x|e] eqn:P; cbn [bind].
    - apply pick_iff in P. assert (K : (k < List.length t)%nat) by (apply nth_error_Some; congruence). assert (SK : skipn k t = x :: skipn (S k) t). { clear -P. revert k P. induction t as [|y t IH]; intros [|k] P; try discriminate P; [injection P as ->; reflexivity|]. cbn [skipn]. rewrite (IH k P). reflexivity. } rewrite SK.
      destruct (mapR _ (seq (S k) n)) as [r|e] eqn:M; cbn [bind].
      + apply IH in M. destruct M as (L & ->). split; [intro E; injection E as <-; split; [lia|reflexivity]|]. intros (_ & ->). reflexivity.
      + split; [discriminate|]. intros (L & _). exfalso. assert (M' : mapR (fun i => pick t i) (seq (S k) n) = Ok (firstn n (skipn (S k) t))) by (apply IH; split; [lia|reflexivity]). congruence.
    - split; [discriminate|]. intros (L & _). exfalso. unfold pick in P. destruct (nth_error t k) as [x|] eqn:N; [discriminate P|]. apply nth_error_None in N. lia. }
  intros A t n row. rewrite G. cbn [skipn]. split; intros (L & ->); (split; [lia|reflexivity]).
Qed.
Lemma somes_sep : forall sep (q : val * val -> val) (ms : list ((R * R) * (val * val))), somes (map (fun m => if Req_EM_T (fst (fst m)) sep then q (snd m) else None) ms) = somes (map (fun m => q (snd m)) (filter (fun m => ThruModel.reqb (fst (fst m)) sep) ms)).
Proof.
  intros sep q. induction ms as [|m ms IH]; [reflexivity|]. cbn [map filter]. unfold ThruModel.reqb at 1. destruct (Req_EM_T (fst (fst m)) sep); cbn [map somes]; [destruct (q (snd m)); [f_equal; exact IH|exact IH]|exact IH].
Qed.
Lemma nan_somes : forall l m, somes l = somes m -> nanmedian l = nanmedian m.
Proof. intros l m E. unfold nanmedian. rewrite E. reflexivity. Qed.
Lemma combine_map_r : forall A B D (g : B -> D) (l : list A) (m : list B), combine l (map g m) = map (fun q => (fst q, g (snd q))) (combine l m).
Proof. induction l as [|x l IH]; intros [|y m]; cbn; [reflexivity..|]. rewrite IH. reflexivity. Qed.
Lemma at_sep_eq : forall sep (q : val * val -> val) locs vs, at_sep sep locs (map q vs) = nanmedian (map (fun m => q (snd m)) (filter (fun m => ThruModel.reqb (fst (fst m)) sep) (combine locs vs))).
Proof. intros sep q locs vs. unfold at_sep. apply nan_somes. rewrite <- somes_sep. rewrite combine_map_r, map_map. reflexivity. Qed.
Lemma reqb_sep : forall sep (m : (R * R) * (val * val)), ThruModel.reqb (fst (fst m)) sep = true <-> fst (fst m) = sep.
Proof. intros sep m. unfold ThruModel.reqb. destruct (Req_EM_T (fst (fst m)) sep); split; congruence. Qed.
Lemma summary_iff : forall locs vs sep v, summary (combine locs vs) sep v <-> v = (at_sep sep locs (map fst vs), at_sep sep locs (map snd vs)).
Proof.
  intros locs vs sep (a & b). unfold summary. rewrite (at_sep_eq sep fst), (at_sep_eq sep snd). cbn [fst snd]. split.
  - intros (us & S & A & B). apply (sieve_filter _ _ _ (reqb_sep sep)) in S. subst us. apply median_nan in A, B. subst. reflexivity.
  - intros E. injection E as -> ->. exists (filter (fun m => ThruModel.reqb (fst (fst m)) sep) (combine locs vs)). split; [apply (sieve_filter _ _ _ (reqb_sep sep)); reflexivity|]. split; apply median_nan; reflexivity.
Qed.
Lemma combine_fst_in : forall A B (l : list A) (m : list B) x, List.length l = List.length m -> (In x l <-> exists y, In (x, y) (combine l m)).
Proof.
  induction l as [|a l IH]; intros [|b m] x L; cbn in *; try discriminate L; [split; [tauto|intros (y & [])]|]. injection L as L. rewrite (IH m x L). split.
  - intros [->|(y & I)]; [exists b; left; reflexivity|exists y; right; exact I].
  - intros (y & [E|I]); [left; congruence|right; exists y; exact I].
Qed.
Lemma table_iff : forall seps locs vs row, List.length locs = List.length vs -> (forall l, In l locs -> In (fst l) seps) ->
  mapR (fun i => pick (tabulate locs vs) i) (seq 0 (List.length seps)) = Ok row <-> row_of_mode seps (combine locs vs) row.
Proof.
  intros seps locs vs row L I. rewrite pick_all. unfold row_of_mode, tabulate. rewrite map_length. set (U := unique (map fst locs)). assert (UI : forall x, In x U <-> In x (map fst locs)) by (intro x; apply unique_in).
  assert (NU : NoDup U) by apply sorted_nodup, unique_sorted. assert (IU : incl U seps). { intros x X. apply UI in X. apply in_map_iff in X. destruct X as (l & <- & J). apply I, J. }
  assert (F2 : forall up row, Forall2 (summary (combine locs vs)) up row <-> row = map (fun sep => (at_sep sep locs (map fst vs), at_sep sep locs (map snd vs))) up) by (apply f2_map; intros; apply summary_iff). split.
  - intros (LE & ->). assert (ND : NoDup seps) by (exact (NoDup_incl_NoDup NU LE IU)). assert (IS : incl seps U) by (apply NoDup_length_incl; assumption). split; [exact ND|]. split.
    + intros s J. apply IS in J. apply UI, in_map_iff in J. destruct J as (l & E & J). apply (combine_fst_in _ _ locs vs l L) in J. destruct J as (y & J). exists (l, y). split; [exact J|exact E].
    + exists U. split; [apply unique_sorted|]. split; [apply NoDup_Permutation; [exact NU|exact ND|]; intro x; split; [apply IU|apply IS]|]. apply F2. apply firstn_all2. rewrite map_length. apply NoDup_incl_length; assumption.
  - intros (ND & C0 & up & S & P & H). apply F2 in H. subst row. assert (E : up = U).
    { apply sorted_R_one; [exact S|apply unique_sorted|]. intro x. split; intro J.
      - apply (Permutation_in _ P) in J. destruct (C0 x J) as ((l & y) & K & E). apply UI, in_map_iff. exists l. split; [exact E|]. apply (combine_fst_in _ _ locs vs l L). exists y. exact K.
      - apply (Permutation_in _ (Permutation_sym P)), IU, J. }
    subst up. apply Permutation_length in P. split; [lia|]. symmetry. apply firstn_all2. rewrite map_length. lia.
Qed.
