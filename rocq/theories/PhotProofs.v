(** Photometry of a star. *)
From Coq Require Import List Arith Bool Reals ZArith String Lia Lra.
From Verif Require Import Base CombineModel ComboSpec ComboProofs DqModel FlatModel FlatSpec FlatProofs NearModel NearSpec NearProofs CtModel CtSpec CtProofs CtLawProofs CompModel PhotModel PhotSpec.
Import ListNotations.
Local Open Scope R_scope.

(** ** The centre *)
Definition in_box (n : nat) (k : Z) (r : nat) (i : nat) : bool :=
  let lo := Z.max 0 (k - Z.of_nat r) in
  let hi := Z.min (Z.of_nat n) (k + Z.of_nat r + 1) in
  let hi := if (hi <? 0)%Z then Z.max 0 (Z.of_nat n + hi) else hi in
  Nat.leb (Z.to_nat lo) i && Nat.ltb i (Z.to_nat hi).
Lemma box_filter : forall n k r, box n k r = filter (in_box n k r) (seq 0 n).
Proof.
  intros n k r. unfold box, in_box. cbv zeta. rewrite filter_seq. f_equal. f_equal. destruct (Z.ltb_spec (Z.min (Z.of_nat n) (k + Z.of_nat r + 1)) 0); lia.
Qed.
Lemma in_box_iff : forall n k r i, (i < n)%nat -> (in_box n k r i = true <-> window n k r i).
Proof.
  intros n k r i I. unfold in_box, window. cbv zeta. rewrite andb_true_iff, Nat.leb_le, Nat.ltb_lt. destruct (Z.ltb_spec (Z.min (Z.of_nat n) (k + Z.of_nat r + 1)) 0); lia.
Qed.
Lemma sieve_inside : forall A (P : A -> Prop) (b : A -> bool) l m, (forall x, In x l -> (b x = true <-> P x)) -> (sieve P l m <-> m = filter b l).
Proof.
  intros A P b l. induction l as [|x l IH]; intros m H; [split; [intros S; inversion S; reflexivity|intros ->; constructor]|]. cbn [filter]. assert (H' : forall y, In y l -> (b y = true <-> P y)) by (intros; apply H; right; assumption). destruct (b x) eqn:B.
  - assert (PX : P x) by (apply H; [left; reflexivity|assumption]). split; [intros S; inversion S as [|? ? m' _ S'|? ? ? N]; subst; [|contradiction]; f_equal; apply IH; assumption|intros ->; constructor; [assumption|apply IH; auto]].
  - assert (NX : ~ P x) by (intros PX; apply H in PX; [congruence|left; reflexivity]). split; [intros S; inversion S as [|? ? m' PX|? ? ? N S']; subst; [contradiction|]; apply IH; assumption|intros ->; apply sieve_out; [assumption|apply IH; auto]].
Qed.
Lemma boxes_iff : forall f zx zy r ps, sieve (fun q => window (rows f) zy r (fst q) /\ window (cols f) zx r (snd q)) (places f) ps <-> ps = list_prod (box (rows f) zy r) (box (cols f) zx r).
Proof.
  intros f zx zy r ps. rewrite !box_filter, <- filter_pairs. apply sieve_inside. intros (i, j) I. apply in_prod_iff in I. rewrite !in_seq in I. cbn [fst snd]. rewrite andb_true_iff, !in_box_iff by lia. reflexivity.
Qed.
Lemma about_iff : forall f r gx gy x y, centroid_about f r gx gy = (x, y) <-> placed_about f r gx gy x y.
Proof.
  intros f r gx gy x y. unfold centroid_about, placed_about, moment. cbv zeta. set (ps := list_prod _ _). assert (S : forall qs, vsum (map (at_ f) qs) = vsum (map (fun q => prod (Some 1) (value_of f q)) qs)).
  { intros qs. f_equal. apply map_ext. intros q. unfold at_, value_of. destruct (pix f (fst q) (snd q)) as [v|]; cbn; [f_equal; ring|reflexivity]. }
  split.
  - intros H. do 6 eexists. split; [apply rint_rounds|]. split; [apply rint_rounds|]. split; [apply boxes_iff; reflexivity|]. do 3 (split; [apply total_iff; reflexivity|]). fold ps. rewrite <- S. destruct (is_zero _) eqn:Z.
    + apply is_zero_iff in Z. rewrite Z. split; [intros _; injection H as <- <-; auto|congruence].
    + split; [intros K; apply is_zero_iff in K; congruence|]. intros _. injection H as <- <-. split; reflexivity.
  - intros (zx & zy & qs & s & sx & sy & RX & RY & PS & ST & SX & SY & A & B). apply (rounds_fun _ _ _ (rint_rounds gx)) in RX. apply (rounds_fun _ _ _ (rint_rounds gy)) in RY. subst zx zy. apply boxes_iff in PS. fold ps in PS. subst qs. apply total_iff in ST, SX, SY. rewrite S, <- ST. destruct (is_zero s) eqn:Z.
    + apply is_zero_iff in Z. destruct (A Z) as (-> & ->). reflexivity.
    + destruct B as (-> & ->); [intros K; apply is_zero_iff in K; congruence|]. rewrite SX, SY. reflexivity.
Qed.
Lemma placed_iff : forall wcs_at s c roi g x y, centre wcs_at s c roi g = Ok (x, y) <-> placed wcs_at s c roi g x y.
Proof.
  intros wcs_at s c roi g x y. unfold centre, placed. destruct (String.eqb_spec c "wcs") as [->|N1].
  - split.
    + destruct (wcs_at s) as [(a, b)|] eqn:E; cbn [bind fst snd]; [|discriminate]. intros Q. injection Q as <- <-. left. split; [reflexivity|]. eauto.
    + intros [(_ & a & b & -> & -> & ->)|(Q & _)]; [reflexivity|discriminate].
  - destruct (String.eqb_spec c "xy") as [->|N2].
    + assert (NG : (forall gx gy, ~ guess_of g gx gy) -> centroid (t_data s) roi g = centroid_with_roi (t_data s) roi) by (intros N; unfold centroid; destruct g as [([gx|], [gy|])|]; try reflexivity; destruct (N gx gy eq_refl)). split.
      * intros E. right. split; [reflexivity|]. destruct g as [([gx|], [gy|])|]; cbn [centroid] in E; [left; exists gx, gy; split; [reflexivity|]; apply about_iff; congruence| | | |]; right; (split; [intros ? ? Q; discriminate|apply position_iff; assumption]).
      * intros [(Q & _)|(_ & [(gx & gy & -> & A)|(N & P)])]; [discriminate|cbn [centroid]; f_equal; apply about_iff; assumption|]. rewrite NG by assumption. apply position_iff. assumption.
    + split; [discriminate|]. intros [(Q & _)|(Q & _)]; contradiction.
Qed.
Lemma place_fails : forall wcs_at s c roi g e, centre wcs_at s c roi g = Raise e <-> place_refused wcs_at s c g e.
Proof.
  intros wcs_at s c roi g e. unfold centre, place_refused. destruct (String.eqb_spec c "wcs") as [->|N1].
  - destruct (wcs_at s) as [p|e']; cbn [bind]; [split; [discriminate|intros [(_ & Q)|[(Q & _)|(Q & _)]]; [discriminate|discriminate|destruct (Q eq_refl)]]|].
    split; [intros Q; left; split; [reflexivity|injection Q as ->; reflexivity]|intros [(_ & Q)|[(Q & _)|(Q & _)]]; [injection Q as ->; reflexivity|discriminate|destruct (Q eq_refl)]].
  - destruct (String.eqb_spec c "xy") as [->|N2].
    + assert (F : centroid_with_roi (t_data s) roi = Raise e <-> (forall p, inside_of (t_data s) p -> value_of (t_data s) p = None) /\ e = ValueError).
      { unfold centroid_with_roi. destruct (brightest (t_data s)) as [p|e'] eqn:B; cbn [bind].
        - split; [cbv zeta; destruct (is_zero _); discriminate|]. intros (N & ->). assert (Q : brightest (t_data s) = Raise ValueError) by (apply brightest_fails; auto). congruence.
        - apply brightest_fails in B. destruct B as (-> & N). split; [intros Q; injection Q as <-; auto|intros (_ & ->); reflexivity]. }
      split.
      * intros E. right. left. split; [reflexivity|]. destruct g as [([gx|], [gy|])|]; cbn [centroid] in E; [discriminate| | | |]; (split; [intros ? ? Q; discriminate|apply F; assumption]).
      * intros [(Q & _)|[(_ & N & V & ->)|(_ & Q & _)]]; [discriminate| |destruct (Q eq_refl)]. assert (E : centroid (t_data s) roi g = centroid_with_roi (t_data s) roi) by (unfold centroid; destruct g as [([gx|], [gy|])|]; try reflexivity; destruct (N gx gy eq_refl)). rewrite E. apply F. auto.
    + split; [intros Q; injection Q as <-; right; right; auto|]. intros [(Q & _)|[(Q & _)|(_ & _ & ->)]]; [contradiction|contradiction|reflexivity].
Qed.
(** ** The aperture *)
Lemma background_iff : forall lb s on r1 r2 x y b, unback lb s on r1 r2 x y = Ok b <-> background lb s on r1 r2 x y b.
Proof.
  intros lb s on r1 r2 x y b. unfold unback, background. change (masked s) with (mask_of s). destruct on.
  - destruct (lb r1 r2 (t_data s) (mask_of s) x y) as [v|] eqn:E; cbn [bind]; (split; [intros Q; try discriminate; injection Q as <-; left; eauto|intros [(_ & v' & Q & ->)|(Q & _)]; congruence]).
  - split; [intros Q; injection Q as <-; right; auto|intros [(Q & _)|(_ & ->)]; [discriminate|reflexivity]].
Qed.
Lemma background_fails : forall lb s on r1 r2 x y e, unback lb s on r1 r2 x y = Raise e <-> on = true /\ lb r1 r2 (t_data s) (mask_of s) x y = Raise e.
Proof.
  intros lb s on r1 r2 x y e. unfold unback. change (masked s) with (mask_of s). destruct on; [destruct (lb r1 r2 (t_data s) (mask_of s) x y); cbn [bind]; intuition congruence|split; [discriminate|intros (Q & _); discriminate]].
Qed.
Lemma taken_iff : forall s w ps, sieve (counts_in s w) (places (t_data s)) ps <-> ps = taken s w.
Proof.
  intros s w ps. unfold taken. apply sieve_filter. intros p. unfold counts_in, masked. rewrite andb_true_iff, negb_true_iff, negb_false_iff, Z.eqb_eq. destruct (Rlt_dec 0 (w (fst p) (snd p))); intuition congruence.
Qed.
Lemma weighed_iff : forall w f ps v, total (map (fun p => prod (share w p) (f (fst p) (snd p))) ps) v <-> v = weighed w f ps.
Proof. intros w f ps v. apply total_iff. Qed.
Lemma squares_pos : forall w f ps x, (forall p, In p ps -> 0 < w (fst p) (snd p)) -> weighed w (fun i j => vsq (f i j)) ps = Some x -> 0 <= x.
Proof.
  intros w f ps. induction ps as [|p ps IH]; intros x P E; [injection E as <-; lra|]. unfold weighed in *. cbn [map vsum fold_right] in E. change (fold_right vadd (Some 0)) with vsum in E. destruct (f (fst p) (snd p)) as [a|]; cbn [vsq vmul vadd] in E; [|discriminate]. destruct (vsum _) as [t|] eqn:T; [|discriminate]. injection E as <-.
  assert (0 <= t) by (apply IH; [intros; apply P; right; assumption|reflexivity]). assert (0 < w (fst p) (snd p)) by (apply P; left; reflexivity). assert (0 <= a * a) by (apply Rle_0_sqr). nra.
Qed.
Lemma root_taken : forall s w f, vsqrt (weighed w (fun i j => vsq (f i j)) (taken s w)) = option_map sqrt (weighed w (fun i j => vsq (f i j)) (taken s w)).
Proof.
  intros s w f. destruct (weighed w (fun i j => vsq (f i j)) (taken s w)) as [x|] eqn:E; [|reflexivity]. apply squares_pos in E; [cbn; destruct (Rle_dec 0 x); [reflexivity|contradiction]|]. intros p I. unfold taken in I. apply filter_In in I. destruct I as (_ & I). apply andb_true_iff in I. destruct I as (I & _). destruct (Rlt_dec 0 (w (fst p) (snd p))); [assumption|discriminate].
Qed.
Lemma fee_iff : forall x, (if Rle_dec x 0 then true else false) || (if Rlt_dec 1 x then true else false) = false <-> 0 < x <= 1.
Proof. intros x. destruct (Rle_dec x 0), (Rlt_dec 1 x); cbn; intuition (try discriminate; try lra). Qed.
Lemma aper_iff : forall wcs_at lb ov s a n e b, aper_phot wcs_at lb ov s a = Ok (n, e, b) <-> apertured wcs_at lb ov s a n e b.
Proof.
  intros wcs_at lb ov s a n e b. unfold aper_phot, apertured. destruct ((if Rle_dec (a_fee a) 0 then true else false) || (if Rlt_dec 1 (a_fee a) then true else false)) eqn:FE.
  { split; [discriminate|]. intros (F & _). apply fee_iff in F. congruence. }
  apply fee_iff in FE. split.
  - destruct (centre wcs_at s (a_centring a) (a_roi a) (a_guess a)) as [(x, y)|] eqn:E1; cbn [bind fst snd]; [|discriminate]. destruct (unback lb s (a_back a) (a_in a) (a_out a) x y) as [b'|] eqn:E2; cbn [bind]; [|discriminate]. destruct (ov _ _ _ _ _ _ _) as [w|] eqn:E3; cbn [bind]; [|discriminate]. intros Q. split; [assumption|]. exists x, y, w. apply placed_iff in E1. apply background_iff in E2. destruct w as [w|].
    + injection Q as <- <- <-. split; [assumption|]. split; [assumption|]. split; [assumption|]. exists (taken s w), (weighed w (pix (data_of s b')) (taken s w)), (weighed w (fun i j => vsq (pix (t_err s) i j)) (taken s w)). split; [apply taken_iff; reflexivity|]. split; [apply total_iff; destruct b'; reflexivity|]. split; [reflexivity|]. split; [apply total_iff; reflexivity|]. rewrite root_taken. reflexivity.
    + injection Q as <- <- <-. auto.
  - intros (_ & x & y & w & P & B & O & H). apply placed_iff in P. rewrite P. cbn [bind fst snd]. apply background_iff in B. rewrite B. cbn [bind]. rewrite O. cbn [bind]. destruct w as [w|]; [|destruct H as (-> & ->); reflexivity]. destruct H as (ps & u & v & PS & U & -> & V & ->). apply taken_iff in PS. subst ps. apply total_iff in U, V. rewrite root_taken. f_equal. f_equal. f_equal; [|rewrite V; reflexivity]. rewrite U. destruct b; reflexivity.
Qed.
Ltac rc := repeat match goal with H : Raise _ = Raise _ |- _ => injection H; clear H; intros; subst | H : ?x = Raise _, K : ?x = Raise _ |- _ => rewrite H in K end; try reflexivity; try congruence.
Lemma aper_fails : forall wcs_at lb ov s a e, aper_phot wcs_at lb ov s a = Raise e <-> aper_refused wcs_at lb ov s a e.
Proof.
  intros wcs_at lb ov s a e. unfold aper_phot, aper_refused. destruct ((if Rle_dec (a_fee a) 0 then true else false) || (if Rlt_dec 1 (a_fee a) then true else false)) eqn:FE.
  { assert (NF : ~ 0 < a_fee a <= 1) by (intros F; apply fee_iff in F; rc). split; [intros Q; injection Q as <-; auto|]. intros [(_ & ->)|(F & _)]; [reflexivity|contradiction]. }
  apply fee_iff in FE. destruct (centre wcs_at s (a_centring a) (a_roi a) (a_guess a)) as [(x, y)|e'] eqn:E1; cbn [bind fst snd].
  2: { split; [intros Q; right; split; [assumption|]; left; apply (place_fails wcs_at s (a_centring a) (a_roi a)); rc|]. intros [(Q & _)|(_ & [Q|(x & y & Q & _)])]; [contradiction|apply (place_fails wcs_at s (a_centring a) (a_roi a)) in Q; rc|apply placed_iff in Q; rc]. }
  assert (NP : forall e', ~ place_refused wcs_at s (a_centring a) (a_guess a) e') by (intros e' Q; apply (place_fails wcs_at s (a_centring a) (a_roi a)) in Q; rc). assert (PU : forall x' y', placed wcs_at s (a_centring a) (a_roi a) (a_guess a) x' y' -> x' = x /\ y' = y) by (intros x' y' Q; apply placed_iff in Q; rewrite E1 in Q; injection Q as -> ->; auto). apply placed_iff in E1.
  transitivity ((a_back a = true /\ lb (a_in a) (a_out a) (t_data s) (mask_of s) x y = Raise e) \/ (exists b, background lb s (a_back a) (a_in a) (a_out a) x y b) /\ ov (a_method a) (a_sub a) (a_radius a) x y (rows (t_data s)) (cols (t_data s)) = Raise e).
  2: { split; [intros H; right; split; [assumption|]; right; exists x, y; auto|]. intros [(Q & _)|(_ & [Q|(x' & y' & Q & H)])]; [contradiction|destruct (NP _ Q)|]. destruct (PU x' y' Q) as (-> & ->). exact H. }
  rewrite <- background_fails. destruct (unback lb s (a_back a) (a_in a) (a_out a) x y) as [b|e'] eqn:E2; cbn [bind].
  2: { split; [intros Q; left; rc|]. intros [Q|((b & Q) & _)]; [rc|apply background_iff in Q; rc]. }
  apply background_iff in E2. destruct (ov _ _ _ _ _ _ _) as [w|e'] eqn:E3; cbn [bind].
  - split; [destruct w; discriminate|]. intros [Q|(_ & Q)]; discriminate.
  - split; [intros Q; right; split; [eauto|rc]|]. intros [Q|(_ & Q)]; [discriminate|rc].
Qed.
(** ** The Gaussian fit *)
Lemma shape_iff : forall s o n, shape_of s o n <-> n = match o with Some n => n | None => (Z.of_nat (rows (t_data s)) - 1)%Z end.
Proof. intros s [m|] n; unfold shape_of; intuition rc. Qed.
Lemma lowered_data : forall s b, data_of s b = lowered (t_data s) b.
Proof. intros s [v|]; reflexivity. Qed.
Lemma gauss_iff : forall wcs_at lb gf s g n e b, phot_by_gauss2d_fit wcs_at lb gf s g = Ok (n, e, b) <-> gaussed wcs_at lb gf s g n e b.
Proof.
  intros wcs_at lb gf s g n e b. unfold phot_by_gauss2d_fit, gaussed. cbv zeta. split.
  - destruct (centre wcs_at s (g_centring g) (g_roi g) (g_guess g)) as [(x, y)|] eqn:E1; cbn [bind fst snd]; [|discriminate]. destruct (unback lb s (g_back g) (g_in g) (g_out g) x y) as [b'|] eqn:E2; cbn [bind]; [|discriminate]. destruct (gf _ _ _ _ _ _ _) as [(n', e')|] eqn:E3; cbn [bind fst snd]; [|discriminate]. intros Q. injection Q as <- <- <-. apply placed_iff in E1. apply background_iff in E2. do 3 eexists. split; [exact E1|]. split; [exact E2|]. split; [apply shape_iff; reflexivity|]. rewrite <- lowered_data. exact E3.
  - intros (x & y & k & P & B & K & E). apply placed_iff in P. rewrite P. cbn [bind fst snd]. apply background_iff in B. rewrite B. cbn [bind]. apply shape_iff in K. subst k. rewrite <- lowered_data in E. change (filled (t_err s)) with (no_zeros (t_err s)). change (masked s) with (mask_of s). rewrite E. reflexivity.
Qed.
Lemma gauss_fails : forall wcs_at lb gf s g e, phot_by_gauss2d_fit wcs_at lb gf s g = Raise e <-> gauss_refused wcs_at lb gf s g e.
Proof.
  intros wcs_at lb gf s g e. unfold phot_by_gauss2d_fit, gauss_refused. cbv zeta. destruct (centre wcs_at s (g_centring g) (g_roi g) (g_guess g)) as [(x, y)|e'] eqn:E1; cbn [bind fst snd].
  2: { split; [intros Q; left; apply (place_fails wcs_at s (g_centring g) (g_roi g)); rc|]. intros [Q|(x & y & Q & _)]; [apply (place_fails wcs_at s (g_centring g) (g_roi g)) in Q; rc|apply placed_iff in Q; rc]. }
  destruct (unback lb s (g_back g) (g_in g) (g_out g) x y) as [b|e'] eqn:E2; cbn [bind].
  2: { pose proof E2 as E0. apply background_fails in E0. split; [intros Q; right; exists x, y; split; [apply placed_iff; assumption|]; left; injection Q as <-; assumption|]. intros [Q|(x' & y' & Q & H)]; [apply (place_fails wcs_at s (g_centring g) (g_roi g)) in Q; rc|]. apply placed_iff in Q. rewrite E1 in Q. injection Q as <- <-. destruct H as [H|(b & k & H & _)]; [apply background_fails in H; rc|apply background_iff in H; rc]. }
  change (filled (t_err s)) with (no_zeros (t_err s)). change (masked s) with (mask_of s). split.
  - destruct (gf _ _ _ _ _ _ _) as [r|e'] eqn:E3; cbn [bind]; [discriminate|]. intros Q. injection Q as <-. right. exists x, y. split; [apply placed_iff; assumption|]. right. eexists b, _. split; [apply background_iff; assumption|]. split; [apply shape_iff; reflexivity|]. rewrite <- lowered_data. exact E3.
  - intros [Q|(x' & y' & Q & H)]; [apply (place_fails wcs_at s (g_centring g) (g_roi g)) in Q; rc|]. apply placed_iff in Q. rewrite E1 in Q. injection Q as <- <-. destruct H as [H|(b' & k & H & K & H')]; [apply background_fails in H; rc|]. apply background_iff in H. rewrite E2 in H. injection H as <-. apply shape_iff in K. subst k. rewrite <- lowered_data in H'. rewrite H'. reflexivity.
Qed.
