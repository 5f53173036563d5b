(** Proofs on the source search: removing a source, and the loop. *)
From Coq Require Import List Arith Bool Reals ZArith String Lia Lra.
From Verif Require Import Base NearModel NearProofs BpmSpec BpmProofs FindModel FindSpec FindProofs.
Import ListNotations.
Local Open Scope R_scope.

(** ** The window *)
Section Window.
Variable w : nat.
Variable psf : list (list R).
Hypothesis CP : centred w psf.
Lemma half : (List.length psf / 2 = w)%nat.
Proof. rewrite (proj1 CP). replace (2 * w + 1)%nat with (1 + w * 2)%nat by lia. rewrite Nat.div_add by lia. reflexivity. Qed.
Lemma window_fits : forall n y, (y < n)%nat -> (snd (window psf n y) - fst (window psf n y) = Z.of_nat (List.length psf))%Z <-> (w <= y /\ y + w < n)%nat.
Proof.
  intros n y L. unfold window. rewrite half, (proj1 CP). cbn [fst snd]. unfold slice_lo, slice_hi. destruct (Z.ltb_spec (Z.of_nat y - Z.of_nat w) 0); lia.
Qed.
Lemma window_at : forall n y, (w <= y /\ y + w < n)%nat -> window psf n y = (Z.of_nat (y - w), Z.of_nat (y + w + 1)).
Proof. intros n y F. unfold window. rewrite half. unfold slice_lo, slice_hi. destruct (Z.ltb_spec (Z.of_nat y - Z.of_nat w) 0); [lia|]. f_equal; lia. Qed.
End Window.
Lemma within_iff : forall a b i, within (Z.of_nat a, Z.of_nat b) i = true <-> (a <= i < b)%nat.
Proof. intros a b i. unfold within. cbn [fst snd]. rewrite andb_true_iff, Z.leb_le, Z.ltb_lt. lia. Qed.
Lemma slice_nth : forall A (l : list A) a b i, nth_error (slice (Z.of_nat a, Z.of_nat b) l) i = if (i <? b - a)%nat then nth_error l (a + i) else None.
Proof.
  intros A l a b i. unfold slice. cbn [fst snd]. replace (Z.to_nat (Z.of_nat b - Z.of_nat a)) with (b - a)%nat by lia. rewrite Nat2Z.id. set (n := (b - a)%nat). clearbody n.
  assert (SK : nth_error l (a + i) = nth_error (skipn a l) i). { clear. revert l. induction a as [|a IH]; intros l; [reflexivity|]. destruct l as [|x l]; [cbn; destruct i; reflexivity|]. cbn. apply IH. }
  rewrite SK. generalize (skipn a l). clear. intros l. revert i l. induction n as [|n IH]; intros i l; cbn [firstn]; [destruct i; reflexivity|]. destruct l as [|x l]; [destruct (i <? S n)%nat; destruct i; reflexivity|]. destruct i as [|i]; [reflexivity|]. cbn [nth_error]. rewrite IH. reflexivity.
Qed.
Lemma slice_len : forall A (l : list A) a b, (a <= b)%nat -> (b <= List.length l)%nat -> List.length (slice (Z.of_nat a, Z.of_nat b) l) = (b - a)%nat.
Proof. intros A l a b L L'. unfold slice. cbn [fst snd]. rewrite firstn_length, skipn_length. lia. Qed.

Section Sub.
Variable scale : list (option R) -> list R -> option R.
Variable w : nat.
Variable psf : list (list R).
Variable fwhm : R.
Hypothesis CP : centred w psf.
Variable nr nc : nat.
Variable img : list (list (option R)).
Hypothesis RI : rect nr nc img.
Variable r c : nat.
Hypothesis IN : (r < nr /\ c < nc)%nat.
Lemma len_img : List.length img = nr. Proof. exact (proj1 RI). Qed.
Lemma ncol_img : ncol img = nc. Proof. apply (ncol_rect _ nr nc img); [lia|exact RI]. Qed.

Lemma region_box : clear_of_edges w nr nc r c -> box_values w r c img (region img (window psf nr r) (window psf nc c)).
Proof.
  intros (A & B & A' & B'). rewrite (window_at w psf CP nr r) by lia. rewrite (window_at w psf CP nc c) by lia. unfold region. set (rows := map _ _).
  assert (RR : rect (2 * w + 1) (2 * w + 1) rows).
  { split; [unfold rows; rewrite map_length, slice_len by (rewrite ?len_img; lia); lia|]. intros row I. unfold rows in I. apply in_map_iff in I. destruct I as (x & <- & I). unfold slice in I.
    assert (IX : In x img). { apply In_nth_error in I. destruct I as (k & K). change (firstn _ _) with (slice (Z.of_nat (r - w), Z.of_nat (r + w + 1)) img) in K. rewrite slice_nth in K. destruct (_ <? _)%nat; [exact (nth_error_In _ _ K)|discriminate K]. }
    rewrite slice_len; [lia|lia|]. rewrite (proj2 RI x IX). lia. }
  split; [apply concat_len; exact RR|]. intros a b v LA LB N. apply (concat_cell _ _ rows _ a b v RR LB) in N. destruct N as (row & R0 & V). unfold rows in R0. rewrite nth_error_map, slice_nth in R0. destruct (Nat.ltb_spec a (r + w + 1 - (r - w))); [|lia]. destruct (nth_error img (r - w + a)) as [x|] eqn:X; [|discriminate R0]. injection R0 as <-.
  rewrite slice_nth in V. destruct (Nat.ltb_spec b (c + w + 1 - (c - w))); [|lia]. exists x. replace (r + a - w)%nat with (r - w + a)%nat by lia. replace (c + b - w)%nat with (c - w + b)%nat by lia. auto.
Qed.
Lemma box_fun : clear_of_edges w nr nc r c -> forall u v, box_values w r c img u -> box_values w r c img v -> u = v.
Proof.
  intros (A & B & A' & B') u v (LU & U) (LV & V). apply list_eq_nth; [congruence|]. intros i x y X Y. set (s := (2 * w + 1)%nat) in *. assert (P : (s <> 0)%nat) by lia. assert (LI : (i < s * s)%nat) by (rewrite <- LU; apply nth_error_Some; congruence).
  assert (E : i = (i / s * s + i mod s)%nat) by (rewrite Nat.mul_comm; apply Nat.div_mod; exact P). pose proof (Nat.mod_upper_bound i s P). assert (i / s < s)%nat by (apply Nat.div_lt_upper_bound; lia). rewrite E in X, Y. specialize (U _ _ _ H0 H X). specialize (V _ _ _ H0 H Y). exact (cell_fun _ _ _ _ _ _ U V).
Qed.
Lemma removed_fun : forall k a b, removed w psf fwhm k r c img a -> removed w psf fwhm k r c img b -> a = b.
Proof.
  intros k a b ((n1 & m1 & R1 & R2) & A) ((n2 & m2 & R3 & R4) & B).
  assert (NN : n1 = nr /\ n2 = nr) by (destruct RI, R1, R3; lia). destruct NN as (-> & ->).
  assert (MM : m1 = nc /\ m2 = nc). { destruct RI as (L & W), R1 as (_ & W1), R3 as (_ & W3). destruct img as [|row rest]; [cbn in L; lia|]. specialize (W row (or_introl eq_refl)). specialize (W1 row (or_introl eq_refl)). specialize (W3 row (or_introl eq_refl)). lia. } destruct MM as (-> & ->).
  apply (rect_ext _ nr nc); [exact R2|exact R4|]. intros i j u v U V. destruct (A i j u U) as (A1 & A2 & A3). destruct (B i j v V) as (B1 & B2 & B3). cbv zeta in *.
  assert (DB : (r <= i + w /\ i <= r + w /\ c <= j + w /\ j <= c + w)%nat \/ ~ (r <= i + w /\ i <= r + w /\ c <= j + w /\ j <= c + w)%nat) by lia. destruct DB as [D|D].
  - destruct (Rlt_le_dec (pixels_apart r c i j) fwhm) as [L|L]; [rewrite (A2 D L), (B2 D L); reflexivity|]. destruct (A3 D L) as (x & p & X & P0 & ->). destruct (B3 D L) as (x' & p' & X' & P' & ->). rewrite (cell_fun _ _ _ _ _ _ X X'), (cell_fun _ _ _ _ _ _ P0 P'). reflexivity.
  - exact (cell_fun _ _ _ _ _ _ (A1 D) (B1 D)).
Qed.
Lemma sub_removed : forall img', clear_of_edges w nr nc r c -> psf_scalesub scale psf fwhm img r c = Ok img' -> removed w psf fwhm (scale (region img (window psf nr r) (window psf nc c)) (List.concat psf)) r c img img'.
Proof.
  intros img' CL. unfold psf_scalesub. rewrite len_img, ncol_img. destruct (_ && _)%bool; [|discriminate]. match goal with |- Ok ?x = _ -> _ => intros H; assert (HX : x = img') by congruence end. rewrite <- HX. clear H HX. set (k := scale _ _). destruct CL as (A & B & A' & B'). rewrite (window_at w psf CP nr r) by lia. rewrite (window_at w psf CP nc c) by lia. rewrite (half w psf CP). cbn [fst snd].
  split; [exists nr, nc; split; [exact RI|apply grid_rect; exact RI]|]. intros i j v' CE. cbv zeta. apply cell_grid in CE. destruct CE as (v & CE & ->).
  assert (BI : (within (Z.of_nat (r - w), Z.of_nat (r + w + 1)) i && within (Z.of_nat (c - w), Z.of_nat (c + w + 1)) j)%bool = true <-> (r <= i + w /\ i <= r + w /\ c <= j + w /\ j <= c + w)%nat) by (rewrite andb_true_iff, !within_iff; lia).
  destruct (_ && _)%bool.
  - assert (D : (r <= i + w /\ i <= r + w /\ c <= j + w /\ j <= c + w)%nat) by (apply BI; reflexivity).
    assert (DI : idist (Z.of_nat i - Z.of_nat (r - w)) (Z.of_nat j - Z.of_nat (c - w)) (Z.of_nat w) (Z.of_nat w) = pixels_apart r c i j). { rewrite <- idist_apart. unfold idist. f_equal. f_equal; f_equal; f_equal; lia. }
    rewrite DI, Rmult_1_r. split; [tauto|]. destruct (Rlt_dec _ _) as [L|L]; [split; [reflexivity|intros _ L'; lra]|]. split; [intros _ L'; lra|]. intros _ _.
    replace (Z.to_nat (Z.of_nat i - Z.of_nat (r - w))) with (i + w - r)%nat by lia. replace (Z.to_nat (Z.of_nat j - Z.of_nat (c - w))) with (j + w - c)%nat by lia.
    destruct (proj2 (cell_in _ _ _ psf (i + w - r) (j + w - c) CP) ltac:(lia)) as (p & row & R0 & P0). rewrite R0, P0. exists v, p. split; [exact CE|]. split; [exists row; auto|]. reflexivity.
  - split; [intros _; exact CE|]. split; intros D; apply BI in D; discriminate D.
Qed.
Theorem sub_iff : forall img', psf_scalesub scale psf fwhm img r c = Ok img' <-> clear_of_edges w nr nc r c /\ exists vs, box_values w r c img vs /\ removed w psf fwhm (scale vs (List.concat psf)) r c img img'.
Proof.
  intros img'.
  assert (OK : (exists o, psf_scalesub scale psf fwhm img r c = Ok o) <-> clear_of_edges w nr nc r c).
  { unfold psf_scalesub. rewrite len_img, ncol_img. unfold clear_of_edges. pose proof (window_fits w psf CP nr r (proj1 IN)) as F1. pose proof (window_fits w psf CP nc c (proj2 IN)) as F2.
    destruct (Z.eqb_spec (snd (window psf nr r) - fst (window psf nr r)) (Z.of_nat (List.length psf))) as [E1|E1], (Z.eqb_spec (snd (window psf nc c) - fst (window psf nc c)) (Z.of_nat (List.length psf))) as [E2|E2]; cbn [andb].
    - split; [intros _; tauto|intros _; eexists; reflexivity].
    - split; [intros (o & H); discriminate H|tauto].
    - split; [intros (o & H); discriminate H|tauto].
    - split; [intros (o & H); discriminate H|tauto]. }
  split.
  - intros H. assert (CL : clear_of_edges w nr nc r c) by (apply OK; eauto). split; [exact CL|]. exists (region img (window psf nr r) (window psf nc c)). split; [exact (region_box CL)|exact (sub_removed img' CL H)].
  - intros (CL & vs & BV & RM). destruct (proj2 OK CL) as (o & H). pose proof (sub_removed o CL H) as RO. rewrite (box_fun CL _ _ (region_box CL) BV) in RO. rewrite (removed_fun _ _ _ RM RO). exact H.
Qed.
Theorem sub_raise : forall e, psf_scalesub scale psf fwhm img r c = Raise e <-> e = ValueError /\ ~ clear_of_edges w nr nc r c.
Proof.
  intros e. split.
  - intros H. split; [unfold psf_scalesub in H; destruct (_ && _)%bool; congruence|]. intros CL. unfold psf_scalesub in H. rewrite len_img, ncol_img in H. destruct CL as (A & B & A' & B'). rewrite (proj2 (window_fits w psf CP nr r (proj1 IN))) in H by lia. rewrite (proj2 (window_fits w psf CP nc c (proj2 IN))) in H by lia. rewrite Z.eqb_refl in H. discriminate H.
  - intros (-> & NC). destruct (psf_scalesub scale psf fwhm img r c) as [o|e] eqn:E; [apply sub_iff in E; tauto|]. unfold psf_scalesub in E. destruct (_ && _)%bool; congruence.
Qed.
End Sub.
