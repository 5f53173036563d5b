(** Proofs on the source search: the loop and the whole. *)
From Coq Require Import List Arith Bool Reals ZArith String Lia Lra.
From Verif Require Import Base NearModel NearProofs BpmSpec BpmProofs FindModel FindSpec FindProofs FindSubProofs.
Import ListNotations.
Local Open Scope R_scope.

Section Loop.
Variable cc : list (list bool) -> list (list (option R)) -> list (list (option R)).
Variable stat : list (list (option R)) -> option (list (list (option R))) -> Z -> list (list (option R)).
Variable scale : list (option R) -> list R -> option R.
Variable w : nat.
Variable psf : list (list R).
Variable fwhm thr : R.
Variable mask : list (list bool).
Variable wop : option (list (list (option R))).
Hypothesis CP : centred w psf.
Notation snmap := (make_snmap cc stat mask wop).
Notation find := (search cc stat scale psf fwhm thr mask wop).
Hypothesis KN : keeps_nan snmap.

Lemma snmap_pos : forall nr nc img m, rect nr nc img -> snmap img = Ok m -> (0 < nr /\ 0 < nc)%nat /\ rect nr nc m.
Proof.
  intros nr nc img m RI E. split; [|exact (proj1 (KN img m nr nc RI E))]. unfold make_snmap in E. destruct (mask_radius img) as [z|] eqn:M; cbn [bind] in E; [|discriminate E]. apply (radius_iff nr nc img z RI) in M. destruct M as (r & c & v & CE & _). assert (r < nr /\ c < nc)%nat by (apply (cell_in _ nr nc img); [exact RI|eauto]). lia.
Qed.
Lemma stops_search : forall f nr nc img, rect nr nc img -> stops snmap thr img -> find (S f) img = Done [].
Proof.
  intros f nr nc img RI (m & E & NE & QU). destruct (snmap_pos nr nc img m RI E) as ((P & P') & RM). cbn [search]. rewrite E. destruct (nanmax (List.concat m)) as [[[k v]|]|e] eqn:N; [|reflexivity|apply nanmax_raise in N; tauto].
  apply nanmax_some, (peak_brightest nr nc m k v RM P') in N. pose proof (QU _ _ _ (proj1 N)). destruct (Rle_dec thr v); [lra|reflexivity].
Qed.
Lemma tied_search : forall f nr nc img, rect nr nc img -> tied snmap thr img -> find f img = Running.
Proof.
  intros f nr nc img RI T. induction f as [|f IH]; [reflexivity|]. destruct T as (m & r & c & E & B). destruct (snmap_pos nr nc img m RI E) as ((P & P') & RM). cbn [search]. rewrite E.
  assert (IN : (r < nr /\ c < nc)%nat) by (apply (cell_in _ nr nc m); [exact RM|exists (Some thr); exact (proj1 B)]).
  assert (D : ((r * nc + c) / nc = r /\ (r * nc + c) mod nc = c)%nat). { split; [rewrite Nat.div_add_l, Nat.div_small by lia; lia|rewrite Nat.add_comm, Nat.mod_add, Nat.mod_small by lia; reflexivity]. }
  assert (PK : peak (List.concat m) (r * nc + c) thr) by (apply (peak_brightest nr nc m _ _ RM P'); rewrite (proj1 D), (proj2 D); exact B). rewrite (proj2 (nanmax_some _ _ _) PK). destruct (Rle_dec thr thr); [|lra]. destruct (Rlt_dec thr thr); [lra|exact IH].
Qed.
Lemma found_search : forall f nr nc img sn r c img', rect nr nc img -> found snmap scale w psf fwhm thr img sn r c img' -> find (S f) img = match find f img' with Done l => Done ((sn, (r, c)) :: l) | o => o end.
Proof.
  intros f nr nc img sn r c img' RI (m & vs & E & B & LT & CL & BV & RM'). destruct (snmap_pos nr nc img m RI E) as ((P & P') & RM). cbn [search]. rewrite E.
  assert (IN : (r < nr /\ c < nc)%nat) by (apply (cell_in _ nr nc m); [exact RM|exists (Some sn); exact (proj1 B)]).
  assert (D : ((r * nc + c) / nc = r /\ (r * nc + c) mod nc = c)%nat). { split; [rewrite Nat.div_add_l, Nat.div_small by lia; lia|rewrite Nat.add_comm, Nat.mod_add, Nat.mod_small by lia; reflexivity]. }
  assert (PK : peak (List.concat m) (r * nc + c) sn) by (apply (peak_brightest nr nc m _ _ RM P'); rewrite (proj1 D), (proj2 D); exact B). rewrite (proj2 (nanmax_some _ _ _) PK). destruct (Rle_dec thr sn); [|lra]. destruct (Rlt_dec thr sn); [|lra].
  rewrite (ncol_rect _ nr nc m P RM). unfold unravel. rewrite (proj1 D), (proj2 D). cbn [fst snd]. rewrite (proj1 RI), (hd_rect _ nr nc img P RI) in CL. rewrite (proj2 (sub_iff scale w psf fwhm CP nr nc img RI r c IN img')); [reflexivity|]. split; [exact CL|]. exists vs. auto.
Qed.
Lemma fails_search : forall f nr nc img e, rect nr nc img -> fails snmap w thr img e -> find (S f) img = Failed e.
Proof.
  intros f nr nc img e RI [E|(m & E & -> & H)]; cbn [search]; rewrite E; [reflexivity|]. destruct (snmap_pos nr nc img m RI E) as ((P & P') & RM). destruct H as [H|(r & c & v & B & LT & NC)].
  - rewrite H. reflexivity.
  - assert (IN : (r < nr /\ c < nc)%nat) by (apply (cell_in _ nr nc m); [exact RM|exists (Some v); exact (proj1 B)]).
    assert (D : ((r * nc + c) / nc = r /\ (r * nc + c) mod nc = c)%nat). { split; [rewrite Nat.div_add_l, Nat.div_small by lia; lia|rewrite Nat.add_comm, Nat.mod_add, Nat.mod_small by lia; reflexivity]. }
    assert (PK : peak (List.concat m) (r * nc + c) v) by (apply (peak_brightest nr nc m _ _ RM P'); rewrite (proj1 D), (proj2 D); exact B). rewrite (proj2 (nanmax_some _ _ _) PK). destruct (Rle_dec thr v); [|lra]. destruct (Rlt_dec thr v); [|lra].
    rewrite (ncol_rect _ nr nc m P RM). unfold unravel. rewrite (proj1 D), (proj2 D). cbn [fst snd]. rewrite (proj1 RI), (hd_rect _ nr nc img P RI) in NC. rewrite (proj2 (sub_raise scale w psf fwhm CP nr nc img RI r c IN ValueError)); [reflexivity|auto].
Qed.
Lemma cases : forall nr nc img, rect nr nc img -> stops snmap thr img \/ tied snmap thr img \/ (exists e, fails snmap w thr img e) \/ exists sn r c img', found snmap scale w psf fwhm thr img sn r c img'.
Proof.
  intros nr nc img RI. destruct (snmap img) as [m|e] eqn:E; [|right; right; left; exists e; left; exact E]. destruct (snmap_pos nr nc img m RI E) as ((P & P') & RM).
  destruct (nanmax (List.concat m)) as [[[k v]|]|e] eqn:N.
  - apply nanmax_some, (peak_brightest nr nc m k v RM P') in N. set (r := (k / nc)%nat) in *. set (c := (k mod nc)%nat) in *. clearbody r c. assert (IN : (r < nr /\ c < nc)%nat) by (apply (cell_in _ nr nc m); [exact RM|exists (Some v); exact (proj1 N)]).
    destruct (Rtotal_order v thr) as [L|[L|L]].
    + left. exists m. split; [exact E|]. split; [|intros r' c' v' C'; destruct (proj2 N _ _ _ C'); lra]. intros Z. assert (I : In (Some v) (List.concat m)) by (apply concat_in; exists r, c; exact (proj1 N)). rewrite Z in I. destruct I.
    + right; left. exists m, r, c. subst v. auto.
    + right; right. destruct (psf_scalesub scale psf fwhm img r c) as [img'|e] eqn:S0.
      * right. apply (sub_iff scale w psf fwhm CP nr nc img RI r c IN) in S0. destruct S0 as (CL & vs & BV & RM'). exists v, r, c, img', m, vs. rewrite (proj1 RI), (hd_rect _ nr nc img P RI). auto 10.
      * left. apply (sub_raise scale w psf fwhm CP nr nc img RI r c IN) in S0. destruct S0 as (-> & NC). exists ValueError. right. exists m. split; [exact E|]. split; [reflexivity|]. right. exists r, c, v. rewrite (proj1 RI), (hd_rect _ nr nc img P RI). auto.
  - left. exists m. apply nanmax_none in N. destruct N as (NE & N). split; [exact E|]. split; [exact NE|]. intros r c v CE. assert (I : In (Some v) (List.concat m)) by (apply concat_in; eauto). apply In_nth_error in I. destruct I as (k & K). destruct (N k v K).
  - right; right; left. apply nanmax_raise in N. destruct N as (N & ->). exists ValueError. right. exists m. auto.
Qed.
Lemma found_rect : forall nr nc img sn r c img', rect nr nc img -> found snmap scale w psf fwhm thr img sn r c img' -> rect nr nc img'.
Proof.
  intros nr nc img sn r c img' RI (m & vs & E & B & _ & _ & _ & ((n1 & m1 & R1 & R2) & _)). destruct (snmap_pos nr nc img m RI E) as ((P & P') & _). assert (n1 = nr) by (destruct R1, RI; lia). subst n1. assert (m1 = nc) by (rewrite <- (hd_rect _ nr nc img P RI); symmetry; apply (hd_rect _ nr m1 img P R1)). subst m1. exact R2.
Qed.
Lemma reaches_rect : forall nr nc img l img', rect nr nc img -> reaches snmap scale w psf fwhm thr img l img' -> rect nr nc img'.
Proof. intros nr nc img l img' RI H. induction H as [img|img sn r c img' l img'' F H IH]; [exact RI|]. apply IH. exact (found_rect nr nc _ _ _ _ _ RI F). Qed.

Theorem done_iff : forall nr nc img l, rect nr nc img -> ((exists f, find f img = Done l) <-> exists img', reaches snmap scale w psf fwhm thr img l img' /\ stops snmap thr img').
Proof.
  intros nr nc img l RI. split.
  - intros (f & H). revert img l RI H. induction f as [|f IH]; intros img l RI H; [discriminate H|]. destruct (cases nr nc img RI) as [ST|[T|[(e & FA)|(sn & r & c & img' & FO)]]].
    + rewrite (stops_search f nr nc img RI ST) in H. injection H as <-. exists img. split; [constructor|exact ST].
    + rewrite (tied_search (S f) nr nc img RI T) in H. discriminate H.
    + rewrite (fails_search f nr nc img e RI FA) in H. discriminate H.
    + rewrite (found_search f nr nc img sn r c img' RI FO) in H. destruct (find f img') as [l'| |] eqn:E; try discriminate H. injection H as <-. destruct (IH img' l' (found_rect nr nc _ _ _ _ _ RI FO) E) as (i & RE & ST). exists i. split; [exact (reach_next _ _ _ _ _ _ _ _ _ _ _ _ _ FO RE)|exact ST].
  - intros (i & RE & ST). induction RE as [img|img sn r c img' l img'' F H IH]; [exists 1%nat; exact (stops_search 0 nr nc img RI ST)|]. destruct (IH (found_rect nr nc _ _ _ _ _ RI F) ST) as (f & E). exists (S f). rewrite (found_search f nr nc img sn r c img' RI F), E. reflexivity.
Qed.
Theorem failed_iff : forall nr nc img e, rect nr nc img -> ((exists f, find f img = Failed e) <-> exists l img', reaches snmap scale w psf fwhm thr img l img' /\ fails snmap w thr img' e).
Proof.
  intros nr nc img e RI. split.
  - intros (f & H). revert img RI H. induction f as [|f IH]; intros img RI H; [discriminate H|]. destruct (cases nr nc img RI) as [ST|[T|[(e' & FA)|(sn & r & c & img' & FO)]]].
    + rewrite (stops_search f nr nc img RI ST) in H. discriminate H.
    + rewrite (tied_search (S f) nr nc img RI T) in H. discriminate H.
    + rewrite (fails_search f nr nc img e' RI FA) in H. injection H as <-. exists [], img. split; [constructor|exact FA].
    + rewrite (found_search f nr nc img sn r c img' RI FO) in H. destruct (find f img') as [l'| |] eqn:E; try discriminate H. injection H as ->. destruct (IH img' (found_rect nr nc _ _ _ _ _ RI FO) E) as (l & i & RE & ST). exists ((sn, (r, c)) :: l), i. split; [exact (reach_next _ _ _ _ _ _ _ _ _ _ _ _ _ FO RE)|exact ST].
  - intros (l & i & RE & ST). induction RE as [img|img sn r c img' l img'' F H IH]; [exists 1%nat; exact (fails_search 0 nr nc img e RI ST)|]. destruct (IH (found_rect nr nc _ _ _ _ _ RI F) ST) as (f & E). exists (S f). rewrite (found_search f nr nc img sn r c img' RI F), E. reflexivity.
Qed.

(** ** Progress *)
Hypothesis FP : 0 < fwhm.
Lemma found_less : forall nr nc img sn r c img', rect nr nc img -> found snmap scale w psf fwhm thr img sn r c img' ->
  (exists v, cell img r c (Some v)) /\ cell img' r c None /\ forall i j v, cell img' i j (Some v) -> exists v', cell img i j (Some v').
Proof.
  intros nr nc img sn r c img' RI FO. pose proof (found_rect nr nc _ _ _ _ _ RI FO) as RI'. destruct FO as (m & vs & E & B & LT & CL & BV & (SH & RM)). destruct (snmap_pos nr nc img m RI E) as ((P & P') & RMm).
  assert (IN : (r < nr /\ c < nc)%nat) by (apply (cell_in _ nr nc m); [exact RMm|exists (Some sn); exact (proj1 B)]). split; [|split].
  - destruct (proj2 (cell_in _ nr nc img r c RI) IN) as ([v|] & CE); [eauto|]. pose proof (proj2 (KN img m nr nc RI E) r c CE) as N. pose proof (cell_fun _ _ _ _ _ _ N (proj1 B)). discriminate.
  - destruct (proj2 (cell_in _ nr nc img' r c RI') IN) as (v & CE). destruct (RM r c v CE) as (_ & C0 & _). rewrite <- (C0 ltac:(lia)) at 1; [exact CE|]. unfold pixels_apart. replace ((INR r - INR r) ^ 2 + (INR c - INR c) ^ 2) with 0 by ring. rewrite sqrt_0. exact FP.
  - intros i j v CE. destruct (RM i j _ CE) as (O & C0 & S0). cbv zeta in *. assert (DB : (r <= i + w /\ i <= r + w /\ c <= j + w /\ j <= c + w)%nat \/ ~ (r <= i + w /\ i <= r + w /\ c <= j + w /\ j <= c + w)%nat) by lia. destruct DB as [D|D]; [|exists v; exact (O D)].
    destruct (Rlt_le_dec (pixels_apart r c i j) fwhm) as [L|L]; [discriminate (C0 D L)|]. destruct (S0 D L) as ([a|] & p & A & _ & H); [eauto|discriminate H].
Qed.
Lemma valued_less : forall nr nc img sn r c img' ps ps', rect nr nc img -> found snmap scale w psf fwhm thr img sn r c img' -> valued img ps -> valued img' ps' -> (List.length ps' < List.length ps)%nat.
Proof.
  intros nr nc img sn r c img' ps ps' RI FO (ND & V) (ND' & V'). destruct (found_less nr nc img sn r c img' RI FO) as (H1 & H2 & H3). assert (L : (List.length ((r, c) :: ps') <= List.length ps)%nat); [|cbn in L; lia]. apply NoDup_incl_length.
  - constructor; [|exact ND']. intros I. apply V' in I. destruct I as (v & CE). pose proof (cell_fun _ _ _ _ _ _ CE H2). discriminate.
  - intros (i & j) [E|I]; [injection E as <- <-; apply V; exact H1|]. apply V' in I. destruct I as (v & CE). apply V. exact (H3 i j v CE).
Qed.
Theorem bounded : forall nr nc img ps, rect nr nc img -> valued img ps -> find (S (List.length ps)) img = Running -> exists l img', reaches snmap scale w psf fwhm thr img l img' /\ tied snmap thr img'.
Proof.
  intros nr nc img ps RI V. remember (List.length ps) as n eqn:LN. assert (LE : (List.length ps <= n)%nat) by lia. clear LN. revert img ps RI V LE. induction n as [|n IH]; intros img ps RI V LE H; (destruct (cases nr nc img RI) as [ST|[T|[(e' & FA)|(sn & r & c & img' & FO)]]]; [rewrite (stops_search _ nr nc img RI ST) in H; discriminate H|exists [], img; split; [constructor|exact T]|rewrite (fails_search _ nr nc img e' RI FA) in H; discriminate H|]).
  - pose proof (valued_less nr nc img sn r c img' ps (finite_pixels img') RI FO V (finite_valued nr nc img' (found_rect nr nc _ _ _ _ _ RI FO))). lia.
  - rewrite (found_search _ nr nc img sn r c img' RI FO) in H. pose proof (found_rect nr nc _ _ _ _ _ RI FO) as RI'. pose proof (valued_less nr nc img sn r c img' ps (finite_pixels img') RI FO V (finite_valued nr nc img' RI')) as LS. destruct (find (S n) img') as [l'| |] eqn:E; try discriminate H. destruct (IH img' (finite_pixels img') RI' (finite_valued nr nc img' RI') ltac:(lia) E) as (l & i & RE & T). exists ((sn, (r, c)) :: l), i. split; [exact (reach_next _ _ _ _ _ _ _ _ _ _ _ _ _ FO RE)|exact T].
Qed.
Theorem hangs_iff : forall nr nc img, rect nr nc img -> ((forall f, find f img = Running) <-> exists l img', reaches snmap scale w psf fwhm thr img l img' /\ tied snmap thr img').
Proof.
  intros nr nc img RI. split; [intros H; exact (bounded nr nc img _ RI (finite_valued nr nc img RI) (H _))|]. intros (l & i & RE & T). induction RE as [img|img sn r c img' l img'' F RE IH]; intros f; [exact (tied_search f nr nc img RI T)|]. destruct f as [|f]; [reflexivity|]. rewrite (found_search f nr nc img sn r c img' RI F), (IH (found_rect nr nc _ _ _ _ _ RI F) T f). reflexivity.
Qed.
Theorem distinct : forall nr nc img l img' ps, rect nr nc img -> reaches snmap scale w psf fwhm thr img l img' -> valued img ps ->
  NoDup (map snd l) /\ incl (map snd l) ps /\ (List.length l <= List.length ps)%nat /\ Forall (fun s => thr < fst s /\ clear_of_edges w nr nc (fst (snd s)) (snd (snd s))) l.
Proof.
  intros nr nc img l img' ps RI RE. revert ps. induction RE as [img|img sn r c img' l img'' F RE IH]; intros ps V; [split; [constructor|]; split; [intros x []|]; split; [cbn; lia|constructor]|].
  pose proof (found_rect nr nc _ _ _ _ _ RI F) as RI'. pose proof (finite_valued nr nc img' RI') as V'. destruct (IH RI' _ V') as (ND & IC & LE & FA). destruct (found_less nr nc img sn r c img' RI F) as (H1 & H2 & H3). pose proof (valued_less nr nc img sn r c img' ps _ RI F V V') as LS.
  split; [|split; [|split]].
  - cbn [map snd]. constructor; [|exact ND]. intros I. apply IC in I. apply (proj2 V') in I. destruct I as (v & CE). pose proof (cell_fun _ _ _ _ _ _ CE H2). discriminate.
  - intros (i & j) [E|I]; [injection E as <- <-; apply V; exact H1|]. apply IC, (proj2 V') in I. destruct I as (v & CE). apply (proj2 V). exact (H3 i j v CE).
  - cbn [List.length]. lia.
  - constructor; [|exact FA]. cbn [fst snd]. destruct F as (m & vs & E & B & LT & CL & _). destruct (snmap_pos nr nc img m RI E) as ((P & P') & _). rewrite (proj1 RI), (hd_rect _ nr nc img P RI) in CL. auto.
Qed.
End Loop.

(** ** The PSF and the mask *)
Theorem box_odd : forall fwhm, 0 < fwhm -> exists w, boxsize fwhm = (2 * w + 1)%nat /\ 3 * fwhm - 1 < INR (boxsize fwhm) <= 3 * fwhm + 1.
Proof.
  intros fwhm P. unfold boxsize. destruct (base_Int_part (fwhm * 3)) as (A & B). set (z := Int_part (fwhm * 3)) in *. assert (Z0 : (0 <= z)%Z) by (assert (-1 < IZR z) as H by lra; apply lt_IZR in H; lia).
  set (b := Z.to_nat z). assert (E : IZR z = INR b) by (unfold b; rewrite INR_IZR_INZ, Z2Nat.id by lia; reflexivity). rewrite E in *. clearbody b. destruct (Nat.even b) eqn:EV.
  - apply Nat.even_spec in EV. destruct EV as (k & ->). exists k. split; [lia|]. rewrite S_INR. lra.
  - assert (OD : Nat.odd b = true) by (unfold Nat.odd; rewrite EV; reflexivity). apply Nat.odd_spec in OD. destruct OD as (k & ->). exists k. split; [reflexivity|]. lra.
Qed.
Lemma gaussian_centred : forall fwhm w, boxsize fwhm = (2 * w + 1)%nat -> centred w (gaussian fwhm).
Proof. intros fwhm w E. unfold centred, gaussian. cbv zeta. rewrite <- E. split; [rewrite map_length, seq_length; reflexivity|]. intros row I. apply in_map_iff in I. destruct I as (i & <- & _). rewrite map_length, seq_length. reflexivity. Qed.
Lemma mask_in : forall fwhm i j, In (i, j) (mask_idx fwhm) <-> (i < boxsize fwhm /\ j < boxsize fwhm)%nat /\ pixels_apart (boxsize fwhm / 2) (boxsize fwhm / 2) i j <= fwhm / 2.
Proof.
  intros fwhm i j. unfold mask_idx. rewrite filter_In, in_prod_iff, !in_seq. cbn [fst snd]. rewrite idist_apart. replace (fwhm * (1 / 2)) with (fwhm / 2) by field. destruct (Rle_dec _ _) as [L|L].
  - split; [intros (H & _); split; [lia|exact L]|intros (H & _); split; [lia|reflexivity]].
  - split; [intros (_ & H); discriminate H|intros (_ & H); contradiction].
Qed.
Lemma apart_ge : forall a b i j, Rabs (INR i - INR a) <= pixels_apart a b i j /\ Rabs (INR j - INR b) <= pixels_apart a b i j.
Proof.
  intros a b i j. unfold pixels_apart. split; rewrite <- sqrt_Rsqr_abs; apply sqrt_le_1_alt; unfold Rsqr; [pose proof (pow2_ge_0 (INR j - INR b))|pose proof (pow2_ge_0 (INR i - INR a))]; nra.
Qed.
(** Every pixel within half a width of the centre is in the box. *)
Lemma mask_all : forall fwhm i j, 0 < fwhm -> (In (i, j) (mask_idx fwhm) <-> pixels_apart (boxsize fwhm / 2) (boxsize fwhm / 2) i j <= fwhm / 2).
Proof.
  intros fwhm i j P. rewrite mask_in. split; [tauto|]. intros H. split; [|exact H]. destruct (box_odd fwhm P) as (w & E & B1 & B2). rewrite E in *. assert (D : ((2 * w + 1) / 2 = w)%nat) by (replace (2 * w + 1)%nat with (1 + w * 2)%nat by lia; rewrite Nat.div_add by lia; reflexivity). rewrite D in *.
  destruct (apart_ge w w i j) as (G1 & G2). rewrite plus_INR, mult_INR in B1, B2. cbn [INR] in B1, B2. pose proof (Rle_abs (INR i - INR w)). pose proof (Rle_abs (INR j - INR w)).
  assert (L : forall k, INR k - INR w <= fwhm / 2 -> (k < 2 * w + 1)%nat).
  { intros k K. pose proof (pos_INR w). apply INR_lt. rewrite plus_INR, mult_INR. cbn [INR]. lra. }
  split; apply L; lra.
Qed.
Theorem mask_iff : forall fwhm w psf, 0 < fwhm -> centred w psf -> (boxsize fwhm <= 2 * w + 1)%nat -> exists mask, binary_mask fwhm psf = Ok mask /\ rect (2 * w + 1) (2 * w + 1) mask /\
  forall i j b, cell mask i j b -> (b = true <-> pixels_apart (boxsize fwhm / 2) (boxsize fwhm / 2) i j <= fwhm / 2).
Proof.
  intros fwhm w psf P CP LE. unfold binary_mask. rewrite (proj1 CP), (ncol_rect _ (2 * w + 1) (2 * w + 1) psf ltac:(lia) CP).
  rewrite (proj2 (forallb_forall _ (mask_idx fwhm))).
  - eexists. split; [reflexivity|]. split; [apply grid_rect; exact CP|]. intros i j b CE. apply cell_grid in CE. destruct CE as (x & _ & ->). rewrite existsb_exists, <- (mask_all fwhm i j P). split.
    + intros ((a & b) & I & E). cbn [fst snd] in E. apply andb_true_iff in E. destruct E as (E1 & E2). apply Nat.eqb_eq in E1, E2. subst. exact I.
    + intros I. exists (i, j). split; [exact I|]. cbn [fst snd]. rewrite !Nat.eqb_refl. reflexivity.
  - intros (a & b) I. apply mask_in in I. cbn [fst snd]. apply andb_true_iff. split; apply Nat.ltb_lt; lia.
Qed.
Lemma half_box : forall fwhm w, boxsize fwhm = (2 * w + 1)%nat -> (boxsize fwhm / 2 = w)%nat.
Proof. intros fwhm w ->. replace (2 * w + 1)%nat with (1 + w * 2)%nat by lia. rewrite Nat.div_add by lia. reflexivity. Qed.
(** The mask of a larger PSF is off its centre. *)
Theorem mask_off : forall fwhm w psf mask, 0 < fwhm -> centred w psf -> (boxsize fwhm < 2 * w + 1)%nat -> binary_mask fwhm psf = Ok mask ->
  exists h, (h < w)%nat /\ cell mask h h true /\ forall i j, cell mask i j true -> pixels_apart h h i j <= fwhm / 2.
Proof.
  intros fwhm w psf mask P CP LE E. destruct (mask_iff fwhm w psf P CP ltac:(lia)) as (mask' & E' & RM & M). rewrite E in E'. injection E' as <-. destruct (box_odd fwhm P) as (h & B & _). rewrite (half_box fwhm h B) in M. exists h. split; [lia|].
  split; [|intros i j CE; exact (proj1 (M i j true CE) eq_refl)]. destruct (proj2 (cell_in _ _ _ mask h h RM) ltac:(lia)) as (b & CE). replace true with b; [exact CE|]. apply (M h h b CE). unfold pixels_apart. replace ((INR h - INR h) ^ 2 + (INR h - INR h) ^ 2) with 0 by ring. rewrite sqrt_0. lra.
Qed.
Theorem find_default : forall cc stat scale img fwhm thr wop, 0 < fwhm -> exists w mask, centred w (gaussian fwhm) /\ boxsize fwhm = (2 * w + 1)%nat /\ rect (2 * w + 1) (2 * w + 1) mask
  /\ (forall i j b, cell mask i j b -> (b = true <-> pixels_apart w w i j <= fwhm / 2))
  /\ (forall i j p, cell (gaussian fwhm) i j p -> p = exp (- (pixels_apart w w i j ^ 2 * (4 * ln 2)) / fwhm ^ 2))
  /\ forall fuel, find_sources cc stat scale img None fwhm thr wop fuel = search cc stat scale (gaussian fwhm) fwhm thr mask wop fuel img.
Proof.
  intros cc stat scale img fwhm thr wop P. destruct (box_odd fwhm P) as (w & B & _). pose proof (gaussian_centred fwhm w B) as CP. destruct (mask_iff fwhm w (gaussian fwhm) P CP ltac:(lia)) as (mask & E & RM & M). rewrite (half_box fwhm w B) in M. exists w, mask. split; [exact CP|]. split; [exact B|]. split; [exact RM|]. split; [exact M|]. split.
  - intros i j p (row & R0 & V). unfold gaussian in R0. cbv zeta in R0. rewrite (half_box fwhm w B), B in R0.
    assert (SQ : forall n k x, nth_error (seq 0 n) k = Some x -> x = k). { intros n k x H. assert (k < n)%nat by (rewrite <- (seq_length n 0); apply nth_error_Some; congruence). rewrite (nth_error_nth' _ 0%nat) in H by (rewrite seq_length; assumption). rewrite seq_nth in H by assumption. injection H as <-. reflexivity. }
    rewrite nth_error_map in R0. destruct (nth_error (seq 0 (2 * w + 1)) i) as [x|] eqn:X; [|discriminate R0]. apply SQ in X. subst x. assert (HR := f_equal (fun o => match o with Some x => x | None => [] end) R0). cbn [option_map] in HR. subst row. rewrite nth_error_map in V. destruct (nth_error (seq 0 (2 * w + 1)) j) as [y|] eqn:Y; [|discriminate V]. apply SQ in Y. subst y. injection V as <-.
    f_equal. unfold pixels_apart. assert (L2 : 0 < ln 2) by (rewrite <- ln_1; apply ln_increasing; lra). rewrite pow2_sqrt by (pose proof (pow2_ge_0 (INR i - INR w)); pose proof (pow2_ge_0 (INR j - INR w)); lra). rewrite !minus_IZR, <- !INR_IZR_INZ.
    set (s := sqrt (2 * ln 2)). assert (SS : s * s = 2 * ln 2) by (apply sqrt_sqrt; lra). assert (SP : 0 < s) by (apply sqrt_lt_R0; lra). replace (4 * ln 2) with (2 * (s * s)) by lra. field. split; lra.
  - intros fuel. unfold find_sources. rewrite E. reflexivity.
Qed.
