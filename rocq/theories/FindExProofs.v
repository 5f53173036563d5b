(** Proofs on the source search: at the level of find_source; a worked case. *)
From Coq Require Import List Arith Bool Reals ZArith String Lia Lra.
From Verif Require Import Base NearModel NearProofs BpmSpec BpmProofs FindModel FindSpec FindProofs FindSubProofs FindLoopProofs.
Import ListNotations.
Local Open Scope R_scope.

(** An S/N map that keeps shape and NaN, made of a correlation and a statistic that do so. *)
Lemma keeps_parts : forall cc stat mask wop,
  (forall img nr nc, rect nr nc img -> rect nr nc (cc mask img) /\ forall r c, cell img r c None -> cell (cc mask img) r c None) ->
  (forall img o z nr nc, rect nr nc img -> rect nr nc (stat img o z) /\ forall r c, cell img r c None -> cell (stat img o z) r c None) ->
  keeps_nan (make_snmap cc stat mask wop).
Proof.
  intros cc stat mask wop H1 H2 img m nr nc RI E. unfold make_snmap in E. destruct (mask_radius img); cbn [bind] in E; [|discriminate E]. injection E as <-.
  destruct (H1 img nr nc RI) as (R1 & N1). destruct (H2 (cc mask img) (option_map (cc mask) wop) a nr nc R1) as (R2 & N2). split; [exact R2|]. intros r c CE. apply N2, N1, CE.
Qed.
Lemma all_nan : forall cc stat mask wop nr nc img, rect nr nc img -> (forall r c v, ~ cell img r c (Some v)) -> make_snmap cc stat mask wop img = Raise ValueError.
Proof. intros cc stat mask wop nr nc img RI N. unfold make_snmap. rewrite (proj2 (radius_raise nr nc img ValueError RI)); [reflexivity|auto]. Qed.
Lemma some_value : forall cc stat mask wop nr nc img r c v, rect nr nc img -> cell img r c (Some v) -> exists z, make_snmap cc stat mask wop img = Ok (stat (cc mask img) (option_map (cc mask) wop) z)
  /\ exists r' c' v', cell img r' c' (Some v') /\ IZR z - 1 < pixels_apart (nr / 2) (nc / 2) r' c' <= IZR z /\ forall a b u, cell img a b (Some u) -> pixels_apart (nr / 2) (nc / 2) r' c' <= pixels_apart (nr / 2) (nc / 2) a b.
Proof.
  intros cc stat mask wop nr nc img r c v RI CE. unfold make_snmap. destruct (mask_radius img) as [z|e] eqn:E; [|apply (radius_raise nr nc img e RI) in E; destruct E as (_ & N); destruct (N _ _ _ CE)]. exists z. split; [reflexivity|]. exact (proj1 (radius_iff nr nc img z RI) E).
Qed.
(** find_sources is the search with its mask *)
Lemma with_mask : forall cc stat scale img psf fwhm thr wop fuel mask, binary_mask fwhm psf = Ok mask -> find_sources cc stat scale img (Some psf) fwhm thr wop fuel = search cc stat scale psf fwhm thr mask wop fuel img.
Proof. intros. unfold find_sources. rewrite H. reflexivity. Qed.
Lemma small_psf : forall cc stat scale img psf fwhm thr wop fuel w, 0 < fwhm -> centred w psf -> IZR (Z.of_nat (2 * w + 1)) <= INR (boxsize fwhm / 2) -> find_sources cc stat scale img (Some psf) fwhm thr wop fuel = Failed IndexError.
Proof.
  intros cc stat scale img psf fwhm thr wop fuel w P CP LE. unfold find_sources, binary_mask. rewrite <- INR_IZR_INZ in LE. apply INR_le in LE. destruct (box_odd fwhm P) as (h & B & _). assert (L : (boxsize fwhm / 2 < boxsize fwhm)%nat) by (apply Nat.div_lt; lia). assert (I : In (boxsize fwhm / 2, boxsize fwhm / 2)%nat (mask_idx fwhm)).
  { unfold mask_idx. apply filter_In. split; [apply in_prod; apply in_seq; (split; [lia|exact L])|]. cbn [fst snd]. unfold idist. rewrite !Z.sub_diag. replace (0 ^ 2 + 0 ^ 2) with 0 by ring. rewrite sqrt_0. destruct (Rle_dec 0 (fwhm * (1 / 2))); [reflexivity|lra]. }
  destruct (forallb _ (mask_idx fwhm)) eqn:F; [|reflexivity]. exfalso. rewrite forallb_forall in F. specialize (F _ I). cbn [fst snd] in F. apply andb_true_iff in F. destruct F as (F & _). apply Nat.ltb_lt in F. rewrite (proj1 CP) in F. lia.
Qed.

(** ** A case: the map is the image, the PSF one pixel *)
Definition same_map (mask : list (list bool)) (img : list (list (option R))) : list (list (option R)) := img.
Definition same_stat (img : list (list (option R))) (o : option (list (list (option R)))) (z : Z) : list (list (option R)) := img.
Definition unit_scale (vs : list (option R)) (ps : list R) : option R := hd None vs.
Definition ex_img : list (list (option R)) := [[Some 10; Some 7; None]].
Definition ex_psf : list (list R) := [[1]].
Definition ex_fwhm : R := / 3.
Lemma ex_box : boxsize ex_fwhm = 1%nat.
Proof. destruct (box_odd ex_fwhm) as (w & B & H); [unfold ex_fwhm; lra|]. unfold ex_fwhm in *. rewrite B in *. replace (3 * / 3) with 1 in H by field. assert (L : INR (2 * w + 1) <= INR 2) by (cbn [INR] in *; lra). apply INR_le in L. lia. Qed.
Lemma ex_mask : exists mask, binary_mask ex_fwhm ex_psf = Ok mask.
Proof. destruct (mask_iff ex_fwhm 0 ex_psf) as (mask & E & _); [unfold ex_fwhm; lra|split; [reflexivity|intros row [<-|[]]; reflexivity]|rewrite ex_box; cbn; lia|]. eauto. Qed.
Lemma ex_centred : centred 0 ex_psf. Proof. split; [reflexivity|intros row [<-|[]]; reflexivity]. Qed.
Lemma ex_keeps : forall mask wop, keeps_nan (make_snmap same_map same_stat mask wop).
Proof. intros. apply keeps_parts; intros; split; auto. Qed.
Lemma rect1 : forall A (a b c : A), rect 1 3 [[a; b; c]]. Proof. intros. split; [reflexivity|intros row [<-|[]]; reflexivity]. Qed.
Lemma cell1 : forall A (a b c v : A) i j, cell [[a; b; c]] i j v <-> i = 0%nat /\ ((j = 0%nat /\ v = a) \/ (j = 1%nat /\ v = b) \/ (j = 2%nat /\ v = c)).
Proof.
  intros. split.
  - intros (row & R0 & V). destruct i as [|[|]]; try discriminate R0. injection R0 as <-. split; [reflexivity|]. destruct j as [|[|[|[|]]]]; try discriminate V; injection V as <-; auto.
  - intros (-> & [[-> ->]|[[-> ->]|[-> ->]]]); eexists; split; reflexivity.
Qed.
Lemma ex_snmap : forall mask wop a b c v, a = Some v \/ b = Some v -> make_snmap same_map same_stat mask wop [[a; b; c]] = Ok [[a; b; c]].
Proof.
  intros mask wop a b c v H. assert (exists j, cell [[a; b; c]] 0 j (Some v)) as (j & CE). { destruct H as [-> | ->]; [exists 0%nat|exists 1%nat]; apply cell1; auto 8. }
  destruct (some_value same_map same_stat mask wop 1 3 _ 0 j v (rect1 _ a b c) CE) as (z & E & _). exact E.
Qed.
(** the first source, at the left *)
Lemma ex_found : forall mask thr wop, thr < 10 -> found (make_snmap same_map same_stat mask wop) unit_scale 0 ex_psf ex_fwhm thr ex_img 10 0 0 [[None; Some 7; None]].
Proof.
  intros mask thr wop T. exists ex_img, [Some 10]. split; [apply ex_snmap with 10; auto|]. split; [split; [apply cell1; auto|]; intros r' c' v' CE; apply cell1 in CE; destruct CE as (-> & [[-> H]|[[-> H]|[-> H]]]); try discriminate H; injection H as ->; split; [lra|lia|lra|lia]|].
  split; [exact T|]. split; [cbn; unfold clear_of_edges; lia|]. split.
  - split; [reflexivity|]. intros a b v A B H. assert (a = 0 /\ b = 0)%nat as (-> & ->) by lia. cbn in H. injection H as <-. cbn. apply cell1. auto.
  - split; [exists 1%nat, 3%nat; split; apply rect1|]. intros i j v' CE. apply cell1 in CE. destruct CE as (-> & CE). cbv zeta. destruct CE as [[-> ->]|[[-> ->]|[-> ->]]].
    + split; [intros H; exfalso; apply H; lia|]. split; [reflexivity|]. intros _ H. exfalso. revert H. unfold pixels_apart, ex_fwhm. replace ((INR 0 - INR 0) ^ 2 + (INR 0 - INR 0) ^ 2) with 0 by ring. rewrite sqrt_0. lra.
    + split; [intros _; apply cell1; auto|]. split; intros H; exfalso; lia.
    + split; [intros _; apply cell1; auto|]. split; intros H; exfalso; lia.
Qed.
Lemma ex_done : forall wop, exists fuel, find_sources same_map same_stat unit_scale ex_img (Some ex_psf) ex_fwhm 8 wop fuel = Done [(10, (0%nat, 0%nat))].
Proof.
  intros wop. destruct ex_mask as (mask & E). destruct (proj2 (done_iff same_map same_stat unit_scale 0 ex_psf ex_fwhm 8 mask wop ex_centred (ex_keeps mask wop) 1 3 ex_img [(10, (0%nat, 0%nat))] (rect1 _ _ _ _))) as (f & F).
  - exists [[None; Some 7; None]]. split; [eapply reach_next; [apply ex_found; lra|constructor]|]. exists [[None; Some 7; None]]. split; [apply ex_snmap with 7; auto|]. split; [discriminate|]. intros r c v CE. apply cell1 in CE. destruct CE as (-> & [[-> H]|[[-> H]|[-> H]]]); try discriminate H. injection H as ->. lra.
  - exists f. rewrite (with_mask _ _ _ _ _ _ _ _ _ _ E). exact F.
Qed.
Lemma ex_hangs : forall wop fuel, find_sources same_map same_stat unit_scale ex_img (Some ex_psf) ex_fwhm 7 wop fuel = Running.
Proof.
  intros wop fuel. destruct ex_mask as (mask & E). rewrite (with_mask _ _ _ _ _ _ _ _ _ _ E).
  apply (proj2 (hangs_iff same_map same_stat unit_scale 0 ex_psf ex_fwhm 7 mask wop ex_centred (ex_keeps mask wop) ltac:(unfold ex_fwhm; lra) 1 3 ex_img (rect1 _ _ _ _))).
  exists [(10, (0%nat, 0%nat))], [[None; Some 7; None]]. split; [eapply reach_next; [apply ex_found; lra|constructor]|]. exists [[None; Some 7; None]], 0%nat, 1%nat. split; [apply ex_snmap with 7; auto|]. split; [apply cell1; auto|]. intros r' c' v' CE. apply cell1 in CE. destruct CE as (-> & [[-> H]|[[-> H]|[-> H]]]); try discriminate H. injection H as ->. split; [lra|lia].
Qed.
Lemma ex_edge : forall wop, exists fuel, find_sources same_map same_stat unit_scale ex_img (Some [[0; 0; 0]; [0; 1; 0]; [0; 0; 0]]) ex_fwhm 8 wop fuel = Failed ValueError.
Proof.
  intros wop. assert (CP : centred 1 [[0; 0; 0]; [0; 1; 0]; [0; 0; 0]]) by (split; [reflexivity|intros row [<-|[<-|[<-|[]]]]; reflexivity]).
  destruct (mask_iff ex_fwhm 1 _ ltac:(unfold ex_fwhm; lra) CP) as (mask & E & _); [rewrite ex_box; cbn; lia|].
  destruct (proj2 (failed_iff same_map same_stat unit_scale 1 _ ex_fwhm 8 mask wop CP (ex_keeps mask wop) 1 3 ex_img ValueError (rect1 _ _ _ _))) as (f & F).
  - exists [], ex_img. split; [constructor|]. right. exists ex_img. split; [apply ex_snmap with 10; auto|]. split; [reflexivity|]. right. exists 0%nat, 0%nat, 10. split; [|split; [lra|unfold clear_of_edges; lia]]. split; [apply cell1; auto|]. intros r' c' v' CE; apply cell1 in CE; destruct CE as (-> & [[-> H]|[[-> H]|[-> H]]]); try discriminate H; injection H as ->; split; [lra|lia|lra|lia].
  - exists f. rewrite (with_mask _ _ _ _ _ _ _ _ _ _ E). exact F.
Qed.
Lemma default_psf : forall cc stat scale img fwhm thr wop, 0 < fwhm -> exists w mask, centred w (gaussian fwhm) /\ boxsize fwhm = (2 * w + 1)%nat /\ rect (2 * w + 1) (2 * w + 1) mask
  /\ binary_mask fwhm (gaussian fwhm) = Ok mask
  /\ (forall i j b, cell mask i j b -> (b = true <-> pixels_apart w w i j <= fwhm / 2))
  /\ (forall i j p, cell (gaussian fwhm) i j p -> p = exp (- (pixels_apart w w i j ^ 2 * (4 * ln 2)) / fwhm ^ 2))
  /\ forall fuel, find_sources cc stat scale img None fwhm thr wop fuel = find_sources cc stat scale img (Some (gaussian fwhm)) fwhm thr wop fuel.
Proof.
  intros cc stat scale img fwhm thr wop P. destruct (find_default cc stat scale img fwhm thr wop P) as (w & _ & CP & B & _ & _ & G & _). destruct (mask_iff fwhm w _ P CP ltac:(lia)) as (mask & E & RM & M). rewrite (half_box fwhm w B) in M. exists w, mask. split; [exact CP|]. split; [exact B|]. split; [exact RM|]. split; [exact E|]. split; [exact M|]. split; [exact G|]. reflexivity.
Qed.
Lemma mask_larger : forall fwhm w psf, 0 < fwhm -> centred w psf -> (boxsize fwhm < 2 * w + 1)%nat -> exists mask, binary_mask fwhm psf = Ok mask /\
  exists h, (h < w)%nat /\ cell mask h h true /\ forall i j, cell mask i j true -> pixels_apart h h i j <= fwhm / 2.
Proof. intros fwhm w psf P CP L. destruct (mask_iff fwhm w psf P CP ltac:(lia)) as (mask & E & _). exists mask. split; [exact E|]. exact (mask_off fwhm w psf mask P CP L E). Qed.
