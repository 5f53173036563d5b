(** C39: the search for sources. *)
From Coq Require Import List Arith Bool Reals ZArith String Lia Lra.
From Verif Require Import Base BpmSpec FindModel FindSpec FindProofs FindSubProofs FindLoopProofs FindExProofs.
Import ListNotations.
Local Open Scope R_scope.

(** The search returns these sources iff they are the successive brightest pixels of the S/N map
    above the threshold, each removed before the next, until no pixel of the map reaches the threshold. *)
Theorem C39_done : forall cc stat scale w psf fwhm thr mask wop nr nc img l,
  centred w psf -> keeps_nan (make_snmap cc stat mask wop) -> rect nr nc img -> binary_mask fwhm psf = Ok mask ->
  ((exists fuel, find_sources cc stat scale img (Some psf) fwhm thr wop fuel = Done l) <->
   exists img', reaches (make_snmap cc stat mask wop) scale w psf fwhm thr img l img' /\ stops (make_snmap cc stat mask wop) thr img').
Proof. intros until l. intros CP KN RI E. rewrite <- (done_iff cc stat scale w psf fwhm thr mask wop CP KN nr nc img l RI). split; intros (f & F); exists f; [rewrite <- (with_mask cc stat scale img psf fwhm thr wop f mask E)|rewrite (with_mask cc stat scale img psf fwhm thr wop f mask E)]; exact F. Qed.
Print Assumptions C39_done.

(** It raises iff after some sources the map cannot be made, is empty, or its brightest pixel is
    nearer to an edge than half the PSF. *)
Theorem C39_failed : forall cc stat scale w psf fwhm thr mask wop nr nc img e,
  centred w psf -> keeps_nan (make_snmap cc stat mask wop) -> rect nr nc img -> binary_mask fwhm psf = Ok mask ->
  ((exists fuel, find_sources cc stat scale img (Some psf) fwhm thr wop fuel = Failed e) <->
   exists l img', reaches (make_snmap cc stat mask wop) scale w psf fwhm thr img l img' /\ fails (make_snmap cc stat mask wop) w thr img' e).
Proof. intros until e. intros CP KN RI E. rewrite <- (failed_iff cc stat scale w psf fwhm thr mask wop CP KN nr nc img e RI). split; intros (f & F); exists f; [rewrite <- (with_mask cc stat scale img psf fwhm thr wop f mask E)|rewrite (with_mask cc stat scale img psf fwhm thr wop f mask E)]; exact F. Qed.
Print Assumptions C39_failed.

(** The positions are distinct pixels of the image that had a value, each above the threshold and
    clear of the edges; so there are no more of them than such pixels. *)
Theorem C39_distinct : forall cc stat scale w psf fwhm thr mask wop nr nc img l ps fuel,
  centred w psf -> keeps_nan (make_snmap cc stat mask wop) -> 0 < fwhm -> rect nr nc img -> binary_mask fwhm psf = Ok mask -> valued img ps ->
  find_sources cc stat scale img (Some psf) fwhm thr wop fuel = Done l ->
  NoDup (map snd l) /\ incl (map snd l) ps /\ (List.length l <= List.length ps)%nat /\ Forall (fun s => thr < fst s /\ clear_of_edges w nr nc (fst (snd s)) (snd (snd s))) l.
Proof. intros until fuel. intros CP KN P RI E V H. rewrite (with_mask cc stat scale img psf fwhm thr wop fuel mask E) in H. destruct (proj1 (done_iff cc stat scale w psf fwhm thr mask wop CP KN nr nc img l RI) (ex_intro _ fuel H)) as (img' & RE & _). exact (distinct cc stat scale w psf fwhm thr mask wop KN P nr nc img l img' ps RI RE V). Qed.
Print Assumptions C39_distinct.

(** It ends within one round more than there are pixels with a value, unless the map comes to have
    exactly the threshold as its largest value. *)
Theorem C39_terminates : forall cc stat scale w psf fwhm thr mask wop nr nc img ps,
  centred w psf -> keeps_nan (make_snmap cc stat mask wop) -> 0 < fwhm -> rect nr nc img -> binary_mask fwhm psf = Ok mask -> valued img ps ->
  (forall l img', reaches (make_snmap cc stat mask wop) scale w psf fwhm thr img l img' -> ~ tied (make_snmap cc stat mask wop) thr img') ->
  find_sources cc stat scale img (Some psf) fwhm thr wop (S (List.length ps)) <> Running.
Proof. intros until ps. intros CP KN P RI E V NT H. rewrite (with_mask cc stat scale img psf fwhm thr wop _ mask E) in H. destruct (bounded cc stat scale w psf fwhm thr mask wop CP KN P nr nc img ps RI V H) as (l & img' & RE & T). exact (NT l img' RE T). Qed.
Print Assumptions C39_terminates.
(** In that case it never ends. *)
Theorem C39_terminates_refuted : forall cc stat scale w psf fwhm thr mask wop nr nc img,
  centred w psf -> keeps_nan (make_snmap cc stat mask wop) -> 0 < fwhm -> rect nr nc img -> binary_mask fwhm psf = Ok mask ->
  ((forall fuel, find_sources cc stat scale img (Some psf) fwhm thr wop fuel = Running) <->
   exists l img', reaches (make_snmap cc stat mask wop) scale w psf fwhm thr img l img' /\ tied (make_snmap cc stat mask wop) thr img').
Proof. intros until img. intros CP KN P RI E. rewrite <- (hangs_iff cc stat scale w psf fwhm thr mask wop CP KN P nr nc img RI). split; intros H f; [rewrite <- (with_mask cc stat scale img psf fwhm thr wop f mask E)|rewrite (with_mask cc stat scale img psf fwhm thr wop f mask E)]; apply H. Qed.
Print Assumptions C39_terminates_refuted.
(** The map is made with the distance of the valued pixel nearest to the centre, rounded up. *)
Theorem C39_map : forall cc stat mask wop nr nc img r c v, rect nr nc img -> cell img r c (Some v) -> exists z, make_snmap cc stat mask wop img = Ok (stat (cc mask img) (option_map (cc mask) wop) z)
  /\ exists r' c' v', cell img r' c' (Some v') /\ IZR z - 1 < pixels_apart (nr / 2) (nc / 2) r' c' <= IZR z /\ forall a b u, cell img a b (Some u) -> pixels_apart (nr / 2) (nc / 2) r' c' <= pixels_apart (nr / 2) (nc / 2) a b.
Proof. exact some_value. Qed.
Print Assumptions C39_map.
(** An image without a value is refused. *)
Theorem C39_all_nan : forall cc stat mask wop nr nc img, rect nr nc img -> (forall r c v, ~ cell img r c (Some v)) -> make_snmap cc stat mask wop img = Raise ValueError.
Proof. exact all_nan. Qed.
Print Assumptions C39_all_nan.

(** Without a PSF a Gaussian of the given width is used, and the mask is its core. *)
Theorem C39_default : forall cc stat scale img fwhm thr wop, 0 < fwhm -> exists w mask, centred w (gaussian fwhm) /\ boxsize fwhm = (2 * w + 1)%nat /\ rect (2 * w + 1) (2 * w + 1) mask
  /\ binary_mask fwhm (gaussian fwhm) = Ok mask
  /\ (forall i j b, cell mask i j b -> (b = true <-> pixels_apart w w i j <= fwhm / 2))
  /\ (forall i j p, cell (gaussian fwhm) i j p -> p = exp (- (pixels_apart w w i j ^ 2 * (4 * ln 2)) / fwhm ^ 2))
  /\ forall fuel, find_sources cc stat scale img None fwhm thr wop fuel = find_sources cc stat scale img (Some (gaussian fwhm)) fwhm thr wop fuel.
Proof. exact default_psf. Qed.
Print Assumptions C39_default.
Theorem C39_box : forall fwhm, 0 < fwhm -> exists w, boxsize fwhm = (2 * w + 1)%nat /\ 3 * fwhm - 1 < INR (boxsize fwhm) <= 3 * fwhm + 1.
Proof. exact box_odd. Qed.
Print Assumptions C39_box.
(** A PSF of another size than the box has its mask off centre, or none. *)
Theorem C39_mask_refuted : forall fwhm w psf, 0 < fwhm -> centred w psf -> (boxsize fwhm < 2 * w + 1)%nat -> exists mask, binary_mask fwhm psf = Ok mask /\
  exists h, (h < w)%nat /\ cell mask h h true /\ forall i j, cell mask i j true -> pixels_apart h h i j <= fwhm / 2.
Proof. exact mask_larger. Qed.
Print Assumptions C39_mask_refuted.
Theorem C39_small_psf_refuted : forall cc stat scale img psf fwhm thr wop fuel w, 0 < fwhm -> centred w psf -> IZR (Z.of_nat (2 * w + 1)) <= INR (boxsize fwhm / 2) -> find_sources cc stat scale img (Some psf) fwhm thr wop fuel = Failed IndexError.
Proof. exact small_psf. Qed.
Print Assumptions C39_small_psf_refuted.

(** Cases: a map that is the image, a PSF of one pixel.  At threshold 8 the pixel of 10 is found; at
    threshold 7, the value of the other pixel, the search does not end. *)
Example C39_done_case : forall wop, exists fuel, find_sources same_map same_stat unit_scale ex_img (Some ex_psf) ex_fwhm 8 wop fuel = Done [(10, (0%nat, 0%nat))].
Proof. exact ex_done. Qed.
Example C39_hangs_case : forall wop fuel, find_sources same_map same_stat unit_scale ex_img (Some ex_psf) ex_fwhm 7 wop fuel = Running.
Proof. exact ex_hangs. Qed.
Example C39_hypotheses_case : centred 0 ex_psf /\ (forall mask wop, keeps_nan (make_snmap same_map same_stat mask wop)) /\ 0 < ex_fwhm /\ rect 1 3 ex_img /\ exists mask, binary_mask ex_fwhm ex_psf = Ok mask.
Proof. split; [exact ex_centred|]. split; [exact ex_keeps|]. split; [unfold ex_fwhm; lra|]. split; [apply rect1|exact ex_mask]. Qed.
Example C39_edge_case : forall wop, exists fuel, find_sources same_map same_stat unit_scale ex_img (Some [[0; 0; 0]; [0; 1; 0]; [0; 0; 0]]) ex_fwhm 8 wop fuel = Failed ValueError.
Proof. exact ex_edge. Qed.
