(** C38: nearest-neighbour lookups. *)
From Coq Require Import List Arith Bool Reals ZArith String Lia Lra.
From Verif Require Import Base DqModel AngleModel AngleSpec ComboSpec NearModel NearSpec NearProofs NearFactsProofs.
Import ListNotations.
Local Open Scope R_scope.

(** The core throughput at a separation is that of the first entry whose own separation from the
    star is nearest to it. *)
Theorem C38_throughput : forall table h seps out, get_1d_ct table h seps true = Ok out <->
  exists x y cx cy, starx h = Some x /\ stary h = Some y /\ corner (det0x h) cx /\ corner (det0y h) cy /\ fst out = seps
    /\ Forall2 (fun sep ct => exists i e, nearest_of (fun e => Rabs (sep - dist (x + cx + / 2, y + cy + / 2) (fst e))) table i e /\ ct = snd e) seps (snd out).
Proof. exact ct_iff'. Qed.
Print Assumptions C38_throughput.
Theorem C38_throughput_total : forall table h seps x y, starx h = Some x -> stary h = Some y -> (table <> [] \/ seps = []) -> exists cts, get_1d_ct table h seps true = Ok (seps, cts).
Proof. exact ct_total. Qed.
Print Assumptions C38_throughput_total.
Theorem C38_other_method : forall table h seps x y, starx h = Some x -> stary h = Some y -> get_1d_ct table h seps false = Raise NotImplementedError.
Proof. exact ct_other. Qed.
Print Assumptions C38_other_method.

(** The PSF is the first whose position is nearest to the place asked for. *)
Theorem C38_psf : forall P (positions : list (R * R)) (psfs : list P) cenx ceny dx dy p,
  get_closest_psf positions psfs cenx ceny dx dy = Ok p <-> exists i q, nearest_of (fun q => dist (cenx + dx + / 2, ceny + dy + / 2) q) positions i q /\ nth_error psfs i = Some p.
Proof. exact psf_iff. Qed.
Print Assumptions C38_psf.
Theorem C38_injected : forall P (positions : list (R * R)) (psfs : list P) h roll sep pa p,
  injected_psf positions psfs h roll sep pa = Ok p <-> exists x y i q, starx h = Some x /\ stary h = Some y
   /\ nearest_of (fun q => dist (x + (- sep * sin (rad (pa - roll))) + / 2, y + sep * cos (rad (pa - roll)) + / 2) q) positions i q /\ nth_error psfs i = Some p.
Proof. exact injected_iff. Qed.
Print Assumptions C38_injected.

(** GetPSF: the targets within the range of the table, each with the PSF nearest by rounded radius,
    then by rounded azimuth, two equally near ones averaged. *)
Theorem C38_get_psf : forall P (average : P -> P -> P) positions psfs fpm xs ys out ts,
  get_psf average positions psfs fpm xs ys true = Ok (out, ts) <->
  let grid := map (fun p => (fst p - fst fpm, snd p - snd fpm)) positions in
  List.length xs = List.length ys /\ sieve (in_range grid) (combine xs ys) ts /\ ts <> [] /\ Forall2 (chosen grid average psfs) ts out.
Proof. exact get_psf_iff. Qed.
Print Assumptions C38_get_psf.
Theorem C38_get_psf_error : forall P (average : P -> P -> P) positions psfs fpm xs ys polar e, List.length psfs = List.length positions -> get_psf average positions psfs fpm xs ys polar = Raise e -> e = ValueError.
Proof. exact get_psf_error. Qed.
Print Assumptions C38_get_psf_error.

Lemma ex_far : forall x, 0 <= x -> dist (0, 0) (x, 0) = x.
Proof. exact far_x. Qed.
Lemma ex_sep : forall x, 0 <= x -> dist (0 + 0 + / 2, 0 + 0 + / 2) (x + / 2, / 2) = x.
Proof. intros x H. rewrite <- (ex_far x H) at 2. unfold dist. cbn [fst snd]. f_equal. ring. Qed.
Lemma ex_nearest : nearest_of (fun e : R * R * R => Rabs (4 - dist (0 + 0 + / 2, 0 + 0 + / 2) (fst e))) [((1 + / 2, / 2), 10); ((3 + / 2, / 2), 20); ((5 + / 2, / 2), 30)] 1 ((3 + / 2, / 2), 20).
Proof.
  split; [reflexivity|]. cbn [fst]. intros j b B. destruct j as [|[|[|j]]]; [| | |destruct j; discriminate B]; injection B as <-; cbn [fst]; rewrite !ex_sep by lra; (split; [|intros L; try lia]); unfold Rabs; repeat destruct (Rcase_abs _); try lra.
Qed.
Example C38_throughput_case : get_1d_ct [((1 + / 2, / 2), 10); ((3 + / 2, / 2), 20); ((5 + / 2, / 2), 30)] (mkct (Some 0) (Some 0) None (Some 0)) [4] true = Ok ([4], [20]).
Proof.
  apply C38_throughput. exists 0, 0, 0, 0. split; [reflexivity|]. split; [reflexivity|]. split; [right; auto|]. split; [left; reflexivity|]. split; [reflexivity|]. constructor; [|constructor]. exists 1%nat, ((3 + / 2, / 2), 20). split; [exact ex_nearest|reflexivity].
Qed.
Example C38_psf_case : get_closest_psf [(1 + / 2, / 2); (3 + / 2, / 2)] [true; false] 0 0 3 0 = Ok false.
Proof.
  apply C38_psf. exists 1%nat, (3 + / 2, / 2). split; [|reflexivity]. split; [reflexivity|].
  assert (D : forall a b, dist (0 + a + / 2, 0 + 0 + / 2) (b + / 2, / 2) = Rabs (b - a)) by (intros a b; unfold dist; cbn [fst snd]; replace ((b + / 2 - (0 + a + / 2)) ^ 2 + (/ 2 - (0 + 0 + / 2)) ^ 2) with (Rsqr (b - a)) by (unfold Rsqr; ring); apply sqrt_Rsqr_abs).
  rewrite D. intros [|[|j]] b B; [| |destruct j; discriminate B]; injection B as <-; rewrite D; (split; [|intros L; try lia]); unfold Rabs; repeat destruct (Rcase_abs _); lra.
Qed.
Example C38_get_psf_case : get_psf andb [(1, 0)] [true] (0, 0) [1; 9] [0; 0] true = Ok ([true], [(1, 0)]).
Proof.
  apply C38_get_psf. cbn [map fst snd combine]. replace (1 - 0, 0 - 0) with (1, 0) by (f_equal; ring). split; [reflexivity|]. split.
  - constructor; [split; exists (1, 0); (split; [left; reflexivity|lra])|]. apply sieve_out; [|constructor]. intros (_ & g & [<-|[]] & H). unfold far in H. rewrite !ex_far in H by lra. lra.
  - split; [discriminate|]. constructor; [|constructor]. left. exists 0%nat. split; [|reflexivity]. intros j. split; [intros (L & _); cbn in L; lia|]. intros ->. apply (half_pixel _ _ 0%nat (1, 0)); [reflexivity|]. replace (far (1, 0) - far (1, 0)) with 0 by ring. rewrite Rabs_R0. lra.
Qed.

(** The documented tenth of a pixel is a whole pixel: every entry within half a pixel counts as
    being at the radius asked for, and one at that very radius may lose to one that is not. *)
Theorem C38_round_refuted : forall grid t i g, nth_error grid i = Some g -> Rabs (far t - far g) <= / 2 -> radially_near grid t i.
Proof. exact half_pixel. Qed.
Print Assumptions C38_round_refuted.
Theorem C38_radius_refuted : forall P (average : P -> P -> P) (p q : P) r e, 1 <= r -> 0 < e <= / 2 ->
  far (0, r) = far (r, 0) /\ far (r + e, 0) <> far (r, 0) /\ psf_at average [(0, r); (r + e, 0)] [p; q] (r, 0) = Ok q.
Proof. exact round_loses. Qed.
Print Assumptions C38_radius_refuted.
(** Azimuths are compared without going round: the entry just across the cut loses. *)
Theorem C38_azimuth_refuted : forall P (average : P -> P -> P) (p q : P) a b, 1 <= a -> 0 < b < a ->
  far (- a, - b) = far (- a, b) /\ far (a, b) = far (- a, b) /\ dist (- a, b) (- a, - b) < dist (- a, b) (a, b) /\ psf_at average [(- a, - b); (a, b)] [p; q] (- a, b) = Ok q.
Proof. exact cut_loses. Qed.
Print Assumptions C38_azimuth_refuted.
Example C38_azimuth_case : psf_at andb [(- (6), - (1)); (6, 1)] [true; false] (- (6), 1) = Ok false.
Proof. apply (C38_azimuth_refuted bool andb true false 6 1); lra. Qed.
(** In a cropped frame inject_psf takes the PSF of the wrong place, off by the corner of the crop. *)
Theorem C38_crop_refuted : forall P (p q : P) (u v x y cx cy roll sep pa : R), (cx, cy) <> (0, 0) -> 0 <= sep ->
  let h := mkct (Some x) (Some y) (Some cx) (Some cy) in
  let there := (x + (- sep * sin (rad (pa - roll))) + / 2, y + sep * cos (rad (pa - roll)) + / 2) in let here := (fst there + cx, snd there + cy) in
  get_1d_ct [(here, u); (there, v)] h [sep] true = Ok ([sep], [u]) /\ injected_psf [here; there] [p; q] h roll sep pa = Ok q.
Proof. exact crop_differs. Qed.
Print Assumptions C38_crop_refuted.

(** The KL throughput of the forward model: the nearest separation, the row named by the index... *)
Theorem C38_kl : forall table mode guess v, kl_throughput table mode guess = Ok v <->
  exists seps row i s, nth_error table 0 = Some seps /\ nearest_of (fun x => Rabs (x - guess)) seps i s /\ named_by table mode row /\ nth_error row i = Some v.
Proof. exact kl_iff. Qed.
Print Assumptions C38_kl.
(** ...which from the end is the mode meant, but from the start one too early, mode 0 being the
    separation itself. *)
Theorem C38_kl_end : forall seps modes guess k i s v, nearest_of (fun x => Rabs (x - guess)) seps i s -> (k < List.length modes)%nat ->
  (kl_throughput (seps :: modes) (- Z.of_nat (S k)) guess = Ok v <-> exists row, named_by modes (- Z.of_nat (S k)) row /\ nth_error row i = Some v).
Proof. exact kl_end. Qed.
Print Assumptions C38_kl_end.
Theorem C38_kl_zero_refuted : forall seps modes guess i s, nearest_of (fun x => Rabs (x - guess)) seps i s -> kl_throughput (seps :: modes) 0 guess = Ok s.
Proof. exact kl_separation. Qed.
Print Assumptions C38_kl_zero_refuted.
Theorem C38_kl_shift_refuted : forall seps modes guess k i s v, nearest_of (fun x => Rabs (x - guess)) seps i s ->
  (kl_throughput (seps :: modes) (Z.of_nat (S k)) guess = Ok v <-> exists row, nth_error modes k = Some row /\ nth_error row i = Some v).
Proof. exact kl_shift. Qed.
Print Assumptions C38_kl_shift_refuted.
Example C38_kl_case : kl_throughput [[5; 10]; [1 / 2; 1 / 3]] (-1) 9 = Ok (1 / 3) /\ kl_throughput [[5; 10]; [1 / 2; 1 / 3]] 0 9 = Ok 10.
Proof.
  assert (N : nearest_of (fun x => Rabs (x - 9)) [5; 10] 1 10). { split; [reflexivity|]. intros [|[|j]] b B; [| |destruct j; discriminate B]; injection B as <-; (split; [|intros L; try lia]); unfold Rabs; repeat destruct (Rcase_abs _); lra. }
  split; [apply (C38_kl_end [5; 10] [[1 / 2; 1 / 3]] 9 0 1 10 (1 / 3) N); [cbn; lia|]; exists [1 / 2; 1 / 3]; split; [right; exists 0%nat; auto|reflexivity]|]. exact (C38_kl_zero_refuted _ _ _ _ _ N).
Qed.
