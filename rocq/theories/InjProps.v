(** C82: the injection of a PSF into a frame. *)
From Coq Require Import List Arith Bool Reals ZArith Lia Lra Permutation.
From Verif Require Import Base AngleModel AngleSpec NearModel NearSpec CombineModel FlatModel ThruModel InjModel InjSpec InjProofs InjLawProofs.
Import ListNotations.
Local Open Scope R_scope.

(** The result, exactly: the place is the polar one that is painted at, seen from the star. *)
Theorem C82_injected : forall paint positions psfs f s g m xy,
  inject_psf paint positions psfs f s = Ok (g, (m, xy)) <->
  exists roll x y psf peak data, f_roll f = Some roll /\ f_starx f = Some x /\ f_stary f = Some y
  /\ xy = polar (x, y) (s_sep s) (s_pa s - roll + 90) /\ ClosestPsf positions psfs xy psf /\ Peak psf peak
  /\ m = scale (vdiv (s_amp s) peak) psf /\ paint (f_data f) (x, y) m (s_sep s) (s_pa s - roll + 90) = Ok data /\ g = with_data data f.
Proof. exact inject_iff. Qed.
Print Assumptions C82_injected.
Theorem C82_model : forall paint positions psfs f s g m xy, inject_psf paint positions psfs f s = Ok (g, (m, xy)) ->
  exists psf peak, ClosestPsf positions psfs xy psf /\ Peak psf peak /\ ScaledBy (s_amp s) peak psf m.
Proof. exact model_scaled. Qed.
Print Assumptions C82_model.
Theorem C82_peak : forall a p m k, Peak m (Some p) -> 0 < p -> 0 <= a -> ScaledBy (Some a) (Some p) m k -> Peak k (Some a).
Proof. exact peak_scaled. Qed.
Print Assumptions C82_peak.
Theorem C82_apart : forall paint positions psfs f s g m xy, inject_psf paint positions psfs f s = Ok (g, (m, xy)) ->
  exists x y, f_starx f = Some x /\ f_stary f = Some y /\ dist (x, y) xy = Rabs (s_sep s).
Proof. exact place_apart. Qed.
Print Assumptions C82_apart.
Theorem C82_missing : forall paint positions psfs f s, f_roll f = None \/ f_starx f = None \/ f_stary f = None ->
  inject_psf paint positions psfs f s = Raise KeyError.
Proof. exact cards_missing. Qed.
Print Assumptions C82_missing.
Theorem C82_empty : forall m e, peak_of m = Raise e <-> (rows m = 0 \/ cols m = 0)%nat /\ e = ValueError.
Proof. exact peak_raise. Qed.
Print Assumptions C82_empty.
Theorem C82_turn : forall paint positions psfs f s d, inject_psf paint positions psfs (turned d f) (turned_shot d s) =
  match inject_psf paint positions psfs f s with Ok (g, o) => Ok (turned d g, o) | Raise e => Raise e end.
Proof. exact turn. Qed.
Print Assumptions C82_turn.
Theorem C82_louder : forall paint positions psfs f s k g m xy g' m' xy', inject_psf paint positions psfs f s = Ok (g, (m, xy)) ->
  inject_psf paint positions psfs f (louder k s) = Ok (g', (m', xy')) ->
  xy' = xy /\ rows m' = rows m /\ cols m' = cols m /\ forall r c, pix m' r c = option_map (fun x => k * x) (pix m r c).
Proof. exact louder_model. Qed.
Print Assumptions C82_louder.
Theorem C82_all : forall paint positions psfs l f g o, inject_all paint positions psfs f l = Ok (g, o) -> same_cards f g
  /\ Forall2 (fun s q => exists d g', inject_psf paint positions psfs (with_data d f) s = Ok (g', q)) l o.
Proof. exact all_cards. Qed.
Print Assumptions C82_all.
Theorem C82_sum : forall paint stamp positions psfs, Adds paint stamp -> forall l f g o roll x y, inject_all paint positions psfs f l = Ok (g, o) ->
  f_roll f = Some roll -> f_starx f = Some x -> f_stary f = Some y ->
  rows (f_data g) = rows (f_data f) /\ cols (f_data g) = cols (f_data f) /\ forall i j, pix (f_data g) i j =
    fold_left added (map (fun q => stamp (rows (f_data f)) (cols (f_data f)) (x, y) (fst (snd q)) (s_sep (fst q)) (s_pa (fst q) - roll + 90) i j) (combine l o)) (pix (f_data f) i j).
Proof. exact all_sum. Qed.
Print Assumptions C82_sum.
Theorem C82_order : forall paint stamp positions psfs, Adds paint stamp -> forall l l', Permutation l l' -> forall f g o, inject_all paint positions psfs f l = Ok (g, o) ->
  exists g' o', inject_all paint positions psfs f l' = Ok (g', o') /\ SameImage (f_data g) (f_data g') /\ Permutation (combine l o) (combine l' o').
Proof. exact all_order. Qed.
Print Assumptions C82_order.

(** The peak is not the amplitude asked for if the largest value of the PSF is negative: the sign is turned, and the peak is
    the least value, which is larger. *)
Theorem C82_negative_refuted : forall a p v m k, Peak m (Some p) -> Least m v -> v < p -> p < 0 -> 0 < a -> ScaledBy (Some a) (Some p) m k ->
  Peak k (Some (a * v / p)) /\ a < a * v / p.
Proof. exact negative_scaled. Qed.
Print Assumptions C82_negative_refuted.
(** A PSF whose largest value is 0, or that is NaN everywhere, is no error: every pixel that is injected is NaN or infinite. *)
Theorem C82_blank_refuted : forall amp peak m k, peak = None \/ peak = Some 0 -> ScaledBy amp peak m k -> forall r c, pix k r c = None.
Proof. exact blank_scaled. Qed.
Print Assumptions C82_blank_refuted.

(** ** Cases: a PSF of two pixels, 2 and NaN, and one of -3 and -1; what is painted is the first pixel of the model, everywhere *)
Definition psf0 : img := mkimg 1 2 (fun _ c => if Nat.eqb c 0 then Some 2 else None).
Definition psf1 : img := mkimg 1 2 (fun _ c => if Nat.eqb c 0 then Some (- (3)) else Some (- (1))).
Definition paint0 : Paint := fun d c m sep th => Ok (mkimg (rows d) (cols d) (fun i j => added (pix d i j) (pix m 0 0))).
Definition frame0 : source := mksource psf0 (Some 10) (Some 0) (Some 0).
Definition shot0 : shot := mkshot (Some 5) 3 100.
Example C82_adds : Adds paint0 (fun _ _ _ m _ _ _ _ => pix m 0 0).
Proof. intros d c m sep th. eexists. split; [reflexivity|]. auto. Qed.
Lemma peak0 : Peak psf0 (Some 2).
Proof.
  split; [exists 0%nat, 0%nat; repeat split; simpl; lia|]. intros r c y _ Y. cbn in Y. destruct (Nat.eqb c 0); [|discriminate]. injection Y as <-. lra.
Qed.
Lemma peak1 : Peak psf1 (Some (- (1))) /\ Least psf1 (- (3)).
Proof.
  split; split.
  - exists 0%nat, 1%nat. repeat split; simpl; lia.
  - intros r c y _ Y. cbn in Y. destruct (Nat.eqb c 0); injection Y as <-; lra.
  - exists 0%nat, 0%nat. repeat split; simpl; lia.
  - intros r c y _ Y. cbn in Y. destruct (Nat.eqb c 0); injection Y as <-; lra.
Qed.
Example C82_case : exists g m xy, inject_psf paint0 [(1 / 2, 1 / 2)] [psf0] frame0 shot0 = Ok (g, (m, xy)) /\ Peak m (Some 5) /\ pix (f_data g) 0 0 = Some 7.
Proof.
  set (m := scale (vdiv (Some 5) (Some 2)) psf0).
  exists (with_data (mkimg 1 2 (fun i j => added (pix psf0 i j) (pix m 0 0))) frame0), m, (polar (0, 0) 3 (100 - 10 + 90)). split; [|split].
  - apply inject_iff. exists 10, 0, 0, psf0, (Some 2), (mkimg 1 2 (fun i j => added (pix psf0 i j) (pix m 0 0))).
    do 4 (split; [reflexivity|]). split.
    + exists 0%nat, (1 / 2, 1 / 2). split; [|reflexivity]. split; [reflexivity|]. intros [|j] b B; [injection B as <-; split; [lra|lia]|destruct j; discriminate].
    + split; [exact peak0|]. split; [reflexivity|]. split; reflexivity.
  - apply (peak_scaled 5 2 psf0); [exact peak0|lra|lra|apply scale_ok].
  - cbn. unfold vdiv, times. destruct (Req_EM_T 2 0); [lra|]. cbn. f_equal. lra.
Qed.
Example C82_case_negative : exists k, ScaledBy (Some 1) (Some (- (1))) psf1 k /\ Peak k (Some 3).
Proof.
  exists (scale (vdiv (Some 1) (Some (- (1)))) psf1). split; [apply scale_ok|]. replace 3 with (1 * (- (3)) / (- (1))) by field.
  apply (negative_scaled 1 (- (1)) (- (3)) psf1); try apply peak1; try lra. apply scale_ok.
Qed.
