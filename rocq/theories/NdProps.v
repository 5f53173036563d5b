(** C46: the ND filter calibration. *)
From Coq Require Import List Reals String Lra.
From Verif Require Import Base ComboSpec SplitSpec SplitProps NdModel NdSpec NdFactsProofs.
Import ListNotations.
Local Open Scope R_scope.

(** The product, and when there is one. *)
Theorem C46_calibration : forall D leb, total_order leb -> forall aper_factor gauss_factor aper_phot gauss_phot centroid irradiance method thr factor (fs : list (frame D)) p,
  snd (create_nd_filter_cal D leb aper_factor gauss_factor aper_phot gauss_phot centroid irradiance method thr factor fs) = Ok p
  <-> calibrates leb aper_factor gauss_factor aper_phot gauss_phot centroid irradiance method thr factor fs p.
Proof. exact create_iff. Qed.
Print Assumptions C46_calibration.
Example C46_calibration_used : total_order String.leb /\ snd (create_nd_filter_cal R String.leb nd_one nd_one nd_phot nd_phot nd_here nd_star "Aperture" (1 / 10) None nd_fs) = Ok (nd_prod false).
Proof. split; [exact string_leb_total_order|]. apply (create_iff R String.leb string_leb_total_order). exact nd_created. Qed.

(** One row per frame behind the filter whose centroid is a number. *)
Theorem C46_rows : forall D leb, total_order leb -> forall aper_factor gauss_factor aper_phot gauss_phot centroid irradiance method thr factor (fs : list (frame D)) p,
  calibrates leb aper_factor gauss_factor aper_phot gauss_phot centroid irradiance method thr factor fs p ->
  exists key acc, naming fs key /\ sieve (fun f => filtered key f /\ centroid (f_data D f) <> Ok None) fs acc /\ List.length (p_rows p) = List.length acc.
Proof. exact rows_count. Qed.
Print Assumptions C46_rows.
Example C46_rows_used : exists key acc, naming nd_fs key /\ sieve (fun f => filtered key f /\ nd_here (f_data R f) <> Ok None) nd_fs acc /\ List.length acc = 3%nat.
Proof. destruct (C46_rows R String.leb string_leb_total_order _ _ _ _ _ _ _ _ _ _ _ nd_created) as (key & acc & N & S & L). exists key, acc. split; [exact N|]. split; [exact S|]. rewrite <- L. reflexivity. Qed.

(** What the call does to its input. *)
Theorem C46_inputs : forall D leb aper_factor gauss_factor aper_phot gauss_phot centroid irradiance method thr factor (fs fs' : list (frame D)) r,
  create_nd_filter_cal D leb aper_factor gauss_factor aper_phot gauss_phot centroid irradiance method thr factor fs = (fs', r) -> match r with Ok p => relabelled p fs fs' | Raise _ => fs' = fs end.
Proof. exact create_inputs. Qed.
Print Assumptions C46_inputs.

(** The flag is that of the last target only: here the first one varies by ten thresholds. *)
Theorem C46_flag_refuted : exists p out os, snd (create_nd_filter_cal R String.leb nd_one nd_one nd_phot nd_phot nd_here nd_star "Aperture" (1 / 10) None nd_fs) = Ok p
  /\ arranged String.leb (f_fpam R) nd_fs out /\ Forall2 (measured nd_phot nd_phot nd_here nd_star "Aperture" 1) out os /\ varying (1 / 10) out os "A" /\ p_flag p = false.
Proof.
  exists (nd_prod false), [nd_fr "ND225" "A" 0; nd_fr "ND225" "A" 2; nd_fr "ND225" "B" 1]%string, [Some (Some 0, 0, 0); Some (Some 2, 2, 0); Some (Some 1, 1, 0)].
  split; [apply (create_iff R String.leb string_leb_total_order); exact nd_created|]. split; [exact nd_arranged|]. split; [repeat apply Forall2_cons; try apply nd_measured; constructor|]. split; [exact nd_varies|reflexivity].
Qed.
Print Assumptions C46_flag_refuted.

(** A calibration factor given instead of frames without filter is never used: the call fails. *)
Theorem C46_factor_only_refuted : forall D leb, total_order leb -> forall aper_factor gauss_factor aper_phot gauss_phot centroid irradiance method thr factor (fs : list (frame D)),
  (forall f, In f fs -> exists r, f_fpam D f = Some ("ND" ++ r)%string) -> create_nd_filter_cal D leb aper_factor gauss_factor aper_phot gauss_phot centroid irradiance method thr factor fs = (fs, Raise ValueError).
Proof. exact no_dim. Qed.
Print Assumptions C46_factor_only_refuted.
Example C46_factor_only_used : forall f, In f [nd_fr "ND225" "A" 0]%string -> exists r, f_fpam R f = Some ("ND" ++ r)%string.
Proof. intros f [<-|[]]. exists "225"%string. reflexivity. Qed.

(** The frame that lent its header counts as one behind the filter from then on. *)
Theorem C46_repeat_refuted : forall D leb, total_order leb -> forall aper_factor gauss_factor aper_phot gauss_phot centroid irradiance method thr factor (fs fs' : list (frame D)) p pre f,
  (forall x, In x fs -> f_fpam D x <> None) -> fs = pre ++ [f] -> (forall x, In x pre -> filtered (f_fpam D) x) ->
  create_nd_filter_cal D leb aper_factor gauss_factor aper_phot gauss_phot centroid irradiance method thr factor fs = (fs', Ok p) ->
  forall method' thr' factor', create_nd_filter_cal D leb aper_factor gauss_factor aper_phot gauss_phot centroid irradiance method' thr' factor' fs' = (fs', Raise ValueError).
Proof. exact second_run. Qed.
Print Assumptions C46_repeat_refuted.
Example C46_repeat_used : (forall x, In x nd_fs -> f_fpam R x <> None) /\ (forall x, In x [nd_fr "ND225" "A" 0; nd_fr "ND225" "A" 2; nd_fr "ND225" "B" 1]%string -> filtered (f_fpam R) x).
Proof. split; [intros x [<-|[<-|[<-|[<-|[]]]]]; discriminate|intros x [<-|[<-|[<-|[]]]]; exists "225"%string; reflexivity]. Qed.
