(** C33: sorting of pupil-imaging frames. *)
From Coq Require Import List Arith QArith ZArith String.
From Verif Require Import Base SortModel SortSpec SortNameProofs SortSeqProofs SortTopProofs SortFactsProofs.
Import ListNotations.

(** The sort succeeds, with mean frames [m], K-gain frames [ks] and
    non-linearity frames [ns], exactly when the specification holds. *)
Theorem C33_sort : forall ty fs m ks ns, distinct_ids fs -> (sort_pupilimg_frames ty fs = Ok (m, ks, ns) <-> sorted_frames ty fs m ks ns).
Proof. exact sort_iff. Qed.
Example C33_sort_case : distinct_ids campaign /\ sort_pupilimg_frames "NonLin" campaign = Ok ([0; 1; 2], [5; 6; 7; 8; 9; 10; 11; 12], [13; 14; 15; 16])%nat.
Proof. exact (conj campaign_ids campaign_run). Qed.

(** The frame number is read between the last underscore and the last period. *)
Theorem C33_frame_number : forall name z, extract_frame_id name = Ok z <-> frame_number name z.
Proof. exact frame_id_spec. Qed.
Example C33_frame_number_case : extract_frame_id "CGI_02000.A_0000000042.fits" = Ok 42%Z.
Proof. vm_compute. reflexivity. Qed.

(** No frame gets two labels; K-gain frames have unity gain and another
    exposure time than the mean frames, non-linearity frames another gain. *)
Theorem C33_disjoint : forall ty fs m ks ns, distinct_ids fs -> distinct_paths fs -> sort_pupilimg_frames ty fs = Ok (m, ks, ns) -> exists e,
  mean_frames fs e m
  /\ (forall i, In i m -> exists f, nth_error fs i = Some f /\ has_gain 1 f /\ has_exp e f)
  /\ (forall i, In i ks -> exists f, nth_error fs i = Some f /\ has_gain 1 f /\ ~ has_exp e f)
  /\ (forall i, In i ns -> exists f, nth_error fs i = Some f /\ s_gain f <> None /\ ~ has_gain 1 f)
  /\ NoDup (m ++ ks ++ ns).
Proof. exact (fun ty fs m ks ns D P H => sorted_kinds ty fs m ks ns P (proj1 (sort_iff ty fs m ks ns D) H)). Qed.
Example C33_disjoint_case : distinct_paths campaign.
Proof. exact campaign_paths. Qed.

(** Two sequences that both return to an earlier exposure time make the sort
    fail: the larger one is never chosen. *)
Theorem C33_largest_refuted : forall ty t fs e m s G j j', (forall f, In f fs -> s_gain f <> None) -> (forall f, In f fs -> has_gain 1 f -> s_exp f <> None) ->
  is_type ty t -> mean_frames fs e m -> in_order fs (fun f => has_gain 1 f /\ ~ has_exp e f) s -> stretches s G ->
  turn G j -> distinct_steps G j -> (forall i, turn G i -> (j <= i)%nat) -> turn G j' -> (j < j')%nat ->
  sort_pupilimg_frames ty fs = Raise TypeError.
Proof. exact second_turn. Qed.
Example C33_largest_case : (forall f, In f twice -> s_gain f <> None) /\ (forall f, In f twice -> has_gain 1 f -> s_exp f <> None) /\ is_type "K-Gain" KGain
  /\ mean_frames twice 5 [0; 1; 2; 3]%nat /\ in_order twice (fun f => has_gain 1 f /\ ~ has_exp 5 f) twice_rows /\ stretches twice_rows twice_G
  /\ turn twice_G 2 /\ distinct_steps twice_G 2 /\ (forall i, turn twice_G i -> (2 <= i)%nat) /\ turn twice_G 5.
Proof. exact twice_case. Qed.

(** The K-gain frames need not come in equal numbers per exposure time, nor
    with consecutive ids. *)
Theorem C33_equal_sets_refuted : exists fs m ks, distinct_ids fs /\ sort_pupilimg_frames "k-gain" fs = Ok (m, ks, [])
  /\ ks = [4; 5; 6; 7; 8; 9]%nat /\ map (fun i => option_map s_exp (nth_error fs i)) ks = map (fun q => Some (Some q)) [1; 2; 2; 3; 1; 1]%Q
  /\ map (fun i => option_map (fun f => extract_frame_id (s_name f)) (nth_error fs i)) ks = map (fun z => Some (Ok z)) [10; 12; 15; 30; 40; 50]%Z.
Proof. exact (ex_intro _ uneven (ex_intro _ [0; 1; 2; 3]%nat (ex_intro _ [4; 5; 6; 7; 8; 9]%nat (conj uneven_ids (conj uneven_run (conj eq_refl (conj eq_refl eq_refl))))))). Qed.

Print Assumptions C33_sort.
Print Assumptions C33_frame_number.
Print Assumptions C33_disjoint.
Print Assumptions C33_largest_refuted.
Print Assumptions C33_equal_sets_refuted.
