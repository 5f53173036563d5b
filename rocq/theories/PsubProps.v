(** C77: a PSF subtraction as a whole. *)
From Coq Require Import List Arith Bool Reals ZArith String Lra Lia.
From Verif Require Import Base CombineModel ComboSpec FlatModel FlatSpec CtModel CtSpec PhotModel PhotSpec PhotCalProofs PsubModel PsubSpec PsubProofs PsubMainProofs PsubLawProofs.
Import ListNotations.
Local Open Scope R_scope.

(** What is returned: pyklip's planes for the chosen, cropped and masked frames, with the header, flags, errors, name and tables they have to have. *)
Theorem C77_product : forall K C crop klip thrupt seps_of core o fs d, do_psf_subtraction K C crop klip thrupt seps_of core o fs = Ok d -> subtracted K C crop klip thrupt seps_of core o fs d.
Proof. exact (@product). Qed.
Print Assumptions C77_product.
(** And whenever there is such a product one is returned, the same up to the order of the cards. *)
Theorem C77_product_found : forall K C crop klip thrupt seps_of core o fs d, steady thrupt core -> subtracted K C crop klip thrupt seps_of core o fs d -> exists d', do_psf_subtraction K C crop klip thrupt seps_of core o fs = Ok d' /\ similar d' d.
Proof. exact (@product_found). Qed.
Print Assumptions C77_product_found.
(** When nothing is returned, and with which exception. *)
Theorem C77_refused : forall K C crop klip thrupt seps_of core o fs e, steady thrupt core -> (do_psf_subtraction K C crop klip thrupt seps_of core o fs = Raise e <-> refused K C crop klip thrupt seps_of core o fs e).
Proof. exact (@product_refused). Qed.
Print Assumptions C77_refused.
(** References inside the dataset do what the same references passed apart do. *)
Theorem C77_apart : forall K C crop klip thrupt seps_of core o fs sci r, p_refs o = None -> all_numbers fs -> sieve (labelled 0) fs sci -> sci <> [] -> sieve (labelled 1) fs r -> r <> [] ->
  do_psf_subtraction K C crop klip thrupt seps_of core o fs = do_psf_subtraction K C crop klip thrupt seps_of core (sent (Some r) o) sci.
Proof. exact (@apart_law). Qed.
Print Assumptions C77_apart.
(** It does not matter where the references stand among the science frames. *)
Theorem C77_order : forall K C crop klip thrupt seps_of core o fs gs sci r, p_refs o = None -> all_numbers fs -> all_numbers gs -> sieve (labelled 0) fs sci -> sieve (labelled 0) gs sci -> sieve (labelled 1) fs r -> sieve (labelled 1) gs r ->
  do_psf_subtraction K C crop klip thrupt seps_of core o gs = do_psf_subtraction K C crop klip thrupt seps_of core o fs.
Proof. exact (@order_law). Qed.
Print Assumptions C77_order.
(** Frames labelled neither 0 nor 1 do not matter. *)
Theorem C77_others : forall K C crop klip thrupt seps_of core o fs fs', p_refs o = None -> all_numbers fs -> sieve (fun f => labelled 0 f \/ labelled 1 f) fs fs' ->
  do_psf_subtraction K C crop klip thrupt seps_of core o fs' = do_psf_subtraction K C crop klip thrupt seps_of core o fs.
Proof. exact (@others_law). Qed.
Print Assumptions C77_others.
(** The values of flagged pixels, of science or reference frames, do not matter, nor for the exceptions. *)
Theorem C77_flagged : forall K C crop klip thrupt seps_of core o r' fs gs, blind_crop crop -> maybe (Forall2 same_off) (p_refs o) r' -> Forall2 same_off fs gs ->
  do_psf_subtraction K C crop klip thrupt seps_of core (sent r' o) gs = do_psf_subtraction K C crop klip thrupt seps_of core o fs.
Proof. exact (@flagged_law). Qed.
Print Assumptions C77_flagged.
(** When references are passed apart every frame of the dataset is science, whatever its label. *)
Theorem C77_all_science : forall crop o fs r mode nb sci sm rm, p_refs o = Some r -> p_crop o = false -> given crop o fs mode nb sci sm rm -> hidden fs sm.
Proof. exact (@science_law). Qed.
Print Assumptions C77_all_science.
(** A frame labelled as a reference is subtracted as science when references are also passed apart: two science frames instead of one. *)
Theorem C77_references_refuted : exists d d', trial (plain None (Some "ADI"%string)) [dot 0 0 "a"; dot 1 0 "b"] = Ok d /\ trial (plain (Some [dot 1 0 "c"]) (Some "ADI"%string)) [dot 0 0 "a"; dot 1 0 "b"] = Ok d' /\
  map (fun p => pix p 0%nat 0%nat) (o_planes _ _ d) = [Some 1] /\ map (fun p => pix p 0%nat 0%nat) (o_planes _ _ d') = [Some 2].
Proof. exact (@references_refuted). Qed.
Print Assumptions C77_references_refuted.
(** A pixel flagged in every frame has flag 0 in the product wherever pyklip returns a number. *)
Theorem C77_flags_refuted : exists d, trial (plain None None) [dot 0 1 "a"; dot 0 1 "b"] = Ok d /\ s_dq (dot 0 1 "a") 0%nat 0%nat = 4%Z /\ s_dq (dot 0 1 "b") 0%nat 0%nat = 4%Z /\ map (fun g => g 0%nat 0%nat) (o_dq _ _ d) = [0%Z].
Proof. exact (@flags_refuted). Qed.
Print Assumptions C77_flags_refuted.
(** Reference imaging asked for without any reference is not refused but handed to pyklip. *)
Theorem C77_mode_refuted : exists d, trial (plain None (Some "RDI"%string)) [dot 0 0 "a"] = Ok d /\ card (o_pri _ _ d) "KLIP_ALG" (CText "RDI").
Proof. exact (@mode_refuted). Qed.
Print Assumptions C77_mode_refuted.
(** The product carries the header of the first science frame and the name of the last. *)
Theorem C77_name_refuted : exists d, trial (plain None None) [dot 0 0 "a"; dot 0 0 "b"] = Ok d /\ o_name _ _ d = "b"%string /\ card (o_pri _ _ d) "VISITID" (CText "a").
Proof. exact (@name_refuted). Qed.
Print Assumptions C77_name_refuted.

(** Tables that count, and a dataset with a science frame, a reference and a frame of another label. *)
Example C77_steady : steady (fun _ _ _ _ (d : out nat nat) => Ok (List.length (o_planes _ _ d))) (fun (d : out nat nat) s => Ok (List.length s)).
Proof. split; [intros mode nb sm rm d d' (_ & _ & E & _); rewrite E; reflexivity|intros s d d' _; reflexivity]. Qed.
Example C77_dataset : let fs := [dot 0 0 "a"; dot 2 0 "b"; dot 1 0 "c"] in
  all_numbers fs /\ sieve (labelled 0) fs [dot 0 0 "a"] /\ sieve (labelled 1) fs [dot 1 0 "c"] /\ sieve (fun f => labelled 0 f \/ labelled 1 f) fs [dot 0 0 "a"; dot 1 0 "c"].
Proof.
  cbv zeta. assert (L : forall x y f n, labelled y (dot x f n) <-> x = y) by (intros x y f n; unfold labelled, psfref; rewrite <- get_iff; cbn; split; [intros Q; injection Q as ->; reflexivity|intros ->; reflexivity]).
  split; [repeat constructor; eexists; apply get_iff; reflexivity|]. split; [|split].
  - apply sieve_in; [apply L; reflexivity|]. repeat (apply sieve_out; [rewrite L; lra|]). constructor.
  - repeat (apply sieve_out; [rewrite L; lra|]). apply sieve_in; [apply L; reflexivity|constructor].
  - apply sieve_in; [left; apply L; reflexivity|]. apply sieve_out; [rewrite !L; lra|]. apply sieve_in; [right; apply L; reflexivity|constructor].
Qed.
(** Two frames that differ at a flagged pixel, and a crop that leaves frames as they are. *)
Example C77_frames : same_off (dot 0 1 "a") (mksframe (s_pri (dot 0 1 "a")) (s_ext (dot 0 1 "a")) (mkimg 1 1 (fun _ _ => Some 8)) (s_dq (dot 0 1 "a")) "a") /\ blind_crop (fun l => Ok l).
Proof.
  split; [|intros l m F; exact F]. unfold same_off. cbn. repeat (split; [reflexivity|]). intros i j. destruct (Req_EM_T 1 0); [lra|lia].
Qed.
