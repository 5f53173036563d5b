(** C70: the search of stars in an image. *)
From Coq Require Import List Arith Bool Reals ZArith Lra Lia.
From Verif Require Import Base SpotModel PeakModel PeakSpec PeakProofs PeakTopProofs.
Import ListNotations.
Local Open Scope R_scope.

(** What is returned: the peaks of the image, each hidden before the next is sought, each located by the fit about it in the padded frame. *)
Theorem C70_found : forall gauss im threshold fwhm mask_rad w out, half_width (fwhm * mask_rad) w ->
  (find_source_locations gauss im threshold fwhm mask_rad = Ok out <->
   (0 <= threshold)%Z /\ ny im = nx im /\ exists ps fr, peaks im w (Z.to_nat threshold) [] ps /\ framed im fr /\ Forall2 (located gauss fr) ps out).
Proof. exact (@find_ok). Qed.
Print Assumptions C70_found.
(** When the search is refused. *)
Theorem C70_refused : forall gauss im threshold fwhm mask_rad w e, half_width (fwhm * mask_rad) w ->
  (find_source_locations gauss im threshold fwhm mask_rad = Raise e <->
   ((threshold < 0)%Z /\ e = ValueError) \/
   ((0 < threshold)%Z /\ (ny im = 0%nat \/ nx im = 0%nat) /\ e = ValueError) \/
   ((0 < threshold)%Z /\ (0 < ny im)%nat /\ (0 < nx im)%nat /\ (forall p, inside im p -> px im (fst p) (snd p) = None) /\ e = IndexError) \/
   ((0 <= threshold)%Z /\ ny im <> nx im /\ (threshold = 0%Z \/ exists p v, inside im p /\ px im (fst p) (snd p) = Some v) /\ e = ValueError) \/
   ((0 <= threshold)%Z /\ ny im = nx im /\ exists ps fr ps1 p ps2, peaks im w (Z.to_nat threshold) [] ps /\ framed im fr /\ ps = ps1 ++ p :: ps2 /\ gauss fr (INR (snd p) + 25) (INR (fst p) + 25) = Raise e /\
     forall q, In q ps1 -> exists r, located gauss fr q r)).
Proof. exact (@find_refused). Qed.
Print Assumptions C70_refused.
(** The peaks are one list. *)
Theorem C70_unique : forall im w n ps l m, peaks im w n ps l -> peaks im w n ps m -> l = m.
Proof. exact (@peaks_unique). Qed.
Print Assumptions C70_unique.
(** As many as asked for, or at least three of which the last is found again. *)
Theorem C70_count : forall im w n l, peaks im w n [] l -> List.length l = n \/ ((3 <= List.length l < n)%nat /\ exists l' p, l = l' ++ [p] /\ peak im w l p).
Proof. exact (@peaks_count). Qed.
Print Assumptions C70_count.
(** Every source is as bright as any pixel not near an earlier one, and not near one itself, unless no such pixel is above zero. *)
Theorem C70_each : forall im w n l l1 p l2, peaks im w n [] l -> l = l1 ++ p :: l2 ->
  inside im p /\
  ((hidden w l1 p /\ forall q u, inside im q -> ~ hidden w l1 q -> px im (fst q) (snd q) = Some u -> u <= 0) \/
   (~ hidden w l1 p /\ exists v, px im (fst p) (snd p) = Some v /\ forall q u, inside im q -> ~ hidden w l1 q -> px im (fst q) (snd q) = Some u -> u <= v)).
Proof. exact (@peaks_each). Qed.
Print Assumptions C70_each.
(** The stars of a field are found, brightest first. *)
Theorem C70_field : forall im w stars n, star_field im w stars -> (n <= List.length stars)%nat -> peaks im w n [] (firstn n stars).
Proof. exact (@field_found). Qed.
Print Assumptions C70_field.
(** Where the fit finds their places, these are returned. *)
Theorem C70_located : forall gauss im w stars n fwhm mask_rad fr x y, half_width (fwhm * mask_rad) w -> star_field im w stars -> ny im = nx im -> (n <= List.length stars)%nat -> framed im fr ->
  (forall p, In p (firstn n stars) -> gauss fr (INR (snd p) + 25) (INR (fst p) + 25) = Ok (Some (x p + 25), Some (y p + 25))) ->
  find_source_locations gauss im (Z.of_nat n) fwhm mask_rad = Ok (map (fun p => (Some (x p), Some (y p))) (firstn n stars)).
Proof. exact (@field_located). Qed.
Print Assumptions C70_located.
(** One star on a background below zero: the second source returned is a pixel of the background. *)
Theorem C70_spurious_refuted : exists im w p q, peaks im w 2 [] [p; q] /\ px im (fst p) (snd p) = Some 1 /\ px im (fst q) (snd q) = Some (-1) /\ forall r u, inside im r -> px im (fst r) (snd r) = Some u -> r <> p -> u = -1.
Proof. exact (@spurious_refuted). Qed.
Print Assumptions C70_spurious_refuted.
(** One star on zeros: its place is returned three times. *)
Theorem C70_repeated_refuted : exists im w p, forall n, (3 <= n)%nat -> peaks im w n [] [p; p; p].
Proof. exact (@repeated_refuted). Qed.
Print Assumptions C70_repeated_refuted.
(** Rows and columns are exchanged in the padded frame: images that are not square are refused, whatever they show. *)
Theorem C70_oblong_refuted : forall gauss im threshold fwhm mask_rad w, half_width (fwhm * mask_rad) w -> ny im <> nx im -> exists e, find_source_locations gauss im threshold fwhm mask_rad = Raise e.
Proof. exact (@oblong_refuted). Qed.
Print Assumptions C70_oblong_refuted.

(** Two stars in an image of six by six pixels. *)
Example C70_field_example : star_field (mkimage 6 6 two) 1 [(4, 3); (1, 1)]%nat /\ half_width (3 * / 2) 1 /\ peaks (mkimage 6 6 two) 1 2 [] [(4, 3); (1, 1)]%nat.
Proof. split; [apply two_field|]. split; [left; cbn; lra|]. exact (field_found _ _ _ 2 two_field (le_n 2)). Qed.
