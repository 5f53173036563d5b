(** Property theorems C08 and C09. *)
From Coq Require Import List Arith Bool Lia String Ascii.
From Verif Require Import Base DatasetModel DatasetSpec DatasetProofs DatasetErrProofs LevelModel LevelSpec LevelProofs.
Import ListNotations.
Local Open Scope string_scope.
Local Open Scope list_scope.

(** Two L1 frames. *)
Definition lv_heap (l0 l1 : string) : heap nat :=
  mkheap nat (fun b => [[[b; b]]]) 6
    (fun i => match i with 1 => [("DATALVL", l0); ("EXPTIME", "2")] | 5 => [("DATALVL", l1)] | _ => [] end) 8
    (fun k => if Nat.eqb k 0 then mkimage (0, 0) (1, 0) (2, 0) 0 1 2 3 "CGI_a_L1_.fits" else mkimage (3, 0) (4, 0) (5, 0) 4 5 6 7 "CGI_b_L1_.fits") 2.
Definition lv_pair (l0 l1 : string) : heap nat * dataset :=
  match new_dataset nat (lv_heap l0 l1) [0; 1] with Ok s => s | Raise _ => (lv_heap l0 l1, mkds [] 0 0 0) end.
Definition lvh (l0 l1 : string) := fst (lv_pair l0 l1).
Definition lvd (l0 l1 : string) := snd (lv_pair l0 l1).
Lemma lv_sound l0 l1 : Sound nat (lvh l0 l1) (lvd l0 l1).
Proof.
  assert (N : NoDup [0; 1]) by (repeat constructor; cbn; intuition congruence).
  split; [|split; [|split]].
  - apply (new_dataset_linked nat (lv_heap l0 l1) [0; 1]); [exact N|reflexivity].
  - apply (new_dataset_wf nat (lv_heap l0 l1) [0; 1]); [|exact N|reflexivity].
    intros k [<-|[<-|[]]]; split; [cbn; lia|split; intros []; cbn; lia|cbn; lia|split; intros []; cbn; lia].
  - discriminate.
  - intro f. exists [2]. intros k Hk. destruct f; destruct Hk as [<-|[<-|[]]]; eexists; (split; [vm_compute; reflexivity|reflexivity]).
Qed.

(** * C08 *)

(** One call, for each of the five functions (update_to_l4 with a flux
    calibration): it succeeds exactly when every frame is at the preceding
    level.  Then all frames of the result are at the new level (and so are the
    input's, which share their headers); pixels, and all keywords other than
    the written ones, are unchanged; the input keeps its file names.
    Otherwise it raises and nothing has changed. *)
Theorem C08_one_step : forall V version now (h : heap V) d u,
  Sound V h d -> standard u ->
  match update_level V version now h d u with
  | (h', Ok d') =>
      all_at V h d (u_prev u)
      /\ Sound V h' d' /\ Sound V h' d
      /\ all_at V h' d' (u_new u) /\ all_at V h' d (u_new u)
      /\ List.length (ds_frames d') = List.length (ds_frames d)
      /\ (forall f i l p, cube_pixel V h' d' f i l p = cube_pixel V h d f i l p)
      /\ (forall f i l p, cube_pixel V h' d f i l p = cube_pixel V h d f i l p)
      /\ (forall i k k', nth_error (ds_frames d) i = Some k -> nth_error (ds_frames d') i = Some k' ->
            im_name (img V h' k') = replace1 (u_old_tag u) (u_new_tag u) (im_name (img V h k))
            /\ im_name (img V h' k) = im_name (img V h k)
            /\ forall key f, ~ In key (touched u) ->
                 hget key (hdr V h' (im_hdr f (img V h' k'))) = hget key (hdr V h (im_hdr f (img V h k))))
      /\ (forall k, (k < nimg V h)%nat -> (forall k0, In k0 (ds_frames d) -> im_ext (img V h k) <> im_ext (img V h k0)) ->
            level_of V h' k = level_of V h k)
  | (h', Raise x) =>
      h' = h /\ exists k, In k (ds_frames d) /\ level_of V h k <> Some (u_prev u)
        /\ (x = ValueError \/ (x = KeyError /\ level_of V h k = None))
  end.
Proof. intros V version now h d u S0 Su. destruct (standard_ok u Su) as (NF & NC & _). exact (update_level_spec V version now h d u S0 NF NC). Qed.
Print Assumptions C08_one_step.

(** The five functions connect consecutive levels. *)
Theorem C08_consecutive : forall u, standard u ->
  exists i, nth_error levels i = Some (u_prev u) /\ nth_error levels (S i) = Some (u_new u).
Proof. intros u Su. destruct (standard_ok u Su) as (_ & _ & Q). exact Q. Qed.
Print Assumptions C08_consecutive.

(** Any sequence of calls on a dataset at level number [i]: the successful
    calls are exactly the consecutive levels i, i+1, ..., in that order. *)
Theorem C08_chain : forall V version now us (h : heap V) d h' d' log i,
  Forall standard us -> Sound V h d ->
  level_run V version now h d us = (h', d', log) ->
  (exists l, nth_error levels i = Some l /\ all_at V h d l) ->
  Sound V h' d'
  /\ map (fun u => Some (u_prev u)) log = map (nth_error levels) (seq i (List.length log))
  /\ map (fun u => Some (u_new u)) log = map (nth_error levels) (seq (S i) (List.length log))
  /\ (exists l, nth_error levels (i + List.length log) = Some l /\ all_at V h' d' l)
  /\ List.length (ds_frames d') = List.length (ds_frames d)
  /\ (forall f j l p, cube_pixel V h' d' f j l p = cube_pixel V h d f j l p).
Proof. exact level_run_chain. Qed.
Print Assumptions C08_chain.

(** Frames not all at one known level: no sequence of calls does anything. *)
Theorem C08_mixed_levels_stuck : forall V version now us (h : heap V) d,
  Forall standard us -> Sound V h d ->
  (forall l, In l levels -> ~ all_at V h d l) ->
  level_run V version now h d us = (h, d, []).
Proof. exact level_run_mixed. Qed.
Print Assumptions C08_mixed_levels_stuck.

(** The input is advanced too: the same call on it fails the second time. *)
Theorem C08_second_call_raises : forall V version now (h : heap V) d u h' d',
  Sound V h d -> standard u -> update_level V version now h d u = (h', Ok d') ->
  update_level V version now h' d u = (h', Raise ValueError).
Proof. exact update_twice. Qed.
Print Assumptions C08_second_call_raises.

(** Limit: update_to_l4 without a flux calibration raises after it has already
    moved the first frame (of the input too) to L4. *)
Theorem C08_l4_without_flux_refuted : forall V version now (h : heap V) d ct k0 fr,
  Sound V h d -> ds_frames d = k0 :: fr -> all_at V h d "L3" ->
  exists h', update_level V version now h d (up_l4 ct None) = (h', Raise AttributeError) /\ level_of V h' k0 = Some "L4".
Proof. exact l4_no_flux. Qed.
Print Assumptions C08_l4_without_flux_refuted.

Example C08_example_at : all_at nat (lvh "L1" "L1") (lvd "L1" "L1") "L1".
Proof. intros k [<-|[<-|[]]]; vm_compute; reflexivity. Qed.
Example C08_example_run :
  let '(h, d, log) := level_run nat "2" "now" (lvh "L1" "L1") (lvd "L1" "L1")
     [up_l2b; up_l2a; up_l2a; up_l2b; up_l3; up_tda; up_l4 None (Some "/x/flux.fits"); up_tda] in
  (map u_new log, map (level_of nat h) (ds_frames d), map (fun k => im_name (img nat h k)) (ds_frames d),
   map (fun k => hget "FLXCALFN" (hdr nat h (im_ext (img nat h k)))) (ds_frames d))
  = (["L2a"; "L2b"; "L3"; "L4"; "TDA"], [Some "TDA"; Some "TDA"], ["CGI_a_TDA_.fits"; "CGI_b_TDA_.fits"], [Some "flux.fits"; Some "flux.fits"]).
Proof. vm_compute. reflexivity. Qed.
Example C08_example_mixed : forall l, In l levels -> ~ all_at nat (lvh "L1" "L2a") (lvd "L1" "L2a") l.
Proof.
  intros l _ H. assert (A := H 0 (or_introl eq_refl)). assert (B := H 1 (or_intror (or_introl eq_refl))).
  vm_compute in A, B. congruence.
Qed.
Example C08_example_l3 : all_at nat (lvh "L3" "L3") (lvd "L3" "L3") "L3".
Proof. intros k [<-|[<-|[]]]; vm_compute; reflexivity. Qed.

(** * C09 *)

(** The renaming replaces exactly the first level tag. *)
Theorem C09_replaces_tag : forall s a t b new, first_tag s a t b -> replace1 t new s = append a (append new b).
Proof. exact first_tag_replace. Qed.
Print Assumptions C09_replaces_tag.

(** Python's replace in general: first occurrence, or unchanged. *)
Theorem C09_first_occurrence_only : forall old new s a b, s = append a (append old b) ->
  (forall a' b', s = append a' (append old b') -> (String.length a <= String.length a')%nat) ->
  replace1 old new s = append a (append new b).
Proof. exact replace1_first. Qed.
Print Assumptions C09_first_occurrence_only.

Theorem C09_untagged_unchanged : forall old new s, (forall a b, s <> append a (append old b)) -> replace1 old new s = s.
Proof. exact replace1_none. Qed.
Print Assumptions C09_untagged_unchanged.

(** The new tag is again the first tag of the new name ... *)
Theorem C09_new_tag_first : forall s a t b t2, first_tag s a t b -> In t2 tags ->
  first_tag (append a (append t2 b)) a t2 b.
Proof. exact replaced_first. Qed.
Print Assumptions C09_new_tag_first.

(** ... so distinct names stay distinct ... *)
Theorem C09_injective : forall t new s1 s2 a1 b1 a2 b2, In new tags ->
  first_tag s1 a1 t b1 -> first_tag s2 a2 t b2 -> replace1 t new s1 = replace1 t new s2 -> s1 = s2.
Proof. exact rename_injective. Qed.
Print Assumptions C09_injective.

(** ... and a name keeps everything but its tag through the whole chain. *)
Theorem C09_chain : forall a b,
  (forall a' t' b', In t' tags -> append a (append "_L1_" b) = append a' (append t' b') -> (String.length a <= String.length a')%nat) ->
  replace1 (u_old_tag up_tda) (u_new_tag up_tda)
   (replace1 (u_old_tag (up_l4 None None)) (u_new_tag (up_l4 None None))
    (replace1 (u_old_tag up_l3) (u_new_tag up_l3)
     (replace1 (u_old_tag up_l2b) (u_new_tag up_l2b)
      (replace1 (u_old_tag up_l2a) (u_new_tag up_l2a) (append a (append "_L1_" b))))))
  = append a (append "_TDA_" b).
Proof. exact rename_chain. Qed.
Print Assumptions C09_chain.

(** The tags belong to the levels. *)
Theorem C09_tags_match_levels : forall u, standard u ->
  exists i, nth_error levels i = Some (u_prev u) /\ nth_error tags i = Some (u_old_tag u)
         /\ nth_error levels (S i) = Some (u_new u) /\ nth_error tags (S i) = Some (u_new_tag u).
Proof.
  intros u [-> |[-> |[-> |[(ct & fl & ->)| ->]]]]; [exists 0|exists 1|exists 2|exists 3|exists 4]; auto.
Qed.
Print Assumptions C09_tags_match_levels.

(** Limit: names that do not follow the convention can collide. *)
Theorem C09_unconventional_names_refuted : exists s1 s2, s1 <> s2
  /\ replace1 (u_old_tag up_l2a) (u_new_tag up_l2a) s1 = replace1 (u_old_tag up_l2a) (u_new_tag up_l2a) s2.
Proof. exists "x_L1_.fits", "x_L2a.fits". split; [discriminate|reflexivity]. Qed.
Print Assumptions C09_unconventional_names_refuted.

Example C09_example_first : first_tag "CGI_a_L1_.fits" "CGI_a" "_L1_" ".fits".
Proof.
  split; [reflexivity|]. split; [cbn; auto|]. intros a' t' b' Ht' E. cbn in Ht'.
  repeat (destruct Ht' as [<-|Ht']; [
    do 5 (destruct a' as [|? a']; [cbn in E; discriminate|cbn [append] in E; injection E as ? E; subst]); cbn; lia|]).
  contradiction.
Qed.
