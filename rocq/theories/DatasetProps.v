(** Property theorems C04, C05, C06, C16. *)
From Coq Require Import List Arith Bool Lia String Permutation Reals.
From Verif Require Import Base DatasetModel DatasetSpec DatasetProofs DatasetCopyProofs DatasetSliceProofs
  DatasetErrProofs DatasetQuadProofs.
Import ListNotations.
Local Open Scope string_scope.
Local Open Scope list_scope.

(** The concrete dataset of the examples: two frames "a" and "b". *)
Definition exh := fst ex_ds.
Definition exd := snd ex_ds.
Lemma ex_ds_ok : new_dataset nat ex_heap [0; 1] = Ok (exh, exd).
Proof. reflexivity. Qed.
Lemma ex_alloc : Allocated nat ex_heap [0; 1].
Proof. intros k [<-|[<-|[]]]; split; [cbn; lia|split; intros []; cbn; lia|cbn; lia|split; intros []; cbn; lia]. Qed.
Lemma ex_nodup : NoDup [0; 1].
Proof. repeat constructor; cbn; intuition congruence. Qed.
Lemma ex_linked : Linked nat exh exd.
Proof. exact (new_dataset_linked nat ex_heap [0; 1] exh exd ex_nodup ex_ds_ok). Qed.
Lemma ex_wf : WellFormed nat exh exd.
Proof. exact (new_dataset_wf nat ex_heap [0; 1] exh exd ex_alloc ex_nodup ex_ds_ok). Qed.

Definition get_ok {A B} (r : result (A * B)) (dflt : A * B) : A * B := match r with Ok s => s | Raise _ => dflt end.
Lemma get_ok_eq {A B} (r : result (A * B)) dflt : is_ok r = true -> r = Ok (fst (get_ok r dflt), snd (get_ok r dflt)).
Proof. destruct r as [[a b]|e]; [reflexivity|discriminate]. Qed.
Definition ex_copy (deep : bool) := get_ok (ds_copy nat deep [("DRPVERSN", "2")] exh exd) ex_ds.
Lemma ex_copy_ok deep : ds_copy nat deep [("DRPVERSN", "2")] exh exd = Ok (fst (ex_copy deep), snd (ex_copy deep)).
Proof. apply get_ok_eq. destruct deep; vm_compute; reflexivity. Qed.

(** * C04 *)

(** A new dataset is linked, and holds the frames' pixels. *)
Theorem C04_new_dataset_linked : forall V (h : heap V) frames h' d,
  NoDup frames -> new_dataset V h frames = Ok (h', d) -> Linked V h' d.
Proof. exact new_dataset_linked. Qed.
Print Assumptions C04_new_dataset_linked.

Theorem C04_new_dataset_contents : forall V (h : heap V) frames h' d,
  new_dataset V h frames = Ok (h', d) ->
  forall f i k, nth_error frames i = Some k ->
    nth_error (buf V h' (cube f d)) i = view_block V h (im_view f (img V h k)).
Proof. exact new_dataset_contents. Qed.
Print Assumptions C04_new_dataset_contents.

(** In a linked dataset the frame and the cube show the same pixels. *)
Theorem C04_frame_reads_cube : forall V (h : heap V) d, Linked V h d ->
  forall f i l p, frame_pixel V h d f i l p = cube_pixel V h d f i l p.
Proof. exact linked_pixels. Qed.
Print Assumptions C04_frame_reads_cube.

(** Writing through the frame and through the cube is the same operation ... *)
Theorem C04_write_frame_is_write_cube : forall V (h : heap V) d f i l p x,
  Linked V h d -> write_frame V h d f i l p x = write_cube V h d f i l p x.
Proof. exact write_frame_is_cube. Qed.
Print Assumptions C04_write_frame_is_write_cube.

(** ... which changes exactly one element and keeps the link. *)
Theorem C04_write_exact : forall V (h : heap V) d f i l p x h',
  Linked V h d -> write_cube V h d f i l p x = Ok h' ->
  Linked V h' d
  /\ (forall f' i' l' p', cube_pixel V h' d f' i' l' p' =
        if field_eqb f' f && (Nat.eqb i' i && Nat.eqb l' l && Nat.eqb p' p) then Some x
        else cube_pixel V h d f' i' l' p')
  /\ (forall b, b <> cube f d -> buf V h' b = buf V h b)
  /\ hdr V h' = hdr V h /\ img V h' = img V h.
Proof. exact write_cube_exact. Qed.
Print Assumptions C04_write_exact.

Theorem C04_write_defined : forall V (h : heap V) d f i l p x,
  (write_cube V h d f i l p x = Raise IndexError <-> cube_pixel V h d f i l p = None)
  /\ (forall e, write_cube V h d f i l p x = Raise e -> e = IndexError).
Proof. exact write_cube_defined. Qed.
Print Assumptions C04_write_defined.

(** The link survives every sequence of writes, updates, error methods and
    header changes in which the two error methods do not raise. *)
Theorem C04_link_survives : forall V quad mul os (h : heap V) d,
  Linked V h d -> all_safe V quad mul h d os ->
  Linked V (fst (drun V quad mul h d os)) (snd (drun V quad mul h d os)).
Proof. exact drun_linked. Qed.
Print Assumptions C04_link_survives.

(** What update_after_processing_step writes. *)
Theorem C04_update_contents : forall V (h : heap V) d hist nd ne nq en h' d',
  Linked V h d -> OwnAll V h d ->
  (forall e, ne = Some e -> (e < nbuf V h)%nat /\ e <> ds_data d /\ e <> ds_dq d) ->
  update_step V h d hist nd ne nq en = (h', d', None) ->
  ds_frames d' = ds_frames d
  /\ buf V h' (cube FData d') = match nd with Some b => b | None => buf V h (cube FData d) end
  /\ buf V h' (cube FErr d') = match ne with Some e => buf V h e | None => buf V h (cube FErr d) end
  /\ buf V h' (cube FDq d') = match nq with Some b => b | None => buf V h (cube FDq d) end
  /\ (forall i f, frame_header V h' d' f i = match frame_header V h d f i with
        | None => None
        | Some x => Some (match f with HExt => set_keys en (hset "HISTORY" hist x)
                                     | HErr => set_keys en x | _ => x end) end).
Proof. exact update_step_contents. Qed.
Print Assumptions C04_update_contents.

(** A history with writes, an update that replaces all three cubes, an error
    term and a rescaling meets the hypotheses. *)
Definition ex_history : list (dop nat) :=
  [OWriteFrame nat FData 1 0 1 77;
   OUpdate nat "step" (Some [[[1; 2]]; [[3; 4]]]) (Some [[[5; 6]; [7; 8]]; [[9; 1]; [2; 3]]]) (Some [[[0; 0]]; [[1; 0]]]) [("K", "v")];
   OAddError nat true "n" (EPer nat [[1; 1]; [2; 2]]);
   ORescale nat "r" (EShared nat [3; 3]);
   OWriteCube nat FErr 0 2 1 42].
Example C04_example :
  Linked nat exh exd /\ all_safe nat Nat.add Nat.mul exh exd ex_history
  /\ (let '(h, d) := drun nat Nat.add Nat.mul exh exd ex_history in
      frame_pixel nat h d FErr 0 2 1 = Some 42 /\ frame_pixel nat h d FErr 1 0 0 = Some 33
      /\ frame_header nat h d HExt 1 = Some [("HISTORY", "step"); ("K", "v")]).
Proof. split; [exact ex_linked|]. split; [vm_compute; tauto|vm_compute; tauto]. Qed.
Example C04_update_example : OwnAll nat exh exd.
Proof.
  intros k k' f f' [<-|[<-|[]]] [<-|[<-|[]]]; destruct f, f'; intro Q; vm_compute in Q; try discriminate Q; split; reflexivity.
Qed.

(** Finding: an update that raises ValueError for the shape of the error cube
    has already overwritten the data. *)
Theorem C04_update_atomic_refuted : exists (h : heap nat) d hist nd ne nq en h' d',
  Linked nat h d /\ update_step nat h d hist nd ne nq en = (h', d', Some ValueError)
  /\ cube_pixel nat h' d' FData 0 0 0 <> cube_pixel nat h d FData 0 0 0.
Proof.
  exists exh, exd, "step", (Some [[[1; 2]]; [[3; 4]]]), (Some 0), None, [].
  eexists. eexists. split; [exact ex_linked|]. split; [reflexivity|]. vm_compute. discriminate.
Qed.
Print Assumptions C04_update_atomic_refuted.

(** Finding: add_error_term with a too short per-frame array raises
    IndexError and leaves the first frame disconnected from the cube. *)
Theorem C04_link_after_exception_refuted : exists (h : heap nat) d h' d' h'',
  Linked nat h d
  /\ ds_add_error nat Nat.add true "n" h d (EPer nat [[1; 1]]) = (h', d', Some IndexError)
  /\ write_frame nat h' d' FErr 0 0 0 99 = Ok h''
  /\ frame_pixel nat h'' d' FErr 0 0 0 = Some 99 /\ cube_pixel nat h'' d' FErr 0 0 0 <> Some 99.
Proof.
  exists exh, exd. do 3 eexists. split; [exact ex_linked|]. split; [reflexivity|]. split; [reflexivity|].
  split; [vm_compute; reflexivity|vm_compute; discriminate].
Qed.
Print Assumptions C04_link_after_exception_refuted.

(** * C05 *)

(** The sub-dataset: linked, the selected frames in order with their pixels;
    the parent's cubes and the unselected frames are untouched. *)
Theorem C05_slice : forall V (h : heap V) d idx h' s,
  Linked V h d -> NoDup idx -> getitem V h d idx = Ok (h', s) ->
  Linked V h' s
  /\ List.length (ds_frames s) = List.length idx
  /\ (forall j i, nth_error idx j = Some i -> nth_error (ds_frames s) j = nth_error (ds_frames d) i)
  /\ (forall f j i l p, nth_error idx j = Some i -> cube_pixel V h' s f j l p = cube_pixel V h d f i l p)
  /\ (forall f i l p, cube_pixel V h' d f i l p = cube_pixel V h d f i l p)
  /\ (forall i, ~ In i idx -> forall f l p, frame_pixel V h' d f i l p = cube_pixel V h' d f i l p)
  /\ hdr V h' = hdr V h.
Proof. exact slice_spec. Qed.
Print Assumptions C05_slice.

(** Finding, for every selection: a write through a selected frame of the
    parent goes to the sub-dataset's cube and not to the parent's. *)
Theorem C05_selected_frames_leave_parent : forall V (h : heap V) d idx h' s,
  Linked V h d -> NoDup idx -> getitem V h d idx = Ok (h', s) ->
  forall f j i l p x h'', nth_error idx j = Some i ->
    write_frame V h' d f i l p x = Ok h'' ->
    cube_pixel V h'' s f j l p = Some x
    /\ (forall f' i' l' p', cube_pixel V h'' d f' i' l' p' = cube_pixel V h' d f' i' l' p').
Proof. exact slice_steals_frames. Qed.
Print Assumptions C05_selected_frames_leave_parent.

Theorem C05_parent_stays_linked_refuted : exists (h : heap nat) d idx h' s h'',
  Linked nat h d /\ getitem nat h d idx = Ok (h', s)
  /\ write_frame nat h' d FData 1 0 0 99 = Ok h''
  /\ frame_pixel nat h'' d FData 1 0 0 = Some 99 /\ cube_pixel nat h'' d FData 1 0 0 = Some 30.
Proof.
  exists exh, exd, [1]. do 3 eexists. split; [exact ex_linked|]. split; [reflexivity|]. split; [reflexivity|].
  split; vm_compute; reflexivity.
Qed.
Print Assumptions C05_parent_stays_linked_refuted.

Example C05_example : exists h' s, Linked nat exh exd /\ NoDup [1; 0] /\ getitem nat exh exd [1; 0] = Ok (h', s)
  /\ frame_pixel nat h' s FErr 0 0 1 = Some 41.
Proof.
  do 2 eexists. split; [exact ex_linked|]. split; [repeat constructor; cbn; intuition congruence|].
  split; [reflexivity|vm_compute; reflexivity].
Qed.

(** * C06 *)

(** A full copy shows the same pixels and headers (plus the version stamps in
    the extension header), is linked, and changes nothing in the original. *)
Theorem C06_deep_copy_equal : forall V stamps (h : heap V) d h' d',
  WellFormed V h d -> Linked V h d -> ds_copy V true stamps h d = Ok (h', d') ->
  Linked V h' d'
  /\ same_observations V h d h' d
  /\ (forall f i l p, cube_pixel V h' d' f i l p = cube_pixel V h d f i l p)
  /\ (forall f i, frame_header V h' d' f i =
        match frame_header V h d f i with
        | Some x => Some (match f with HExt => set_keys stamps x | _ => x end)
        | None => None end).
Proof. exact (fun V stamps h d h' d' W L H => proj2 (deep_copy_spec V stamps h d h' d' W L H)). Qed.
Print Assumptions C06_deep_copy_equal.

(** Whatever was done to the two before, an operation on one of them is
    invisible in the other. *)
Theorem C06_deep_copy_independent : forall V quad mul stamps (h : heap V) d h' d' os bo,
  WellFormed V h d -> Linked V h d -> ds_copy V true stamps h d = Ok (h', d') ->
  let s := both_run V quad mul (h', d, d') os in
  let s' := both_step V quad mul s bo in
  (fst bo = true -> same_observations V (fst (fst s)) (snd s) (fst (fst s')) (snd s'))
  /\ (fst bo = false -> same_observations V (fst (fst s)) (snd (fst s)) (fst (fst s')) (snd (fst s'))).
Proof. exact deep_copy_independent. Qed.
Print Assumptions C06_deep_copy_independent.

(** With copy_data=False no later operation on the copy changes a pixel of the
    original ... *)
Theorem C06_shallow_pixels_independent : forall V quad mul stamps (h : heap V) d h' d' os,
  WellFormed V h d -> Linked V h d -> ds_copy V false stamps h d = Ok (h', d') ->
  let h2 := fst (drun V quad mul h' d' os) in
  (forall f i l p, cube_pixel V h2 d f i l p = cube_pixel V h d f i l p)
  /\ (forall f i l p, frame_pixel V h2 d f i l p = frame_pixel V h d f i l p).
Proof. exact shallow_pixels_independent. Qed.
Print Assumptions C06_shallow_pixels_independent.

(** ... but (finding) every keyword set in the copy is set in the original. *)
Theorem C06_shallow_headers_shared : forall V stamps (h : heap V) d h' d',
  WellFormed V h d -> Linked V h d -> ds_copy V false stamps h d = Ok (h', d') ->
  forall f i key v h'' hd, set_key V h' d' f i key v = Ok h'' ->
    frame_header V h' d f i = Some hd -> frame_header V h'' d f i = Some (hset key v hd).
Proof. exact shallow_header_shared. Qed.
Print Assumptions C06_shallow_headers_shared.

Theorem C06_shallow_headers_independent_refuted : exists (h : heap nat) d stamps h' d' h'',
  WellFormed nat h d /\ Linked nat h d /\ ds_copy nat false stamps h d = Ok (h', d')
  /\ set_key nat h' d' HExt 0 "DATALVL" "L2a" = Ok h''
  /\ (match frame_header nat h d HExt 0 with Some x => hget "DATALVL" x | None => None end) = None
  /\ (match frame_header nat h'' d HExt 0 with Some x => hget "DATALVL" x | None => None end) = Some "L2a".
Proof.
  exists exh, exd, [("DRPVERSN", "2")], (fst (ex_copy false)), (snd (ex_copy false)).
  destruct (set_key nat (fst (ex_copy false)) (snd (ex_copy false)) HExt 0 "DATALVL" "L2a") as [h''|e] eqn:E;
    [|vm_compute in E; discriminate].
  exists h''. split; [exact ex_wf|]. split; [exact ex_linked|]. split; [exact (ex_copy_ok false)|].
  split; [reflexivity|]. split; [vm_compute; reflexivity|].
  assert (H0 : exists hd, frame_header nat (fst (ex_copy false)) exd HExt 0 = Some hd) by (eexists; vm_compute; reflexivity).
  destruct H0 as [hd H0].
  rewrite (shallow_header_shared nat _ exh exd _ _ ex_wf ex_linked (ex_copy_ok false) HExt 0 _ _ h'' hd E H0).
  apply hget_hset_same. discriminate.
Qed.
Print Assumptions C06_shallow_headers_independent_refuted.

Example C06_example : exists h' d', WellFormed nat exh exd /\ Linked nat exh exd
  /\ ds_copy nat true [("DRPVERSN", "2")] exh exd = Ok (h', d')
  /\ (let s := both_run nat Nat.add Nat.mul (h', exd, d') [(true, OWriteFrame nat FData 0 0 0 5); (false, OAddError nat true "n" (EShared nat [1; 1]))] in
      cube_pixel nat (fst (fst s)) (snd (fst s)) FData 0 0 0 = Some 5
      /\ cube_pixel nat (fst (fst s)) (snd s) FData 0 0 0 = Some 0
      /\ cube_pixel nat (fst (fst s)) (snd (fst s)) FErr 1 0 1 = Some 41
      /\ cube_pixel nat (fst (fst s)) (snd s) FErr 1 0 1 = Some 42).
Proof.
  exists (fst (ex_copy true)), (snd (ex_copy true)).
  split; [exact ex_wf|]. split; [exact ex_linked|]. split; [exact (ex_copy_ok true)|]. vm_compute. tauto.
Qed.

(** * C16 *)

(** After any sequence of calls the squared total error is the initial one
    plus the squares of the terms. *)
Theorem C16_quadrature : forall track ts (h : heap R) d h' d',
  Linked R h d -> add_run R quadR track h d ts = (h', d', None) ->
  forall i p x xs, cube_pixel R h d FErr i 0 p = Some x ->
    Forall2 (fun t y => exists e, err_for R (snd t) i = Some e /\ nth_error e p = Some y) ts xs ->
    exists x', cube_pixel R h' d' FErr i 0 p = Some x' /\ (x' ^ 2 = x ^ 2 + sumsq xs)%R
               /\ ((0 <= x)%R -> (0 <= x')%R).
Proof. exact add_run_quadrature. Qed.
Print Assumptions C16_quadrature.

(** The order of the calls does not matter. *)
Theorem C16_order_independent : forall track (h : heap R) d ts ts' h1 d1 h2 d2,
  Linked R h d -> Permutation ts ts' ->
  add_run R quadR track h d ts = (h1, d1, None) -> add_run R quadR track h d ts' = (h2, d2, None) ->
  forall i p, nth_error (buf R h (cube FErr d)) i <> Some [] ->
    cube_pixel R h1 d1 FErr i 0 p = cube_pixel R h2 d2 FErr i 0 p.
Proof. exact (fun track => add_run_order R quadR quadR_swap track). Qed.
Print Assumptions C16_order_independent.

(** Tracked terms are appended unchanged, otherwise the number of layers stays. *)
Theorem C16_layers : forall (V : Type) (quad : V -> V -> V) track ts (h : heap V) d h' d',
  Linked V h d -> add_run V quad track h d ts = (h', d', None) ->
  forall i b, nth_error (buf V h (cube FErr d)) i = Some b -> b <> [] ->
  exists b', nth_error (buf V h' (cube FErr d')) i = Some b'
    /\ List.length b' = (List.length b + (if track then List.length ts else 0))%nat
    /\ (forall j, (0 < j < List.length b)%nat -> nth_error b' j = nth_error b j)
    /\ (track = true -> forall j t, nth_error ts j = Some t -> nth_error b' (List.length b + j) = err_for V (snd t) i).
Proof. exact add_run_layers. Qed.
Print Assumptions C16_layers.

(** The cards [Layer_n] name the layers. *)
Theorem C16_layer_names : forall (V : Type) (quad : V -> V -> V) track ts (h : heap V) d h' d',
  Linked V h d -> OwnHeaders V h d -> add_run V quad track h d ts = (h', d', None) ->
  forall i k b, nth_error (ds_frames d) i = Some k -> nth_error (buf V h (cube FErr d)) i = Some b -> b <> [] ->
  forall m, (1 < m)%nat ->
    hget (layer_key m) (hdr V h' (im_errh (img V h' k))) =
      match (if track && Nat.ltb (List.length b) m then nth_error ts (m - 1 - List.length b) else None) with
      | Some t => Some (fst t)
      | None => hget (layer_key m) (hdr V h (im_errh (img V h k)))
      end.
Proof. exact add_run_names. Qed.
Print Assumptions C16_layer_names.

(** Data, DQ and the other headers are untouched by an error method; the error
    cube of frame i is rescaled layer by layer. *)
Theorem C16_rescale : forall (V : Type) (mul : V -> V -> V) name (h : heap V) d a h' d',
  Linked V h d -> ds_rescale V mul name h d a = (h', d', None) ->
  ds_frames d' = ds_frames d
  /\ (forall i, match nth_error (buf V h (cube FErr d)) i with
               | None => nth_error (buf V h' (cube FErr d')) i = None
               | Some b => exists e, err_for V a i = Some e
                   /\ nth_error (buf V h' (cube FErr d')) i = Some (map (fun ly => map2 mul ly e) b)
               end)
  /\ (forall f, f <> FErr -> cube f d' = cube f d /\ buf V h' (cube f d') = buf V h (cube f d))
  /\ (forall k f, im_hdr f (img V h' k) = im_hdr f (img V h k))
  /\ (forall x, (forall k, In k (ds_frames d) -> x <> im_errh (img V h k)) -> hdr V h' x = hdr V h x)
  /\ (OwnHeaders V h d -> forall i k b, nth_error (ds_frames d) i = Some k -> nth_error (buf V h (cube FErr d)) i = Some b ->
        hdr V h' (im_errh (img V h k)) =
        hset "HISTORY" (append "Errors rescaled by: " name) (hset "Layer_1" "combined_error" (hdr V h (im_errh (img V h k))))).
Proof. exact (fun V mul name => err_method_contents V _ _ _ (img_rescale_spec V mul name)). Qed.
Print Assumptions C16_rescale.

Definition ex_adds := add_run nat Nat.add true exh exd [("x", EShared nat [1; 2]); ("y", EPer nat [[3; 4]; [5; 6]])].
Example C16_example :
  Linked nat exh exd /\ OwnHeaders nat exh exd
  /\ snd ex_adds = None
  /\ nth_error (buf nat (fst (fst ex_adds)) (cube FErr (snd (fst ex_adds)))) 1 = Some [[46; 49]; [1; 2]; [5; 6]]
  /\ (match frame_header nat (fst (fst ex_adds)) (snd (fst ex_adds)) HErr 1 with Some x => hget "Layer_3" x | None => None end) = Some "y".
Proof.
  split; [exact ex_linked|]. split.
  - intros k k' [<-|[<-|[]]] [<-|[<-|[]]] Q; try reflexivity; vm_compute in Q; discriminate.
  - split; [|split]; vm_compute; reflexivity.
Qed.
