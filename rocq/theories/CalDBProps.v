(** Property theorems C01, C02, C03. *)
From Coq Require Import List ZArith QArith Bool String.
From Verif Require Import Base CalDBModel CalDBSpec CalDBProofs CalDBQueryProofs CalDBDiskProofs.
Import ListNotations.
Local Open Scope string_scope.
Local Open Scope list_scope.

(** * C01 *)

(** Any history of operations behaves as the abstract ordered map. *)
Theorem C01_history_is_map : forall d h evs,
  NoDup (paths d) -> (forall r, In r d -> clean_row r) -> clean_history h -> HistoryEvents h evs ->
  paths (run d h) = keys_after (paths d) evs
  /\ (forall p, lookup (run d h) p = map_after (lookup d) evs p)
  /\ NoDup (paths (run d h)).
Proof. exact run_is_map. Qed.
Print Assumptions C01_history_is_map.

Theorem C01_every_history_has_events : forall h, exists evs, HistoryEvents h evs.
Proof. exact events_total. Qed.
Print Assumptions C01_every_history_has_events.

Theorem C01_remove_absent : forall d e r,
  (forall r, In r d -> clean_row r) -> clean_entry e -> Describes e r ->
  (step d (ORemove e) = (d, Some ValueError) <-> ~ In (e_path e) (paths d))
  /\ (In (e_path e) (paths d) -> snd (step d (ORemove e)) = None).
Proof. exact remove_absent_raises. Qed.
Print Assumptions C01_remove_absent.

(** The hypotheses are met by a history with creations, an update, a scan and
    a removal; the final table has the two expected rows. *)
Example C01_example :
  let h := [OCreate ex_dark1; OCreate ex_flat; OScan [ex_image; ex_dark2; ex_dark1];
            ORemove ex_flat; ORemove ex_flat] in
  clean_history h /\ NoDup (paths []) /\
  run [] h = [ex_row ex_dark1; ex_row ex_dark2].
Proof.
  split; [|split; [constructor|vm_compute; reflexivity]].
  intros o e Ho He. repeat (destruct Ho as [<-|Ho]; [cbn in He;
    repeat (destruct He as [<-|He]; [vm_compute; repeat split; intros v Hv; injection Hv as <-; reflexivity|]);
    destruct He|]); destruct Ho.
Qed.

(** Without the naming convention the claim fails: an entry can be lost because
    the membership test looks at every column. *)
Theorem C01_any_column_membership_refuted :
  exists d e r, NoDup (paths d) /\ Describes e r /\ ~ In (e_path e) (paths d)
    /\ snd (step d (OCreate e)) = None /\ lookup (fst (step d (OCreate e))) (e_path e) = None.
Proof.
  exists [ex_row (ex_entry "/cal/a.fits" FlatField 1 1 1 "/cal/b.fits")],
         (ex_entry "/cal/b.fits" FlatField 2 2 2 "IMAGE"),
         (ex_row (ex_entry "/cal/b.fits" FlatField 2 2 2 "IMAGE")).
  split; [repeat constructor; intros []|].
  split; [apply row_of_entry_describes; reflexivity|].
  split; [intros [H|[]]; discriminate|]. split; reflexivity.
Qed.
Print Assumptions C01_any_column_membership_refuted.

(** * C02 *)

Theorem C02_returns_best : forall frame c d p, readable frame ->
  (get_calib frame c d = Ok p <-> exists r, Best frame c d r /\ r_path r = p).
Proof. exact get_calib_best. Qed.
Print Assumptions C02_returns_best.

Theorem C02_none_eligible : forall frame c d, readable frame ->
  (get_calib frame c d = Raise ValueError <-> forall r, In r d -> ~ Eligible frame c r)
  /\ (forall x, get_calib frame c d = Raise x -> x = ValueError).
Proof. exact get_calib_none. Qed.
Print Assumptions C02_none_eligible.

Theorem C02_unreadable_frame : forall f c d,
  ~ ReadableFrame f -> exists x, get_calib (Some f) c d = Raise x.
Proof. exact get_calib_unreadable. Qed.
Print Assumptions C02_unreadable_frame.

Theorem C02_query_changes_nothing : forall d f c, fst (step d (OGet f c)) = d.
Proof. intros d f c. cbn. destruct (get_calib f c d); reflexivity. Qed.
Print Assumptions C02_query_changes_nothing.

Example C02_example :
  let d := map ex_row [ex_dark1; ex_dark2; ex_dark3; ex_flat] in
  readable (Some ex_image) /\ get_calib (Some ex_image) Dark d = Ok "/cal/dark2.fits"
  /\ get_calib None Dark d = Ok "/cal/dark3.fits"
  /\ get_calib (Some ex_image) KGain d = Raise ValueError.
Proof. vm_compute. repeat split; congruence. Qed.

(** * C03 *)

Theorem C03_shared_file_is_one_database : forall h os w d,
  shared_history h os -> w_disk w = Some d -> w_disk (fst (w_run w h)) = Some (run d os).
Proof. exact w_run_disk. Qed.
Print Assumptions C03_shared_file_is_one_database.

Theorem C03_shared_results : forall h os w d i o,
  shared_history h os -> w_disk w = Some d ->
  snd (w_step i true o (fst (w_run w h))) = snd (step (run d os) o).
Proof. exact shared_outputs. Qed.
Print Assumptions C03_shared_results.

Theorem C03_shared_queries : forall h os w d i f c,
  shared_history h os -> w_disk w = Some d ->
  snd (w_get i true f c (fst (w_run w h))) = get_calib f c (run d os).
Proof. exact shared_get. Qed.
Print Assumptions C03_shared_queries.

(** Opening creates an empty file if there is none, otherwise reads it; it never
    touches other instances or an existing file. *)
Theorem C03_open : forall i w,
  (w_disk w = None -> w_disk (open i w) = Some [] /\ w_mem (open i w) i = [])
  /\ (forall d, w_disk w = Some d -> w_disk (open i w) = Some d /\ w_mem (open i w) i = d)
  /\ (forall j, j <> i -> w_mem (open i w) j = w_mem w j).
Proof. exact open_spec. Qed.
Print Assumptions C03_open.

Theorem C03_shared_from_nothing : forall i h os w,
  shared_history h os -> w_disk w = None ->
  w_disk (fst (w_run w (WOpen i :: h))) = Some (run [] os).
Proof. exact shared_from_nothing. Qed.
Print Assumptions C03_shared_from_nothing.

Example C03_example :
  let h := [WOp 0 true (OCreate ex_dark1); WOpen 1; WOp 1 true (OCreate ex_flat);
            WOp 0 true (ORemove ex_dark1)] in
  shared_history h [OCreate ex_dark1; OCreate ex_flat; ORemove ex_dark1]
  /\ w_disk (fst (w_run (mkworld (Some []) (fun _ => [])) h)) = Some [ex_row ex_flat].
Proof.
  split; [|vm_compute; reflexivity].
  apply (shh_cons _ _ [_]); [constructor|]. apply (shh_cons _ _ []); [constructor|].
  apply (shh_cons _ _ [_]); [constructor|]. apply (shh_cons _ _ [_]); [constructor|constructor].
Qed.

(** A session with to_disk=False leaves the file alone until it is saved. *)
Theorem C03_memory_session : forall i os w d, w_disk w = Some d ->
  w_disk (fst (w_run w (WOpen i :: mem_history i os))) = Some d
  /\ w_disk (fst (w_run w (WOpen i :: mem_history i os ++ [WSave i]))) = Some (run d os).
Proof. exact mem_session. Qed.
Print Assumptions C03_memory_session.

(** But an unsaved entry is dropped by the next to_disk=True operation. *)
Theorem C03_unsaved_entry_lost_refuted :
  exists w e1 e2 r, w_disk w = Some [] /\ w_mem w 0 = [] /\ Describes e1 r /\
    let w' := fst (w_run w [WOp 0 false (OCreate e1); WOp 0 true (OCreate e2)]) in
    lookup (w_mem w' 0) (e_path e1) = None.
Proof.
  exists (mkworld (Some []) (fun _ => [])), ex_dark1, ex_flat, (ex_row ex_dark1).
  split; [reflexivity|]. split; [reflexivity|].
  split; [apply row_of_entry_describes; reflexivity|vm_compute; reflexivity].
Qed.
Print Assumptions C03_unsaved_entry_lost_refuted.

(** Exact outcome of every interleaving of two operations: serial when the
    windows do not overlap, and otherwise the last save overwrites the other. *)
Theorem C03_interleavings : forall s o1 o2 d,
  complete s -> single o1 -> single o2 ->
  let final := fst (fst (interleave o1 o2 s d thread0 thread0)) in
  (before_all false 0 s = 3%nat -> final = run d [o1; o2])
  /\ (before_all true 0 s = 3%nat -> final = run d [o2; o1])
  /\ ((before_all false 0 s < 3)%nat -> (before_all true 0 s < 3)%nat ->
      (before_all false 2 s = 3%nat -> final = overwrite o2 d (run d [o1]))
      /\ (before_all true 2 s = 3%nat -> final = overwrite o1 d (run d [o2]))
      /\ (before_all false 2 s = 3%nat \/ before_all true 2 s = 3%nat)).
Proof. exact interleave_cases. Qed.
Print Assumptions C03_interleavings.

Theorem C03_lost_update_refuted :
  exists s e1 e2 r1 r2, complete s /\ Describes e1 r1 /\ Describes e2 r2 /\ e_path e1 <> e_path e2 /\
    let '(disk, t1, t2) := interleave (OCreate e1) (OCreate e2) s [] thread0 thread0 in
    t_exn t1 = None /\ t_exn t2 = None /\ lookup disk (e_path e1) = None.
Proof.
  exists [true; false; true; true; false; false], ex_dark1, ex_flat, (ex_row ex_dark1), (ex_row ex_flat).
  split; [split; reflexivity|].
  split; [apply row_of_entry_describes; reflexivity|].
  split; [apply row_of_entry_describes; reflexivity|].
  split; [discriminate|]. vm_compute. auto.
Qed.
Print Assumptions C03_lost_update_refuted.

(** A crash inside a save loses every row not yet written, including rows that
    were safely on disk before. *)
Theorem C03_crash_loses_rows : forall k new r,
  NoDup (paths new) -> (k < List.length new)%nat -> nth_error new k = Some r ->
  exists d, crash_in_save k new = Some d /\ lookup d (r_path r) = None.
Proof. exact crash_loses. Qed.
Print Assumptions C03_crash_loses_rows.

Theorem C03_crash_refuted :
  exists old e k, let new := fst (step old (OCreate e)) in
    crash_in_save k new <> Some old /\ crash_in_save k new <> Some new.
Proof.
  exists [ex_row ex_dark1], ex_flat, 0%nat. vm_compute. split; discriminate.
Qed.
Print Assumptions C03_crash_refuted.
