(** Start-up: first step, and what does not hold. *)
From Coq Require Import List Arith Bool ZArith QArith String Ascii Lia.
From Verif Require Import Base CalDBModel CalDBSpec CalDBProofs SetupModel SetupSpec SetupProofs SetupConfigProofs SetupDbProofs SetupStartProofs.
Import ListNotations.
Local Open Scope list_scope.

(** step_1_initialize also makes the database file. *)
Theorem step_1_opens : forall home now hash d d1 s p, ends (start home now hash) d d1 (Ok s) -> s_caldb s = Some p ->
  exists d', ends (step_1 home now hash) d d' (Ok s) /\ only_db p d1 d' /\ d_dbs d' p = Some (rows_of d1 p).
Proof.
  intros home now hash d d1 s p H SP. destruct (open_eq p d1) as (tr & d' & E & _ & O & R). exists d'. split; [|auto]. unfold step_1. apply (ends_bind _ _ _ _ d d1 s); [exact H|]. rewrite SP. apply (ends_bind _ _ _ _ d1 d' tt); [unfold ends; rewrite E; auto|]. apply ends_pure. reflexivity.
Qed.

(** ** Witnesses *)
Definition h0 : text := tx "/h".
Definition hash0 : text -> string := fun _ => "1234"%string.
Definition empty_disk : disk := mkdisk Absent (fun q => if teqb q h0 then Some [] else None) (fun _ => None).
Definition run (d : disk) : list disk * disk * result settings := start h0 1%Q hash0 d.
Definition after (d : disk) : disk := snd (fst (run d)).
(** The state after so many changes. *)
Definition cut (k : nat) (d : disk) : disk := nth k (fst (fst (run d))) d.
Lemma cut_passes : forall k d, passes (start h0 1%Q hash0) d (cut k d).
Proof. intros k d. unfold cut, run, passes. destruct (lt_dec k (List.length (fst (fst (start h0 1%Q hash0 d))))) as [L|L]; [right; apply nth_In; exact L|left; apply nth_overflow; lia]. Qed.
Lemma ends_after : forall d r, snd (run d) = r -> ends (start h0 1%Q hash0) d (after d) r.
Proof. intros d r E. split; [reflexivity|exact E]. Qed.
Lemma h0_absolute : absolute h0.
Proof. split; [eexists; reflexivity|]. split; [apply one_line_check; reflexivity|]. intros t E. apply (f_equal (@rev ascii)) in E. rewrite rev_app_distr in E. discriminate E. Qed.
Lemma no_rows : forall d p dir, d_dbs d p = None \/ d_dbs d p = Some [] -> ~ covers d p dir.
Proof. intros d p dir [H|H] (b & r & r' & B & L & _); rewrite H in B; [discriminate B|]. injection B as <-. discriminate L. Qed.

Definition db0 : text := in_home h0 "corgidrp_caldb.csv".
Definition dir0 : text := in_home h0 "default_calibs".
Definition long : nat := List.length (default_text h0 db0).
Lemma unregistered : exists x d' s, passes (start h0 1%Q hash0) empty_disk x /\ ends (start h0 1%Q hash0) x d' (Ok s) /\ s_caldb s = Some db0 /\ d_dbs d' db0 = None.
Proof. exists (cut (long + 6) empty_disk), (after (cut (long + 6) empty_disk)), (home_settings h0). split; [apply cut_passes|]. split; [apply ends_after; vm_compute; reflexivity|]. split; vm_compute; reflexivity. Qed.
Lemma torn_config : exists x, passes (start h0 1%Q hash0) empty_disk x /\ ends (start h0 1%Q hash0) x x (Raise TypeError).
Proof.
  exists (cut 2 empty_disk). split; [apply cut_passes|]. assert (E : d_home (cut 2 empty_disk) = Folder (Some [])) by (vm_compute; reflexivity). assert (D : d_dirs (cut 2 empty_disk) (calibs_dir h0) <> None) by (vm_compute; discriminate).
  set (x := cut 2 empty_disk) in *. clearbody x. unfold ends, start, mbind. rewrite (settled h0 x [] E D). unfold update_settings, mbind, look, lift. rewrite E. cbn. auto.
Qed.
Lemma torn_path : exists x d' s dir, passes (start h0 1%Q hash0) empty_disk x /\ ends (start h0 1%Q hash0) x d' (Ok s) /\ s_calibs s = Some dir /\ dir <> dir0 /\ present d' dir detector.
Proof.
  set (k := (2 + List.length (tx "[PATH]" ++ [eol] ++ tx "caldb = " ++ db0 ++ [eol] ++ tx "default_calibs = /h"))%nat). exists (cut k empty_disk), (after (cut k empty_disk)), (mksettings (Some db0) (Some h0) false false false), h0. split; [apply cut_passes|]. split; [apply ends_after; vm_compute; reflexivity|]. split; [reflexivity|]. split; [discriminate|].
  apply exists_iff. vm_compute. reflexivity.
Qed.
Lemma damaged_default : exists x d1 d2 s l, passes (start h0 1%Q hash0) empty_disk x /\ ends (start h0 1%Q hash0) x d1 (Raise PyException) /\ ends (start h0 1%Q hash0) d1 d2 (Ok s) /\ d_dirs d2 dir0 = Some l /\ In (detector, Damaged) l /\ ~ covers d2 db0 dir0.
Proof.
  set (x := cut (long + 3) empty_disk). exists x, (after x), (after (after x)), (home_settings h0). eexists. split; [apply cut_passes|]. split; [apply ends_after; vm_compute; reflexivity|]. split; [apply ends_after; vm_compute; reflexivity|]. split; [vm_compute; reflexivity|]. split; [left; reflexivity|]. apply no_rows. right. vm_compute. reflexivity.
Qed.
(** Another database. *)
Definition other_text : text := unlines [tx "[PATH]"; tx "caldb = /data/db.csv"; tx "default_calibs = /h/.corgidrp/default_calibs"].
Definition other_disk : disk := with_home (Folder (Some other_text)) (after empty_disk).
Lemma other_database : covers (after empty_disk) db0 dir0 /\ exists d' s, ends (start h0 1%Q hash0) other_disk d' (Ok s) /\ s_caldb s = Some (tx "/data/db.csv") /\ s_calibs s = Some dir0 /\ d_dbs d' (tx "/data/db.csv") = None.
Proof.
  split.
  - destruct (start_fresh h0 1%Q hash0 empty_disk) as (d' & [E _] & C0); [reflexivity|exact h0_absolute|intros [X|[X|[]]]; discriminate X|left; reflexivity|left; reflexivity|split; [constructor|intros r []]|]. unfold after, run. rewrite E. exact C0.
  - exists (after other_disk), (mksettings (Some (tx "/data/db.csv")) (Some dir0) false false false). split; [apply ends_after; vm_compute; reflexivity|]. split; [reflexivity|]. split; [reflexivity|]. vm_compute. reflexivity.
Qed.
(** Files of the old kind. *)
Definition old_text : text := unlines [tx "[PATH]"; tx "caldb = /data/db.csv"; tx "[DATA]"; tx "track_individual_errors = True"].
Definition old_config : list (text * list (text * text)) := [(tx "PATH", [(tx "caldb", tx "/data/db.csv")]); (tx "DATA", [(tx "track_individual_errors", tx "True")])].
Definition old_disk : disk := with_home (Legacy old_text) empty_disk.
Lemma old_written : written old_text old_config.
Proof.
  exists [], ([tx "[PATH]"; tx "caldb = /data/db.csv"; tx "[DATA]"; tx "track_individual_errors = True"] ++ [[]]). split; [cbn [app]; apply has_unlines; repeat (apply Forall_cons; [apply one_line_check; reflexivity|]); apply Forall_nil|]. split; [constructor|]. cbn [app].
  apply (sections_cons (tx "[PATH]") [_] _ (tx "PATH")); [apply (heads_eq (tx "PATH")); discriminate| | |intros [X|[]]; discriminate X].
  - apply body_option; [apply (assigns_eq (tx "caldb") (tx "/data/db.csv")); plain_key|intros []|constructor].
  - apply (sections_cons (tx "[DATA]") [_; _] [] (tx "DATA")); [apply (heads_eq (tx "DATA")); discriminate| |constructor|intros []]. apply body_option; [apply (assigns_eq (tx "track_individual_errors") (tx "True")); plain_key|intros []|]. apply body_skip; [left; constructor|constructor].
Qed.
Lemma old_kept : exists d', ends (start h0 1%Q hash0) old_disk d' (Ok (mksettings (Some (tx "/data/db.csv")) (Some dir0) false false false)).
Proof. exists (after old_disk). apply ends_after. vm_compute. reflexivity. Qed.
Lemma old_lost : exists x d' s, passes (start h0 1%Q hash0) old_disk x /\ ends (start h0 1%Q hash0) x d' (Ok s) /\ s_caldb s = Some db0.
Proof. exists (cut 0 old_disk), (after (cut 0 old_disk)), (home_settings h0). split; [apply cut_passes|]. split; [apply ends_after; vm_compute; reflexivity|reflexivity]. Qed.
Definition bare_text : text := unlines [tx "[DATA]"; tx "track_individual_errors = True"].
Lemma old_without : exists d1 d2 s, ends (start h0 1%Q hash0) (with_home (Legacy bare_text) empty_disk) d1 (Raise KeyError) /\ ends (start h0 1%Q hash0) d1 d2 (Ok s) /\ s_track s = false.
Proof. exists (after (with_home (Legacy bare_text) empty_disk)), (after (after (with_home (Legacy bare_text) empty_disk))), (home_settings h0). split; [apply ends_after; vm_compute; reflexivity|]. split; [apply ends_after; vm_compute; reflexivity|reflexivity]. Qed.
(** Flags. *)
Definition yes_text (v : string) : text := unlines [tx "[DATA]"; tx "track_individual_errors = " ++ tx v].
Lemma yes_refused : forall v d, v = "yes"%string \/ v = "1"%string \/ v = "on"%string -> d_home d = Folder (Some (yes_text v)) -> update_settings d = ([], d, Raise KeyError).
Proof. intros v d V H. unfold update_settings, mbind, look, lift. rewrite H. destruct V as [->|[->| ->]]; vm_compute; reflexivity. Qed.
(** Percent signs in the home directory. *)
Lemma percent_home : exists d', ends (start (tx "/h%s") 1%Q hash0) (mkdisk Absent (fun _ => None) (fun _ => None)) d' (Raise ValueError).
Proof. eexists. split; [reflexivity|]. vm_compute. reflexivity. Qed.
Lemma percent_twice : exists d' d'', ends (start (tx "/h%%s") 1%Q hash0) (mkdisk Absent (fun _ => None) (fun _ => None)) d' (Raise PyException) /\ ends (start (tx "/h%%s") 1%Q hash0) d' d'' (Raise PyException).
Proof. eexists. eexists. split; [split; [reflexivity|vm_compute; reflexivity]|]. split; [reflexivity|vm_compute; reflexivity]. Qed.
