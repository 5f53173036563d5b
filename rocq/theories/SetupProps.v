(** C59: start-up. *)
From Coq Require Import List Arith Bool ZArith QArith String Ascii Lia.
From Verif Require Import Base CalDBModel CalDBSpec SetupModel SetupSpec SetupProofs SetupConfigProofs SetupDbProofs SetupStartProofs SetupRefuteProofs.
Import ListNotations.
Local Open Scope list_scope.

Theorem C59_settings : forall d t c s, d_home d = Folder (Some t) -> written t c -> (update_settings d = ([], d, Ok s) <-> settings_are c s).
Proof. exact settings_iff. Qed.
Print Assumptions C59_settings.
Theorem C59_settings_absent : forall d s, (d_home d = Absent \/ d_home d = Folder None \/ exists t, d_home d = Legacy t) -> (update_settings d = ([], d, Ok s) <-> s = mksettings None None false false false).
Proof. exact settings_absent. Qed.
Print Assumptions C59_settings_absent.
Theorem C59_settings_read_only : forall d tr d' r, update_settings d = (tr, d', r) -> tr = [] /\ d' = d.
Proof. exact settings_only_read. Qed.
Print Assumptions C59_settings_read_only.
Theorem C59_config_kept : forall home d t, absolute home -> d_home d = Folder (Some t) ->
  (exists d', ends (create_config_dir home) d d' (Ok tt) /\ with_folder home (Folder (Some t)) d d') /\ forall x, passes (create_config_dir home) d x -> d_home x = Folder (Some t).
Proof. exact config_kept. Qed.
Print Assumptions C59_config_kept.
Theorem C59_config_fresh : forall home d, absolute home -> d_home d = Absent \/ d_home d = Folder None ->
  exists d', (exists u, expands home u) /\ ends (create_config_dir home) d d' (Ok tt) /\ with_folder home (Folder (Some (default_text home (in_home home "corgidrp_caldb.csv")))) d d'
             \/ ~ (exists u, expands home u) /\ ends (create_config_dir home) d d' (Raise ValueError) /\ with_folder home (Folder None) d d'.
Proof. exact config_fresh. Qed.
Print Assumptions C59_config_fresh.
Theorem C59_config_legacy : forall home d t c, absolute home -> d_home d = Legacy t -> written t c ->
  (forall v u, stored c "PATH" "caldb" v -> expands v u -> one_line u -> (exists w, expands u w) -> (exists w, expands home w) ->
    exists d', ends (create_config_dir home) d d' (Ok tt) /\ with_folder home (Folder (Some (default_text home u))) d d')
  /\ (~ ((exists w, expands home w) /\ exists v u w, stored c "PATH" "caldb" v /\ expands v u /\ expands u w) ->
    exists d' e, ends (create_config_dir home) d d' (Raise e) /\ with_folder home (Folder None) d d').
Proof. exact config_legacy. Qed.
Print Assumptions C59_config_legacy.
Theorem C59_config_crash : forall home d x, absolute home -> passes (create_config_dir home) d x ->
  (forall p, d_dbs x p = d_dbs d p) /\ (forall p, d_dirs x p = d_dirs d p \/ p = in_home home "default_calibs" /\ d_dirs d p = None /\ d_dirs x p = Some [])
  /\ (d_home x = d_home d \/ (exists t, d_home d = Legacy t) /\ d_home x = Absent
      \/ (forall t, d_home d <> Folder (Some t)) /\ (d_home x = Folder None \/ exists d' a b, ends (create_config_dir home) d d' (Ok tt) /\ d_home d' = Folder (Some (a ++ b)) /\ d_home x = Folder (Some a))).
Proof. exact config_crash. Qed.
Print Assumptions C59_config_crash.
Theorem C59_config_values : forall home caldb u v d, absolute home -> one_line caldb -> trimmed caldb -> expands home u -> expands caldb v -> d_home d = Folder (Some (default_text home caldb)) ->
  update_settings d = ([], d, Ok (mksettings (Some v) (Some (u ++ tx "/.corgidrp/default_calibs")) false false false)).
Proof. exact default_settings. Qed.
Print Assumptions C59_config_values.
Theorem C59_defaults_present : forall now hash s dir d, s_calibs s = Some dir -> present d dir detector -> present d dir matrices -> initialize now hash s d = ([], d, Ok tt).
Proof. exact defaults_present. Qed.
Print Assumptions C59_defaults_present.
Theorem C59_defaults_missing : forall now hash s dir p d l, (forall q, is_abs (hash q) = false) -> absolute dir -> s_calibs s = Some dir -> s_caldb s = Some p -> d_dirs d dir = Some l -> honest dir l -> tidy (rows_of d p) ->
  ~ (present d dir detector /\ present d dir matrices) ->
  exists d' r l', ends (initialize now hash s) d d' r /\ completed dir l l' /\ d_dirs d' dir = Some l' /\ d_home d' = d_home d /\ (forall q, q <> dir -> d_dirs d' q = d_dirs d q) /\ (forall q, q <> p -> d_dbs d' q = d_dbs d q)
    /\ (r = Ok tt <-> loadable l) /\ (loadable l -> exists b', d_dbs d' p = Some b' /\ entered l' (rows_of d p) b') /\ ((exists n, fits_name n /\ In (n, Damaged) l) -> d_dbs d' p = Some (rows_of d p)).
Proof. exact defaults_missing. Qed.
Print Assumptions C59_defaults_missing.
Theorem C59_defaults_no_directory : forall now hash s dir d, s_calibs s = Some dir -> d_dirs d dir = None -> initialize now hash s d = ([], d, Raise PyException).
Proof. exact defaults_no_directory. Qed.
Print Assumptions C59_defaults_no_directory.
Theorem C59_defaults_unset : forall now hash s d, s_calibs s = None -> initialize now hash s d = ([], d, Raise TypeError).
Proof. exact defaults_unset. Qed.
Print Assumptions C59_defaults_unset.
Theorem C59_start_fresh : forall home now hash d, (forall q, is_abs (hash q) = false) -> absolute home -> ~ In "%"%char home ->
  d_home d = Absent \/ d_home d = Folder None -> d_dirs d (in_home home "default_calibs") = None \/ d_dirs d (in_home home "default_calibs") = Some [] -> tidy (rows_of d (in_home home "corgidrp_caldb.csv")) ->
  exists d', ends (start home now hash) d d' (Ok (mksettings (Some (in_home home "corgidrp_caldb.csv")) (Some (in_home home "default_calibs")) false false false)) /\ covers d' (in_home home "corgidrp_caldb.csv") (in_home home "default_calibs").
Proof. exact start_fresh. Qed.
Print Assumptions C59_start_fresh.
Theorem C59_start_again : forall home now hash now' hash' d d' s, ends (start home now hash) d d' (Ok s) -> start home now' hash' d' = ([], d', Ok s).
Proof. exact start_again. Qed.
Print Assumptions C59_start_again.
Theorem C59_start_files : forall home now hash d x, passes (start home now hash) d x -> files_kept d x.
Proof. exact start_keeps_files. Qed.
Print Assumptions C59_start_files.
Theorem C59_start_present : forall home now hash d t c s dir, absolute home -> d_home d = Folder (Some t) -> written t c -> settings_are c s -> s_calibs s = Some dir -> present d dir detector -> present d dir matrices ->
  (exists d', ends (start home now hash) d d' (Ok s)) /\ forall x, passes (start home now hash) d x \/ (exists r, ends (start home now hash) d x r) -> (forall q, d_dbs x q = d_dbs d q) /\ d_home x = Folder (Some t).
Proof. exact start_present. Qed.
Print Assumptions C59_start_present.
Theorem C59_start_recovers : forall home now hash now' hash' d x, (forall q, is_abs (hash q) = false) -> (forall q, is_abs (hash' q) = false) -> absolute home -> ~ In "%"%char home ->
  d_home d = Absent \/ d_home d = Folder None -> d_dirs d (in_home home "default_calibs") = None \/ d_dirs d (in_home home "default_calibs") = Some [] -> tidy (rows_of d (in_home home "corgidrp_caldb.csv")) ->
  passes (start home now hash) d x ->
  (exists a b, b <> [] /\ default_text home (in_home home "corgidrp_caldb.csv") = a ++ b /\ d_home x = Folder (Some a))
  \/ (exists l, d_dirs x (in_home home "default_calibs") = Some l /\ (In (detector, Damaged) l \/ In (matrices, Damaged) l))
  \/ (present x (in_home home "default_calibs") detector /\ present x (in_home home "default_calibs") matrices /\ ~ covers x (in_home home "corgidrp_caldb.csv") (in_home home "default_calibs"))
  \/ exists d', ends (start home now' hash') x d' (Ok (mksettings (Some (in_home home "corgidrp_caldb.csv")) (Some (in_home home "default_calibs")) false false false)) /\ covers d' (in_home home "corgidrp_caldb.csv") (in_home home "default_calibs").
Proof. exact start_recovers. Qed.
Print Assumptions C59_start_recovers.
Theorem C59_step_1 : forall home now hash d d1 s p, ends (start home now hash) d d1 (Ok s) -> s_caldb s = Some p ->
  exists d', ends (step_1 home now hash) d d' (Ok s) /\ only_db p d1 d' /\ d_dbs d' p = Some (rows_of d1 p).
Proof. exact step_1_opens. Qed.
Print Assumptions C59_step_1.
Theorem C59_step_2 : forall s p dir d l b, s_caldb s = Some p -> d_dirs d dir = Some l -> d_dbs d p = Some b -> honest dir l -> tidy b ->
  exists d' r, ends (step_2 s dir) d d' r /\ only_db p d d' /\ (r = Ok tt <-> loadable l) /\ (loadable l -> exists b', d_dbs d' p = Some b' /\ entered l b b') /\ ((exists n, fits_name n /\ In (n, Damaged) l) -> d_dbs d' p = Some b).
Proof. exact step_2_spec. Qed.
Print Assumptions C59_step_2.
(** A first start interrupted after the two default files are saved and before the database is: the next start succeeds and the database never gets the two calibrations. *)
Theorem C59_unregistered_refuted : exists x d' s, passes (start h0 1%Q hash0) empty_disk x /\ ends (start h0 1%Q hash0) x d' (Ok s) /\ s_caldb s = Some db0 /\ d_dbs d' db0 = None.
Proof. exact unregistered. Qed.
Print Assumptions C59_unregistered_refuted.
(** A configuration file edited to name another database: the default calibrations are not entered into it. *)
Theorem C59_other_database_refuted : covers (after empty_disk) db0 dir0 /\ exists d' s, ends (start h0 1%Q hash0) other_disk d' (Ok s) /\ s_caldb s = Some (tx "/data/db.csv") /\ s_calibs s = Some dir0 /\ d_dbs d' (tx "/data/db.csv") = None.
Proof. exact other_database. Qed.
Print Assumptions C59_other_database_refuted.
(** A first start interrupted while a default file is being saved: the next start raises, the one after succeeds with the damaged file in place and no calibration entered. *)
Theorem C59_damaged_refuted : exists x d1 d2 s l, passes (start h0 1%Q hash0) empty_disk x /\ ends (start h0 1%Q hash0) x d1 (Raise PyException) /\ ends (start h0 1%Q hash0) d1 d2 (Ok s) /\ d_dirs d2 dir0 = Some l /\ In (detector, Damaged) l /\ ~ covers d2 db0 dir0.
Proof. exact damaged_default. Qed.
Print Assumptions C59_damaged_refuted.
(** A first start interrupted while the configuration file is being written: an empty file stays, and each later start raises TypeError. *)
Theorem C59_torn_refuted : exists x, passes (start h0 1%Q hash0) empty_disk x /\ ends (start h0 1%Q hash0) x x (Raise TypeError).
Proof. exact torn_config. Qed.
Print Assumptions C59_torn_refuted.
(** A configuration file cut inside a path is used with the path as far as it goes: the default calibrations are put into the home directory. *)
Theorem C59_torn_path_refuted : exists x d' s dir, passes (start h0 1%Q hash0) empty_disk x /\ ends (start h0 1%Q hash0) x d' (Ok s) /\ s_calibs s = Some dir /\ dir <> dir0 /\ present d' dir detector.
Proof. exact torn_path. Qed.
Print Assumptions C59_torn_path_refuted.
(** The old configuration file is removed before the new one is written: a start interrupted in between loses the path of the database. *)
Theorem C59_legacy_lost_refuted : exists x d' s, passes (start h0 1%Q hash0) old_disk x /\ ends (start h0 1%Q hash0) x d' (Ok s) /\ s_caldb s = Some db0.
Proof. exact old_lost. Qed.
Print Assumptions C59_legacy_lost_refuted.
(** Other settings of an old configuration file, here track_individual_errors = True, are reset. *)
Theorem C59_legacy_reset_refuted : exists d', ends (start h0 1%Q hash0) old_disk d' (Ok (mksettings (Some (tx "/data/db.csv")) (Some dir0) false false false)).
Proof. exact old_kept. Qed.
Print Assumptions C59_legacy_reset_refuted.
(** An old configuration file without caldb is removed before KeyError is raised; the next start uses the defaults. *)
Theorem C59_legacy_key_refuted : exists d1 d2 s, ends (start h0 1%Q hash0) (with_home (Legacy bare_text) empty_disk) d1 (Raise KeyError) /\ ends (start h0 1%Q hash0) d1 d2 (Ok s) /\ s_track s = false.
Proof. exact old_without. Qed.
Print Assumptions C59_legacy_key_refuted.
(** Values yes, 1 and on of a flag raise KeyError. *)
Theorem C59_flag_refuted : forall v d, v = "yes"%string \/ v = "1"%string \/ v = "on"%string -> d_home d = Folder (Some (yes_text v)) -> update_settings d = ([], d, Raise KeyError).
Proof. exact yes_refused. Qed.
Print Assumptions C59_flag_refuted.
(** A single percent sign in the path of the home directory raises ValueError. *)
Theorem C59_percent_refuted : exists d', ends (start (tx "/h%s") 1%Q hash0) (mkdisk Absent (fun _ => None) (fun _ => None)) d' (Raise ValueError).
Proof. exact percent_home. Qed.
Print Assumptions C59_percent_refuted.
(** With a double percent sign the path that is read is not the one that was made, and every start raises. *)
Theorem C59_double_percent_refuted : exists d' d'', ends (start (tx "/h%%s") 1%Q hash0) (mkdisk Absent (fun _ => None) (fun _ => None)) d' (Raise PyException) /\ ends (start (tx "/h%%s") 1%Q hash0) d' d'' (Raise PyException).
Proof. exact percent_twice. Qed.
Print Assumptions C59_double_percent_refuted.

Example C59_used : absolute h0 /\ ~ In "%"%char h0 /\ (forall q, is_abs (hash0 q) = false) /\ (exists u, expands h0 u) /\ d_home empty_disk = Absent /\ tidy (rows_of empty_disk db0)
  /\ (exists d', ends (start h0 1%Q hash0) empty_disk d' (Ok (mksettings (Some db0) (Some dir0) false false false)) /\ present d' dir0 detector /\ present d' dir0 matrices /\ covers d' db0 dir0)
  /\ ~ (present empty_disk dir0 detector /\ present empty_disk dir0 matrices).
Proof.
  split; [exact h0_absolute|]. assert (N : ~ In "%"%char h0) by (intros [X|[X|[]]]; discriminate X). split; [exact N|]. split; [reflexivity|]. split; [exists h0; apply plain_expands; exact N|]. split; [reflexivity|]. split; [split; [constructor|intros r []]|]. split.
  - exists (after empty_disk). split; [apply ends_after; vm_compute; reflexivity|]. split; [apply exists_iff; vm_compute; reflexivity|]. split; [apply exists_iff; vm_compute; reflexivity|]. apply other_database.
  - intros [(l & f & X & _) _]. vm_compute in X. discriminate X.
Qed.
Example C59_written : written old_text old_config /\ stored old_config "PATH" "caldb" (tx "/data/db.csv") /\ flag old_config "DATA" "track_individual_errors" true /\ flag old_config "WALKER" "jit_calib_id" false
  /\ settings_are old_config (mksettings (Some (tx "/data/db.csv")) None true false false).
Proof.
  split; [exact old_written|]. destruct (written_keys _ _ old_written) as [A B]. split; [apply (raw_stored _ _ _ _ A B); reflexivity|]. split; [apply (flag_iff _ _ _ _ A B); eexists; split; reflexivity|]. split; [apply (flag_iff _ _ _ _ A B); eexists; split; reflexivity|]. apply (read_settings_iff _ _ A B). reflexivity.
Qed.
Example C59_scanned : exists l b b', d_dirs (after empty_disk) dir0 = Some l /\ honest dir0 l /\ loadable l /\ d_dbs (after empty_disk) db0 = Some b /\ tidy b /\ entered l b b' /\ List.length b = 2%nat.
Proof.
  assert (AD : absolute dir0) by (apply (absolute_in_home h0 (tx "default_calib") "s" h0_absolute); [reflexivity|discriminate|discriminate]).
  set (e1 := detparams 1%Q hash0 (pjoin dir0 detparams_name)). set (e2 := fpamfsam 1%Q hash0 (pjoin dir0 fpamfsam_name)). set (l := [(detector, Loads e1); (matrices, Loads e2)]).
  assert (F : Forall (default_file dir0) l) by (constructor; [apply detparams_default; [reflexivity|exact AD]|constructor; [apply fpamfsam_default; [reflexivity|exact AD]|constructor]]).
  destruct (default_honest dir0 l) as [HO LD]; [constructor; [intros [X|[]]; discriminate X|constructor; [intros []|constructor]]|exact F|].
  assert (DL : d_dirs (after empty_disk) dir0 = Some l) by (vm_compute; reflexivity). assert (DB : exists b, d_dbs (after empty_disk) db0 = Some b /\ List.length b = 2%nat /\ b = fst (create_all [e1; e2] [])) by (eexists; split; [vm_compute; reflexivity|split; vm_compute; reflexivity]). destruct DB as (b & DB & LB & EB).
  assert (T : tidy b). { rewrite EB. apply create_entries; [split; [constructor|intros r []]| |]; intros e [<-|[<-|[]]]; first [apply (proj2 HO detector); left; reflexivity|apply (proj2 HO matrices); right; left; reflexivity|eexists; apply CalDBProofs.row_of_entry_describes; reflexivity]. }
  destruct (step_2_spec (home_settings h0) db0 dir0 (after empty_disk) l b eq_refl DL DB HO T) as (d' & r & _ & _ & _ & G & _). destruct (G LD) as (b' & _ & EN). exists l, b, b'. auto 10.
Qed.
