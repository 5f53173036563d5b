(** Specification of the start-up. *)
From Coq Require Import List Arith Bool ZArith QArith String Ascii.
From Verif Require Import Base CalDBModel CalDBSpec SetupModel.
Import ListNotations.
Local Open Scope list_scope.

(** ** Configuration files *)
Definition blank (c : ascii) : Prop := In (nat_of_ascii c) [9; 10; 11; 12; 13; 28; 29; 30; 31; 32]%nat.
Definition blanks (l : text) : Prop := Forall blank l.
Definition eol : ascii := ascii_of_nat 10.
Definition one_line (l : text) : Prop := ~ In eol l.
(** The lines of a text. *)
Inductive has_lines : text -> list text -> Prop :=
| last_line : forall l, one_line l -> has_lines l [l]
| next_line : forall l t ls, one_line l -> has_lines t ls -> has_lines (l ++ eol :: t) (l :: ls).
(** Without blanks at either end. *)
Definition trimmed (l : text) : Prop := (forall c t, l = c :: t -> ~ blank c) /\ (forall t c, l = t ++ [c] -> ~ blank c).
(** Equal but for capitals. *)
Definition caseless (a b : text) : Prop := Forall2 (fun c d => d = c /\ ~ (65 <= nat_of_ascii c <= 90)%nat \/ (65 <= nat_of_ascii c <= 90)%nat /\ nat_of_ascii d = (nat_of_ascii c + 32)%nat) a b.
Definition skipped (l : text) : Prop := blanks l \/ exists s c t, l = s ++ c :: t /\ blanks s /\ (c = "#" \/ c = ";")%char.
Definition heads (l : text) (n : text) : Prop := exists s, l = tx "[" ++ n ++ tx "]" ++ s /\ blanks s /\ n <> [].
Definition assigns (l : text) (k v : text) : Prop := exists k0 s1 d s2 s3, l = k0 ++ s1 ++ d :: s2 ++ v ++ s3 /\ (d = "=" \/ d = ":")%char /\ blanks s1 /\ blanks s2 /\ blanks s3
  /\ k0 <> [] /\ trimmed k0 /\ trimmed v /\ caseless k0 k /\ Forall (fun c => c <> "=" /\ c <> ":")%char k0 /\ (forall c t, k0 = c :: t -> c <> "#" /\ c <> ";" /\ c <> "[")%char.
(** Options with their values, one to a line; comments and blank lines anywhere. *)
Inductive body : list text -> list (text * text) -> Prop :=
| body_end : body [] []
| body_skip : forall l ls os, skipped l -> body ls os -> body (l :: ls) os
| body_option : forall l ls k v os, assigns l k v -> ~ In k (map fst os) -> body ls os -> body (l :: ls) ((k, v) :: os).
Inductive sections : list text -> list (text * list (text * text)) -> Prop :=
| sections_end : sections [] []
| sections_cons : forall l ls ls' n os c, heads l n -> body ls os -> sections ls' c -> ~ In n (map fst c) -> sections (l :: ls ++ ls') ((n, os) :: c).
Definition written (t : text) (c : list (text * list (text * text))) : Prop := exists pre ls, has_lines t (pre ++ ls) /\ Forall skipped pre /\ sections ls c.

(** A percent sign is written twice. *)
Inductive expands : text -> text -> Prop :=
| expands_nil : expands [] []
| expands_char : forall c l u, c <> "%"%char -> expands l u -> expands (c :: l) (c :: u)
| expands_percent : forall l u, expands l u -> expands ("%"%char :: "%"%char :: l) ("%"%char :: u).

Definition stored (c : list (text * list (text * text))) (s k : string) (v : text) : Prop := exists os, In (tx s, os) c /\ In (tx k, v) os.
Definition value (c : list (text * list (text * text))) (s k : string) (o : option text) : Prop :=
  match o with Some u => exists v, stored c s k v /\ expands v u | None => forall v, ~ stored c s k v end.
(** An option that is not there counts as false. *)
Definition flag (c : list (text * list (text * text))) (s k : string) (b : bool) : Prop :=
  value c s k None /\ b = false \/ exists u, value c s k (Some u) /\ caseless u (tx (if b then "true" else "false")).
Definition settings_are (c : list (text * list (text * text))) (s : settings) : Prop :=
  value c "PATH" "caldb" (s_caldb s) /\ value c "PATH" "default_calibs" (s_calibs s)
  /\ flag c "DATA" "track_individual_errors" (s_track s) /\ flag c "WALKER" "skip_missing_cal_steps" (s_skip s) /\ flag c "WALKER" "jit_calib_id" (s_jit s).

(** ** Paths of a home directory (with no slash at its end) *)
Definition in_home (home : text) (s : string) : text := home ++ tx "/.corgidrp/" ++ tx s.
Definition absolute (home : text) : Prop := (exists t, home = "/"%char :: t) /\ one_line home /\ forall t, home <> t ++ ["/"%char].
Definition unlines (ls : list text) : text := flat_map (fun l => l ++ [eol]) ls.
(** The configuration file that is written. *)
Definition default_text (home caldb : text) : text := unlines
  [tx "[PATH]"; tx "caldb = " ++ caldb; tx "default_calibs = " ++ in_home home "default_calibs"; [];
   tx "[DATA]"; tx "track_individual_errors = False"; [];
   tx "[WALKER]"; tx "skip_missing_cal_steps = False"; tx "jit_calib_id = False"; []].

(** ** Disks *)
(** The same but for the folder, in which the directory of default calibrations exists. *)
Definition with_folder (home : text) (n : node) (d d' : disk) : Prop :=
  d_home d' = n /\ (forall p, d_dbs d' p = d_dbs d p)
  /\ (forall p, d_dirs d' p = d_dirs d p \/ p = in_home home "default_calibs" /\ d_dirs d p = None /\ d_dirs d' p = Some [])
  /\ d_dirs d' (in_home home "default_calibs") <> None.
(** States of the disk at which a crash may occur. *)
Definition passes {A} (m : M A) (d x : disk) : Prop := x = d \/ In x (fst (fst (m d))).
Definition ends {A} (m : M A) (d d' : disk) (r : result A) : Prop := snd (fst (m d)) = d' /\ snd (m d) = r.
(** Files of a directory: each name once; calibrations carry their own path and follow the naming convention of C01. *)
Definition honest (dir : text) (l : list (text * file)) : Prop := NoDup (map fst l) /\ forall n e, In (n, Loads e) l -> e_path e = string_of_list_ascii (dir ++ tx "/" ++ n) /\ clean_entry e.
(** The databases follow the naming convention of C01. *)
Definition tidy (b : db) : Prop := NoDup (paths b) /\ forall r, In r b -> clean_row r.

Definition fits_name (n : text) : Prop := exists s, n = s ++ tx ".fits".
(** A calibration file of a directory. *)
Definition calibration (l : list (text * file)) (e : entry) : Prop := exists n, In (n, Loads e) l /\ fits_name n /\ labels (e_class e) <> None.
(** All files load, and the calibrations among them have what the database needs. *)
Definition loadable (l : list (text * file)) : Prop := (forall n, fits_name n -> ~ In (n, Damaged) l) /\ forall e, calibration l e -> exists r, Describes e r.
(** Each calibration of the directory is entered, the other rows stay. *)
Definition entered (l : list (text * file)) (b b' : db) : Prop := tidy b' /\ forall q, (exists e r, calibration l e /\ e_path e = q /\ Describes e r /\ lookup b' q = Some r) \/ (forall e, calibration l e -> e_path e <> q) /\ lookup b' q = lookup b q.

Definition detector : text := tx "DetectorParams_2023-11-01T00:00:00.000.fits".
Definition matrices : text := tx "FpamFsamCal_2024-02-10T00:00:00.000.fits".
(** A file of this name in the directory. *)
Definition present (d : disk) (dir name : text) : Prop := exists l f, d_dirs d dir = Some l /\ In (name, f) l.
(** One of the two default files, as they are made. *)
Definition default_file (dir : text) (x : text * file) : Prop := exists e, snd x = Loads e /\ e_path e = string_of_list_ascii (dir ++ tx "/" ++ fst x) /\ clean_entry e /\ (exists r, Describes e r)
  /\ (fst x = detector /\ e_class e = DetectorParams \/ fst x = matrices /\ e_class e = FpamFsamCal).
(** The missing default files have been added. *)
Definition completed (dir : text) (l l' : list (text * file)) : Prop := exists extra, l' = l ++ extra /\ NoDup (map fst extra) /\ Forall (default_file dir) extra /\ (forall n, In n (map fst extra) -> ~ In n (map fst l))
  /\ In detector (map fst l') /\ In matrices (map fst l').
(** Files are kept, and none but the two defaults appear. *)
Definition files_kept (d d' : disk) : Prop := forall dir l, d_dirs d dir = Some l -> exists extra, d_dirs d' dir = Some (l ++ extra) /\ forall n f, In (n, f) extra -> (n = detector \/ n = matrices) /\ ~ In n (map fst l).
(** The database has the row of each default file. *)
Definition covers (d : disk) (p dir : text) : Prop := exists b r r', d_dbs d p = Some b /\ lookup b (string_of_list_ascii (dir ++ tx "/" ++ detector)) = Some r /\ r_type r = "DetectorParams"%string
  /\ lookup b (string_of_list_ascii (dir ++ tx "/" ++ matrices)) = Some r' /\ r_type r' = "FpamFsamCal"%string.
(** Nothing but the database changes. *)
Definition only_db (p : text) (d d' : disk) : Prop := d_home d' = d_home d /\ (forall q, d_dirs d' q = d_dirs d q) /\ forall q, q <> p -> d_dbs d' q = d_dbs d q.
Definition rows_of (d : disk) (p : text) : db := match d_dbs d p with Some b => b | None => [] end.
