(** Start-up: corgidrp/__init__.py create_config_dir 10-54, update_pipeline_settings 57-76; corgidrp/caldb.py initialize 365-392; corgidrp/ops.py
    step_1_initialize 7-18, step_2_load_cal 20-33; corgidrp/data.py autoload 2564-2596 as far as it succeeds or raises; and the part of Python's configparser they use.

    Texts are lists of characters.  The disk is ~/.corgidrp (absent, a file of the old kind, or a folder with a configuration file or without), directories
    with their files, and database files.  Each change of the disk is recorded, so that a crash can be put after any of them; a file is
    open for writing before it is complete.  Simplifications: a database file can always be created; directories have no
    subdirectories; a section DEFAULT is like any other; a value with %(name)s is refused like other uses of a single %; all exceptions of configparser and of the
    file system are [PyException]. *)
From Coq Require Import List Arith Bool ZArith QArith String Ascii.
From Verif Require Import Base CalDBModel.
Import ListNotations.
Local Open Scope list_scope.

Definition text := list ascii.
Definition tx (s : string) : text := list_ascii_of_string s.
Definition teqb (a b : text) : bool := if list_eq_dec ascii_dec a b then true else false.

(** ** configparser *)
Definition newline : ascii := ascii_of_nat 10.
Definition space (c : ascii) : bool := let n := nat_of_ascii c in (Nat.leb 9 n && Nat.leb n 13) || (Nat.leb 28 n && Nat.leb n 32).
Fixpoint lstrip (l : text) : text := match l with c :: t => if space c then lstrip t else l | [] => [] end.
Definition rstrip (l : text) : text := rev (lstrip (rev l)).
Definition strip (l : text) : text := rstrip (lstrip l).
Definition lower_char (c : ascii) : ascii := let n := nat_of_ascii c in if Nat.leb 65 n && Nat.leb n 90 then ascii_of_nat (n + 32) else c.
Definition lower (l : text) : text := map lower_char l.
(** Up to the first character with [p], and from there on. *)
Fixpoint break (p : ascii -> bool) (l : text) : text * text :=
  match l with [] => ([], []) | c :: t => if p c then ([], l) else let '(a, b) := break p t in (c :: a, b) end.
Fixpoint lines (l : text) : list text :=
  match l with
  | [] => [[]]
  | c :: t => if Ascii.eqb c newline then [] :: lines t else match lines t with h :: r => (c :: h) :: r | [] => [[c]] end
  end.
(** Number of leading spaces. *)
Fixpoint indent (l : text) : nat := match l with c :: t => if space c then S (indent t) else O | [] => O end.
(** \[(.+)\] at the start: up to the last bracket *)
Definition section_name (v : text) : option text :=
  match v with
  | c :: t => if Ascii.eqb c "["
              then match break (Ascii.eqb "]") (rev t) with
                   | (_, _ :: ((_ :: _) as h)) => Some (rev h)
                   | _ => None
                   end
              else None
  | [] => None
  end.
Definition delimiter (c : ascii) : bool := Ascii.eqb c "=" || Ascii.eqb c ":".
Definition comment (v : text) : bool := match v with c :: _ => Ascii.eqb c "#" || Ascii.eqb c ";" | [] => false end.

Definition opts := list (text * list text).
(** Sections read (the last one first, its options the last one first, their lines the last one first), whether an option is open, its indentation *)
Record reader : Type := mkreader { p_secs : list (text * opts); p_open : bool; p_indent : nat }.
Fixpoint tlookup {A} (k : text) (l : list (text * A)) : option A := match l with [] => None | (k', v) :: t => if teqb k k' then Some v else tlookup k t end.
(** Append a line to the open option. *)
Definition append (v : text) (s : list (text * opts)) : list (text * opts) :=
  match s with (n, (k, vs) :: o) :: t => (n, (k, v :: vs) :: o) :: t | _ => s end.
(** RawConfigParser._read, one line *)
Definition read_line (line : text) (r : reader) : result reader :=
  let v := strip line in
  if comment v then Ok r else
  match v with
  | [] => Ok (if p_open r then mkreader (append [] (p_secs r)) true (p_indent r) else r)
  | _ =>
    let i := indent line in
    if p_open r && Nat.ltb (p_indent r) i then Ok (mkreader (append v (p_secs r)) true (p_indent r)) else
    match section_name v with
    | Some n => match tlookup n (p_secs r) with Some _ => Raise PyException | None => Ok (mkreader ((n, []) :: p_secs r) false i) end
    | None =>
      match p_secs r with
      | [] => Raise PyException
      | (n, o) :: t =>
        match break delimiter v with
        | (_, []) => Raise PyException
        | (a, _ :: b) =>
          match a with
          | [] => Raise PyException
          | _ => let k := lower (rstrip a) in
                 match tlookup k o with Some _ => Raise PyException | None => Ok (mkreader ((n, (k, [strip b]) :: o) :: t) true i) end
          end
        end
      end
    end
  end.
Fixpoint read_lines (ls : list text) (r : reader) : result reader :=
  match ls with [] => Ok r | l :: t => do r' <- read_line l r; read_lines t r' end.
(** _join_multiline_values *)
Fixpoint join (vs : list text) : text := match vs with [] => [] | [v] => v | v :: t => v ++ newline :: join t end.
Definition config := list (text * list (text * text)).
Definition finish (s : list (text * opts)) : config := map (fun x => (fst x, map (fun o => (fst o, rstrip (join (rev (snd o))))) (snd x))) s.
Definition parse (t : text) : result config := do r <- read_lines (lines t) (mkreader [] false 0); Ok (finish (p_secs r)).
(** BasicInterpolation.before_get *)
Fixpoint expand (l : text) : result text :=
  match l with
  | [] => Ok []
  | c :: t => if Ascii.eqb c "%"
              then match t with
                   | d :: t' => if Ascii.eqb d "%" then do r <- expand t'; Ok (c :: r) else Raise PyException
                   | [] => Raise PyException
                   end
              else do r <- expand t; Ok (c :: r)
  end.
(** before_set *)
Definition settable (v : text) : result text := match expand v with Ok _ => Ok v | Raise _ => Raise ValueError end.
Definition option_raw (c : config) (s k : text) : option text := match tlookup s c with None => None | Some o => tlookup k o end.
(** get with a fallback *)
Definition get (c : config) (s k : text) : result (option text) :=
  match option_raw c s k with None => Ok None | Some v => do u <- expand v; Ok (Some u) end.
(** oldconfig["PATH"]["caldb"] *)
Definition get_item (c : config) (s k : text) : result text := match option_raw c s k with None => Raise KeyError | Some v => expand v end.
(** write: a line of an option, newlines in the value followed by a tab *)
Definition tabbed (v : text) : text := flat_map (fun c => if Ascii.eqb c newline then [c; ascii_of_nat 9] else [c]) v.
Definition render_option (o : text * text) : text := fst o ++ tx " = " ++ tabbed (snd o) ++ [newline].
Definition render_section (s : text * list (text * text)) : text := tx "[" ++ fst s ++ tx "]" ++ [newline] ++ flat_map render_option (snd s) ++ [newline].
Definition render (c : config) : text := flat_map render_section c.

(** ** Paths *)
Definition pjoin (a b : text) : text := match rev a with [] => b | c :: _ => if Ascii.eqb c "/" then a ++ b else a ++ tx "/" ++ b end.

(** ** Disk *)
Inductive file : Type := Damaged | Loads (e : entry).
Inductive node : Type := Absent | Legacy (t : text) | Folder (cfg : option text).
Record disk : Type := mkdisk { d_home : node; d_dirs : text -> option (list (text * file)); d_dbs : text -> option db }.
Definition set {A} (k : text) (v : A) (f : text -> A) : text -> A := fun x => if teqb x k then v else f x.
Definition with_home (n : node) (d : disk) : disk := mkdisk n (d_dirs d) (d_dbs d).
Definition with_dir (p : text) (l : list (text * file)) (d : disk) : disk := mkdisk (d_home d) (set p (Some l) (d_dirs d)) (d_dbs d).
Definition with_db (p : text) (b : db) (d : disk) : disk := mkdisk (d_home d) (d_dirs d) (set p (Some b) (d_dbs d)).

(** The disk after each of the changes made, the last disk and the result. *)
Definition M (A : Type) : Type := disk -> list disk * disk * result A.
Definition ret {A} (x : A) : M A := fun d => ([], d, Ok x).
Definition fail {A} (e : exn) : M A := fun d => ([], d, Raise e).
Definition lift {A} (r : result A) : M A := fun d => ([], d, r).
Definition act (f : disk -> disk) : M unit := fun d => ([f d], f d, Ok tt).
(** Changes in between, then the final one. *)
Definition acts (fs : list (disk -> disk)) (f : disk -> disk) : M unit := fun d => (map (fun g => g d) fs ++ [f d], f d, Ok tt).
Definition mbind {A B} (m : M A) (k : A -> M B) : M B := fun d =>
  match m d with
  | (tr, d', Ok x) => let '(tr', d'', r) := k x d' in (tr ++ tr', d'', r)
  | (tr, d', Raise e) => (tr, d', Raise e)
  end.
Definition look {A} (f : disk -> A) : M A := fun d => ([], d, Ok (f d)).
Notation "'dom' x <- m ; k" := (mbind m (fun x => k)) (at level 200, x name, m at level 100, k at level 200).

(** ** __init__.py *)
Section Home.
Variable home : text.
Definition folder : text := pjoin home (tx ".corgidrp").
Definition calibs_dir : text := pjoin folder (tx "default_calibs").
(** 35-46: [old] is the caldb setting of the old file, if there was one *)
Definition new_config (old : option text) : result config :=
  do a <- settable (pjoin folder (tx "corgidrp_caldb.csv"));
  do b <- settable calibs_dir;
  do a' <- (match old with None => Ok a | Some o => settable o end);
  Ok [(tx "PATH", [(tx "caldb", a'); (tx "default_calibs", b)]);
      (tx "DATA", [(tx "track_individual_errors", tx "False")]);
      (tx "WALKER", [(tx "skip_missing_cal_steps", tx "False"); (tx "jit_calib_id", tx "False")])].
(** 48-49: the file is emptied, then filled *)
Definition write_config (t : text) : M unit :=
  acts (map (fun k => with_home (Folder (Some (firstn k t)))) (seq 0 (List.length t))) (with_home (Folder (Some t))).
(** 10-54 *)
Definition create_config_dir : M unit :=
  dom n <- look d_home;
  dom old <- (match n with
              | Legacy t => dom c <- lift (parse t); dom _ <- act (with_home Absent); ret (Some c)
              | _ => ret None
              end);
  dom n <- look d_home;
  dom _ <- (match n with Absent => act (with_home (Folder None)) | _ => ret tt end);
  dom l <- look (fun d => d_dirs d calibs_dir);
  dom _ <- (match l with None => act (with_dir calibs_dir []) | Some _ => ret tt end);
  dom n <- look d_home;
  match n with
  | Folder None =>
    dom c0 <- lift (new_config None);
    dom o <- (match old with None => ret None | Some c => dom v <- lift (get_item c (tx "PATH") (tx "caldb")); ret (Some v) end);
    dom c <- lift (new_config o);
    write_config (render c)
  | _ => ret tt
  end.

(** 57-76 *)
Record settings : Type := mksettings { s_caldb : option text; s_calibs : option text; s_track : bool; s_skip : bool; s_jit : bool }.
Definition flag_of (o : option text) : result bool :=
  let v := lower (match o with Some v => v | None => tx "false" end) in
  if teqb v (tx "true") then Ok true else if teqb v (tx "false") then Ok false else Raise KeyError.
Definition read_settings (c : config) : result settings :=
  do a <- get c (tx "PATH") (tx "caldb");
  do b <- get c (tx "PATH") (tx "default_calibs");
  do v <- get c (tx "DATA") (tx "track_individual_errors"); do x <- flag_of v;
  do v <- get c (tx "WALKER") (tx "skip_missing_cal_steps"); do y <- flag_of v;
  do v <- get c (tx "WALKER") (tx "jit_calib_id"); do z <- flag_of v;
  Ok (mksettings a b x y z).
(** config.read ignores a file that is not there *)
Definition update_settings : M settings :=
  dom n <- look d_home;
  dom c <- lift (match n with Folder (Some t) => parse t | _ => Ok [] end);
  lift (read_settings c).

(** ** caldb.py *)
Definition detparams_name : text := tx "DetectorParams_2023-11-01T00:00:00.000.fits".
Definition fpamfsam_name : text := tx "FpamFsamCal_2024-02-10T00:00:00.000.fits".
(** data.py 1134-1220, 1469-1530: what the database reads of the two defaults; the time of creation and the hash vary *)
Variable now : Q.
Variable hash : text -> string.
Definition detparams (path : text) : entry :=
  mkentry (string_of_list_ascii path) DetectorParams (Some 60249%Q) (Some 1%Q) None (Some now) (Some "2.0"%string) (Some 0%Z) (hash path) [1; 1]%Z (Some ""%string) (Some 1%Q) (Some 40%Q).
Definition fpamfsam (path : text) : entry :=
  mkentry (string_of_list_ascii path) FpamFsamCal (Some 60350%Q) (Some 0%Q) None (Some now) (Some "2.0"%string) (Some 0%Z) (hash path) [2; 2; 2]%Z (Some ""%string) (Some 1%Q) (Some 40%Q).

Definition exists_in (dir name : text) (d : disk) : bool := match d_dirs d dir with Some l => match tlookup name l with Some _ => true | None => false end | None => false end.
(** A new file comes last in its directory; one that exists is replaced. *)
Fixpoint put_file (n : text) (f : file) (l : list (text * file)) : list (text * file) :=
  match l with [] => [(n, f)] | (m, g) :: t => if teqb n m then (n, f) :: t else (m, g) :: put_file n f t end.
(** Image.save: writeto *)
Definition save_file (dir name : text) (e : entry) : M unit :=
  dom l <- look (fun d => d_dirs d dir);
  match l with
  | None => fail PyException
  | Some l => acts [with_dir dir (put_file name Damaged l)] (with_dir dir (put_file name (Loads e) l))
  end.
(** to_csv: the file is emptied, then the rows are written *)
Definition save_db (p : text) (b : db) : M unit := acts (map (fun k => with_db p (firstn k b)) (seq 0 (List.length b))) (with_db p b).
(** CalDB(), 60-82 *)
Definition open_db (p : text) : M unit := dom b <- look (fun d => d_dbs d p); match b with None => save_db p [] | Some _ => ret tt end.
(** create_entry, 201-231 *)
Definition add_entry (p : text) (e : entry) : M unit :=
  dom _ <- lift (row_of_entry true e);
  dom b <- look (fun d => d_dbs d p);
  match b with
  | None => fail PyException
  | Some b => dom b' <- lift (create_entry e b); save_db p b'
  end.
Fixpoint add_entries (p : text) (es : list entry) : M unit := match es with [] => ret tt | e :: t => dom _ <- add_entry p e; add_entries p t end.
Definition is_fits (n : text) : bool := teqb (skipn (List.length n - 5) n) (tx ".fits").
(** scan_dir_for_new_entries, 330-361: all files are loaded, then the calibrations are entered *)
Fixpoint load_files (l : list (text * file)) : result (list entry) :=
  match l with
  | [] => Ok []
  | (n, f) :: t => if is_fits n then match f with Damaged => Raise PyException | Loads e => do es <- load_files t; Ok (e :: es) end else load_files t
  end.
Definition scan (p : text) (dir : text) : M unit :=
  dom l <- look (fun d => d_dirs d dir);
  dom es <- lift (load_files (match l with Some l => l | None => [] end));
  add_entries p (filter (fun e => match labels (e_class e) with Some _ => true | None => false end) es).
(** 365-392; os.path.join and os.path.exists of None raise TypeError *)
Definition initialize (s : settings) : M unit :=
  match s_calibs s with
  | None => fail TypeError
  | Some dir =>
    dom a <- look (exists_in dir detparams_name);
    dom _ <- (if a then ret tt else save_file dir detparams_name (detparams (pjoin dir detparams_name)));
    dom b <- look (exists_in dir fpamfsam_name);
    dom _ <- (if b then ret tt else save_file dir fpamfsam_name (fpamfsam (pjoin dir fpamfsam_name)));
    if a && b then ret tt
    else match s_caldb s with None => fail TypeError | Some p => dom _ <- open_db p; scan p dir end
  end.
(** import corgidrp, import corgidrp.caldb; step_1_initialize of ops.py does the same and opens the database *)
Definition start : M settings := dom _ <- create_config_dir; dom s <- update_settings; dom _ <- initialize s; ret s.
Definition step_1 : M settings := dom s <- start; dom _ <- (match s_caldb s with None => fail TypeError | Some p => open_db p end); ret s.
(** step_2_load_cal *)
Definition step_2 (s : settings) (dir : text) : M unit := match s_caldb s with None => fail TypeError | Some p => scan p dir end.
End Home.
