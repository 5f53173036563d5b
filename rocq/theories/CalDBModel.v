(** Model of the calibration database, corgidrp/caldb.py. *)
From Coq Require Import List ZArith QArith Bool String Qabs.
From Verif Require Import Base.
Import ListNotations.
Local Open Scope string_scope.
Local Open Scope list_scope.

(** The classes an entry can have: the keys of [labels] (caldb.py 30-43) and
    anything else ([OtherClass], e.g. plain [Image]). *)
Inductive cls : Type :=
| Dark | NonLinearityCalibration | KGain | BadPixelMap | DetectorNoiseMaps
| FlatField | DetectorParams | AstrometricCalibration | TrapCalibration
| FluxcalFactor | FpamFsamCal | CoreThroughputCalibration
| NDFilterSweetSpotDataset | OtherClass.

(** caldb.py 30-43, the dictionary [labels]. *)
Definition labels (c : cls) : option string :=
  match c with
  | Dark => Some "Dark"
  | NonLinearityCalibration => Some "NonLinearityCalibration"
  | KGain => Some "KGain"
  | BadPixelMap => Some "BadPixelMap"
  | DetectorNoiseMaps => Some "DetectorNoiseMaps"
  | FlatField => Some "FlatField"
  | DetectorParams => Some "DetectorParams"
  | AstrometricCalibration => Some "AstrometricCalibration"
  | TrapCalibration => Some "TrapCalibration"
  | FluxcalFactor => Some "FluxcalFactor"
  | FpamFsamCal => Some "FpamFsamCal"
  | CoreThroughputCalibration => Some "CoreThroughputCalibration"
  | NDFilterSweetSpotDataset => Some "NDFilterSweetSpot"
  | OtherClass => None
  end.

(** caldb.py 11-26, one table row (the 14 columns). *)
Record row : Type := mkrow {
  r_path : string;      (* Filepath *)
  r_type : string;      (* Type *)
  r_mjd : Q;            (* MJD *)
  r_exptime : Q;        (* EXPTIME *)
  r_nfiles : Z;         (* Files Used *)
  r_created : Q;        (* Date Created *)
  r_hash : string;      (* Hash *)
  r_version : string;   (* DRPVERSN *)
  r_obsnum : Z;         (* OBSNUM *)
  r_naxis1 : Z;
  r_naxis2 : Z;
  r_opmode : string;    (* OPMODE *)
  r_emgain : Q;         (* EMGAIN_C *)
  r_excamt : Q          (* EXCAMT *)
}.

(** The part of an [Image] object the database reads.  [e_path] stands for
    [os.path.abspath(entry.filepath)]; header keywords that may be missing are
    options; [e_hash] stands for [entry.get_hash()]; times are already
    converted to MJD (astropy [Time(...).mjd]). *)
Record entry : Type := mkentry {
  e_path : string;
  e_class : cls;
  e_sctsrt : option Q;
  e_exptime : option Q;
  e_drpnfile : option Z;
  e_drpctime : option Q;
  e_drpversn : option string;
  e_obsnum : option Z;
  e_hash : string;
  e_shape : list Z;
  e_opmode : option string;
  e_emgain : option Q;
  e_excamt : option Q
}.

(** Last and last-but-one element: [shape[-1]], [shape[-2]]. *)
Definition shape_last (l : list Z) (k : nat) : result Z :=
  match nth_error (rev l) k with Some z => Ok z | None => Raise IndexError end.

(** caldb.py 96-199, [_get_values_from_entry] for an entry that is not None.
    Simplification: [columns] is the default column list (a database file with
    other columns is not modelled). *)
Definition row_of_entry (is_calib : bool) (e : entry) : result row :=
  do ty <- (if is_calib then getkey (labels (e_class e)) else Ok "Sci");
  do mjd <- getkey (e_sctsrt e);
  do ex <- getkey (e_exptime e);
  let nf := match e_drpnfile e with Some n => n | None => 0%Z end in
  let dc := match e_drpctime e with Some t => t | None => (-1)%Q end in
  let ver := match e_drpversn e with Some v => v | None => "" end in
  do obs <- getkey (e_obsnum e);
  do n1 <- shape_last (e_shape e) 0;
  do n2 <- (if Nat.ltb (List.length (e_shape e)) 2 then Ok 0%Z else shape_last (e_shape e) 1);
  do op <- getkey (e_opmode e);
  do em <- getkey (e_emgain e);
  do xc <- getkey (e_excamt e);
  Ok (mkrow (e_path e) ty mjd ex nf dc (e_hash e) ver obs n1 n2 op em xc).

(** The table [self._db]: rows in order. *)
Definition db := list row.

(** [path in self._db.values] (caldb.py 216, 247): true when ANY cell of the
    table equals the string; only string columns can. *)
Definition row_has_cell (p : string) (r : row) : bool :=
  String.eqb p (r_path r) || String.eqb p (r_type r) || String.eqb p (r_hash r)
  || String.eqb p (r_version r) || String.eqb p (r_opmode r).

Definition in_values (p : string) (d : db) : bool := existsb (row_has_cell p) d.

(** caldb.py 215-227: update the rows with this Filepath, or append. *)
Definition insert_row (r : row) (d : db) : db :=
  if in_values (r_path r) d
  then map (fun r' => if String.eqb (r_path r') (r_path r) then r else r') d
  else d ++ [r].

(** caldb.py 247-254: drop the rows with this Filepath, or raise. *)
Definition delete_path (p : string) (d : db) : result db :=
  if in_values p d
  then Ok (filter (fun r' => negb (String.eqb (r_path r') p)) d)
  else Raise ValueError.

(** caldb.py 201-231 [create_entry] on the in-memory table. *)
Definition create_entry (e : entry) (d : db) : result db :=
  do r <- row_of_entry true e; Ok (insert_row r d).

(** caldb.py 233-258 [remove_entry] on the in-memory table. *)
Definition remove_entry (e : entry) (d : db) : result db :=
  do r <- row_of_entry true e; delete_path (r_path r) d.

(** caldb.py 357-361: the creation loop of [scan_dir_for_new_entries].  An
    exception leaves the entries created so far in the table. *)
Fixpoint create_all (es : list entry) (d : db) : db * option exn :=
  match es with
  | [] => (d, None)
  | e :: t => match create_entry e d with
              | Ok d' => create_all t d'
              | Raise x => (d, Some x)
              end
  end.

(** caldb.py 330-361 [scan_dir_for_new_entries].  The argument is the list of
    frames loaded by the directory walk, in walk order; directory walking and
    FITS loading are outside the model. *)
Definition scan_dir (frames : list entry) (d : db) : db * option exn :=
  create_all (filter (fun e => match labels (e_class e) with Some _ => true | None => false end)
                     frames) d.

(** caldb.py 260-328 [get_calib]; returns the chosen file path (the object is
    then loaded from that path by the class constructor, not modelled). *)
Definition pick (o : option nat) (options : list row) : result string :=
  match o with
  | Some i => match nth_error options i with
              | Some r => Ok (r_path r)
              | None => Raise IndexError
              end
  | None => Raise ValueError
  end.

Definition get_calib (frame : option entry) (c : cls) (d : db) : result string :=
  match labels c with
  | None => Raise ValueError
  | Some lab =>
    match frame with
    | None =>
      let options := filter (fun r => String.eqb (r_type r) lab) d in
      pick (argmax (map r_created options)) options
    | Some f =>
      do fr <- row_of_entry false f;
      let calibdf := filter (fun r => String.eqb (r_type r) lab) d in
      let options :=
        if String.eqb lab "Dark"
        then filter (fun r => Qeq_bool (r_exptime r) (r_exptime fr)) calibdf
        else calibdf in
      pick (argmin (map (fun r => Qabs (r_mjd r - r_mjd fr)) options)) options
    end
  end.

(** One operation on the in-memory table, returning the new table and the
    exception raised, if any. *)
Inductive op : Type :=
| OCreate (e : entry)
| ORemove (e : entry)
| OScan (frames : list entry)
| OGet (frame : option entry) (c : cls).

Definition step (d : db) (o : op) : db * option exn :=
  match o with
  | OCreate e => match create_entry e d with Ok d' => (d', None) | Raise x => (d, Some x) end
  | ORemove e => match remove_entry e d with Ok d' => (d', None) | Raise x => (d, Some x) end
  | OScan fs => scan_dir fs d
  | OGet f c => match get_calib f c d with Ok _ => (d, None) | Raise x => (d, Some x) end
  end.

Definition run (d : db) (h : list op) : db := fold_left (fun d o => fst (step d o)) h d.

(** * Disk and several instances *)

(** The CSV file (None: no file yet) and the in-memory table of each CalDB
    object.  Simplification: a table written by [to_csv] and read back by
    [read_csv] is the same table (the CSV text itself is not modelled). *)
Record world : Type := mkworld { w_disk : option db; w_mem : nat -> db }.

Definition set_mem (i : nat) (d : db) (m : nat -> db) : nat -> db :=
  fun j => if Nat.eqb j i then d else m j.

(** caldb.py 84-88 [load]; a missing file raises (FileNotFoundError). *)
Definition load (i : nat) (w : world) : world * option exn :=
  match w_disk w with
  | Some d => (mkworld (w_disk w) (set_mem i d (w_mem w)), None)
  | None => (w, Some PyException)
  end.

(** caldb.py 90-94 [save], run to completion. *)
Definition save (i : nat) (w : world) : world := mkworld (Some (w_mem w i)) (w_mem w).

(** caldb.py 60-82 [__init__]. *)
Definition open (i : nat) (w : world) : world :=
  match w_disk w with
  | None => mkworld (Some []) (set_mem i [] (w_mem w))
  | Some d => mkworld (w_disk w) (set_mem i d (w_mem w))
  end.

(** caldb.py 209-213, 228-231 (and 241-245, 255-258): load before, save after
    when [to_disk]; the entry's values are read first, so an unreadable entry
    raises before the load; a failing removal raises before the save. *)
Definition w_modify (i : nat) (to_disk : bool) (values_ok : result row)
    (f : db -> result db) (w : world) : world * option exn :=
  match values_ok with
  | Raise x => (w, Some x)
  | Ok _ =>
    let '(w1, x1) := if to_disk then load i w else (w, None) in
    match x1 with
    | Some x => (w1, Some x)
    | None =>
      match f (w_mem w1 i) with
      | Raise x => (w1, Some x)
      | Ok d => let w2 := mkworld (w_disk w1) (set_mem i d (w_mem w1)) in
                (if to_disk then save i w2 else w2, None)
      end
    end
  end.

(** caldb.py 201-231. *)
Definition w_create (i : nat) (to_disk : bool) (e : entry) (w : world) :=
  w_modify i to_disk (row_of_entry true e) (create_entry e) w.

(** caldb.py 233-258. *)
Definition w_remove (i : nat) (to_disk : bool) (e : entry) (w : world) :=
  w_modify i to_disk (row_of_entry true e) (remove_entry e) w.

Fixpoint w_create_all (i : nat) (to_disk : bool) (es : list entry) (w : world)
  : world * option exn :=
  match es with
  | [] => (w, None)
  | e :: t => match w_create i to_disk e w with
              | (w', None) => w_create_all i to_disk t w'
              | (w', Some x) => (w', Some x)
              end
  end.

(** caldb.py 330-361. *)
Definition w_scan (i : nat) (to_disk : bool) (frames : list entry) (w : world) :=
  w_create_all i to_disk
    (filter (fun e => match labels (e_class e) with Some _ => true | None => false end) frames) w.

(** caldb.py 260-328: checks the type and the frame's values, then loads, then
    selects from the in-memory table. *)
Definition w_get (i : nat) (to_disk : bool) (f : option entry) (c : cls) (w : world)
  : world * result string :=
  match labels c with
  | None => (w, Raise ValueError)
  | Some _ =>
    match (match f with None => Ok tt | Some e => do _ <- row_of_entry false e; Ok tt end) with
    | Raise x => (w, Raise x)
    | Ok _ =>
      let '(w1, x1) := if to_disk then load i w else (w, None) in
      match x1 with
      | Some x => (w1, Raise x)
      | None => (w1, get_calib f c (w_mem w1 i))
      end
    end
  end.

Definition w_step (i : nat) (to_disk : bool) (o : op) (w : world) : world * option exn :=
  match o with
  | OCreate e => w_create i to_disk e w
  | ORemove e => w_remove i to_disk e w
  | OScan fs => w_scan i to_disk fs w
  | OGet f c => let '(w', r) := w_get i to_disk f c w in
                (w', match r with Ok _ => None | Raise x => Some x end)
  end.

(** A sequential history: which instance runs which operation, or opens the
    database, or saves. *)
Inductive wop : Type :=
| WOp (i : nat) (to_disk : bool) (o : op)
| WOpen (i : nat)
| WSave (i : nat).

Definition w_exec (w : world) (a : wop) : world * option exn :=
  match a with
  | WOp i t o => w_step i t o w
  | WOpen i => (open i w, None)
  | WSave i => (save i w, None)
  end.

(** Running a history, with the exceptions raised. *)
Fixpoint w_run (w : world) (h : list wop) : world * list (option exn) :=
  match h with
  | [] => (w, [])
  | a :: t => let '(w', x) := w_exec w a in let '(w'', xs) := w_run w' t in (w'', x :: xs)
  end.

(** * Interleaving of two single-entry operations from different instances.
    Each runs load; change in memory; save (caldb.py 211-231, 243-258). *)
Record thread : Type := mkthread { t_pc : nat; t_mem : db; t_exn : option exn }.

Definition thread0 : thread := mkthread 0 [] None.

Definition thread_step (o : op) (disk : db) (t : thread) : db * thread :=
  match t_pc t with
  | 0%nat => (disk, mkthread 1 disk None)
  | 1%nat => (disk, mkthread 2 (fst (step (t_mem t) o)) (snd (step (t_mem t) o)))
  | 2%nat => (match t_exn t with None => t_mem t | Some _ => disk end,
          mkthread 3 (t_mem t) (t_exn t))
  | _ => (disk, t)
  end.

(** A schedule says which of the two threads moves next ([true]: the first). *)
Fixpoint interleave (o1 o2 : op) (sched : list bool) (disk : db) (t1 t2 : thread)
  : db * thread * thread :=
  match sched with
  | [] => (disk, t1, t2)
  | true :: s => let r := thread_step o1 disk t1 in interleave o1 o2 s (fst r) (snd r) t2
  | false :: s => let r := thread_step o2 disk t2 in interleave o1 o2 s (fst r) t1 (snd r)
  end.

(** * Crash inside [save].  [DataFrame.to_csv] opens the file for writing
    (truncating it) and then writes the rows in order; a crash after the file
    was opened and [k] rows reached it leaves those rows.  Simplification: a
    torn row is not represented. *)
Definition crash_in_save (k : nat) (new : db) : option db := Some (firstn k new).
