(** Specification of the calibration database, independent of the model: an
    ordered set of file paths and a map from path to metadata. *)
From Coq Require Import List ZArith QArith Qabs Bool String Ascii.
From Verif Require Import Base CalDBModel.
Import ListNotations.
Local Open Scope string_scope.
Local Open Scope list_scope.

(** [Describes e r]: [r] is the catalogue row of the calibration [e]. *)
Record Describes (e : entry) (r : row) : Prop := {
  ds_path : r_path r = e_path e;
  ds_type : labels (e_class e) = Some (r_type r);
  ds_mjd : e_sctsrt e = Some (r_mjd r);
  ds_exptime : e_exptime e = Some (r_exptime r);
  ds_nfiles : e_drpnfile e = Some (r_nfiles r) \/ (e_drpnfile e = None /\ r_nfiles r = 0%Z);
  ds_created : e_drpctime e = Some (r_created r)
               \/ (e_drpctime e = None /\ r_created r = (-1)%Q);
  ds_hash : r_hash r = e_hash e;
  ds_version : e_drpversn e = Some (r_version r) \/ (e_drpversn e = None /\ r_version r = "");
  ds_obsnum : e_obsnum e = Some (r_obsnum r);
  ds_shape : (exists outer, e_shape e = outer ++ [r_naxis2 r; r_naxis1 r])
             \/ (e_shape e = [r_naxis1 r] /\ r_naxis2 r = 0%Z);
  ds_opmode : e_opmode e = Some (r_opmode r);
  ds_emgain : e_emgain e = Some (r_emgain r);
  ds_excamt : e_excamt e = Some (r_excamt r)
}.

Definition Unreadable (e : entry) : Prop := forall r, ~ Describes e r.

(** What an operation does to the abstract database. *)
Inductive event : Type := Put (r : row) | Del (p : string).

(** A scan enters the calibrations found, in order, up to the first one whose
    metadata cannot be read. *)
Inductive ScanEvents : list entry -> list event -> Prop :=
| scan_nil : ScanEvents [] []
| scan_skip e t evs : labels (e_class e) = None -> ScanEvents t evs -> ScanEvents (e :: t) evs
| scan_put e r t evs : Describes e r -> ScanEvents t evs -> ScanEvents (e :: t) (Put r :: evs)
| scan_stop e t : labels (e_class e) <> None -> Unreadable e -> ScanEvents (e :: t) [].

Inductive Events : op -> list event -> Prop :=
| ev_create e r : Describes e r -> Events (OCreate e) [Put r]
| ev_create_bad e : Unreadable e -> Events (OCreate e) []
| ev_remove e r : Describes e r -> Events (ORemove e) [Del (e_path e)]
| ev_remove_bad e : Unreadable e -> Events (ORemove e) []
| ev_scan fs evs : ScanEvents fs evs -> Events (OScan fs) evs
| ev_get f c : Events (OGet f c) [].

Inductive HistoryEvents : list op -> list event -> Prop :=
| he_nil : HistoryEvents [] []
| he_cons o t ev evs : Events o ev -> HistoryEvents t evs -> HistoryEvents (o :: t) (ev ++ evs).

(** The abstract database: paths in order of entry, and a map. *)
Definition apply_keys (ks : list string) (ev : event) : list string :=
  match ev with
  | Put r => if in_dec string_dec (r_path r) ks then ks else ks ++ [r_path r]
  | Del p => remove string_dec p ks
  end.

Definition apply_map (m : string -> option row) (ev : event) : string -> option row :=
  match ev with
  | Put r => fun q => if string_dec q (r_path r) then Some r else m q
  | Del p => fun q => if string_dec q p then None else m q
  end.

Definition keys_after ks evs := fold_left apply_keys evs ks.
Definition map_after m evs := fold_left apply_map evs m.

(** Reading a concrete table. *)
Definition paths (d : db) : list string := map r_path d.
Definition lookup (d : db) (p : string) : option row :=
  find (fun r => if string_dec p (r_path r) then true else false) d.

(** The naming convention the database relies on: file paths are absolute,
    the other text columns are not absolute paths. *)
Definition is_abs (s : string) : bool :=
  match s with String c _ => Ascii.eqb c "/"%char | EmptyString => false end.

Definition clean_row (r : row) : Prop :=
  is_abs (r_path r) = true /\ is_abs (r_type r) = false /\ is_abs (r_hash r) = false
  /\ is_abs (r_version r) = false /\ is_abs (r_opmode r) = false.

Definition clean_entry (e : entry) : Prop :=
  is_abs (e_path e) = true /\ is_abs (e_hash e) = false
  /\ (forall v, e_drpversn e = Some v -> is_abs v = false)
  /\ (forall v, e_opmode e = Some v -> is_abs v = false).

Definition op_entries (o : op) : list entry :=
  match o with OCreate e => [e] | ORemove e => [e] | OScan fs => fs | OGet _ _ => [] end.

Definition clean_history (h : list op) : Prop :=
  forall o e, In o h -> In e (op_entries o) -> clean_entry e.

(** * get_calib *)

(** Which rows may serve a request: the requested type and, for darks
    requested for a frame, the frame's exposure time. *)
Definition Eligible (frame : option entry) (c : cls) (r : row) : Prop :=
  labels c = Some (r_type r) /\
  (c = Dark -> forall f ex, frame = Some f -> e_exptime f = Some ex -> (r_exptime r == ex)%Q).

(** Strictly better and at least as good, for a request. *)
Definition Better (frame : option entry) (r1 r2 : row) : Prop :=
  match frame with
  | None => (r_created r2 < r_created r1)%Q
  | Some f => forall t, e_sctsrt f = Some t -> (Qabs (r_mjd r1 - t) < Qabs (r_mjd r2 - t))%Q
  end.

Definition AsGood (frame : option entry) (r1 r2 : row) : Prop :=
  match frame with
  | None => (r_created r2 <= r_created r1)%Q
  | Some f => forall t, e_sctsrt f = Some t -> (Qabs (r_mjd r1 - t) <= Qabs (r_mjd r2 - t))%Q
  end.

(** The row to choose: eligible, as good as every eligible row, and better than
    every eligible row before it in the table. *)
Definition Best (frame : option entry) (c : cls) (d : db) (r : row) : Prop :=
  exists before after, d = before ++ r :: after /\ Eligible frame c r /\
    (forall r', In r' before -> Eligible frame c r' -> Better frame r r') /\
    (forall r', In r' after -> Eligible frame c r' -> AsGood frame r r').

(** A science frame whose header has what a query reads. *)
Definition ReadableFrame (f : entry) : Prop :=
  e_sctsrt f <> None /\ e_exptime f <> None /\ e_obsnum f <> None /\ e_shape f <> []
  /\ e_opmode f <> None /\ e_emgain f <> None /\ e_excamt f <> None.

Definition readable (frame : option entry) : Prop :=
  match frame with None => True | Some f => ReadableFrame f end.

(** * Several instances *)

(** Histories of [to_disk] operations by any instances, in which instances
    may be opened at any time. *)
Inductive shared_op : wop -> list op -> Prop :=
| sh_op i o : shared_op (WOp i true o) [o]
| sh_open i : shared_op (WOpen i) [].

Inductive shared_history : list wop -> list op -> Prop :=
| shh_nil : shared_history [] []
| shh_cons a h o os : shared_op a o -> shared_history h os -> shared_history (a :: h) (o ++ os).

(** Operations run by one instance in memory only. *)
Definition mem_history (i : nat) (os : list op) : list wop := map (WOp i false) os.

(** * Interleavings of two operations *)

(** What one thread leaves on disk if it loaded [d0] and saves over [d]. *)
Definition overwrite (o : op) (d0 d : db) : db :=
  match snd (step d0 o) with None => fst (step d0 o) | Some _ => d end.

(** A single-entry change: [create_entry] or [remove_entry] (caldb.py 201-258). *)
Definition single (o : op) : Prop :=
  match o with OCreate _ => True | ORemove _ => True | _ => False end.

(** Position of the moves of a thread in a schedule. *)
Fixpoint before_all (b : bool) (n : nat) (s : list bool) : nat :=
  (* number of moves of the other thread before the [n]-th (0-based) move of [b] *)
  match s with
  | [] => 0
  | x :: t => if Bool.eqb x b
              then match n with O => 0 | S n' => before_all b n' t end
              else S (before_all b n t)
  end.

Definition complete (s : list bool) : Prop :=
  count_occ Bool.bool_dec s true = 3%nat /\ count_occ Bool.bool_dec s false = 3%nat.

