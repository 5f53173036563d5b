(** The data level updates update_to_l2a (l1_to_l2a.py 332-363), update_to_l2b
    (l2a_to_l2b.py 427-457), update_to_l3 (l2b_to_l3.py 112-143), update_to_l4
    (l3_to_l4.py 751-789) and update_to_tda (l4_to_tda.py 397-428), on the heap
    of DatasetModel. *)
From Coq Require Import List Arith Bool String Ascii.
From Verif Require Import Base DatasetModel.
Import ListNotations.
Local Open Scope string_scope.
Local Open Scope list_scope.

(** Python's [s.replace(old, new, 1)] for a non-empty [old]. *)
Fixpoint strip_prefix (p s : string) : option string :=
  match p, s with
  | EmptyString, _ => Some s
  | String a p', String b s' => if Ascii.eqb a b then strip_prefix p' s' else None
  | String _ _, EmptyString => None
  end.

Fixpoint replace1 (old new s : string) : string :=
  match strip_prefix old s with
  | Some r => append new r
  | None => match s with
            | EmptyString => EmptyString
            | String c t => String c (replace1 old new t)
            end
  end.

(** Python's [s.split("/")[-1]]. *)
Fixpoint basename_acc (acc s : string) : string :=
  match s with
  | EmptyString => acc
  | String c t => if Ascii.eqb c "/" then basename_acc EmptyString t
                  else basename_acc (append acc (String c EmptyString)) t
  end.
Definition basename (s : string) : string := basename_acc EmptyString s.

(** One of the five functions. *)
Record updater : Type := mkup {
  u_prev : string;                      (* level required *)
  u_new : string;                       (* level written *)
  u_old_tag : string; u_new_tag : string; (* file name replacement *)
  u_cards : list (string * string);     (* further cards written after DATALVL *)
  u_fail : option exn                   (* raised in the loop after the cards *)
}.

Definition up_l2a : updater := mkup "L1" "L2a" "_L1_" "_L2a" [] None.
Definition up_l2b : updater := mkup "L2a" "L2b" "_L2a" "_L2b" [] None.
Definition up_l3 : updater := mkup "L2b" "L3" "_L2b" "_L3_" [] None.
(** l3_to_l4.py 772-784; the arguments are the file names of the calibrations,
    None for no calibration ([flux_cal.filename] of None: AttributeError). *)
Definition up_l4 (ct flux : option string) : updater :=
  mkup "L3" "L4" "_L3_" "_L4_"
    (("CTCALFN", match ct with Some f => basename f | None => "" end)
     :: match flux with Some f => [("FLXCALFN", basename f)] | None => [] end)
    (match flux with Some _ => None | None => Some AttributeError end).
Definition up_tda : updater := mkup "L4" "TDA" "_L4_" "_TDA_" [] None.

Definition set_name (n : string) (m : image) : image :=
  mkimage (im_data m) (im_err m) (im_dq m) (im_pri m) (im_ext m) (im_errh m) (im_dqh m) n.

Section LevelModel.
Variable V : Type.

(** The check loop, e.g. l1_to_l2a.py 345-348. *)
Fixpoint check_level (h : heap V) (prev : string) (frames : list nat) : option exn :=
  match frames with
  | [] => None
  | k :: t => match hget "DATALVL" (hdr V h (im_ext (img V h k))) with
              | None => Some KeyError
              | Some l => if String.eqb l prev then check_level h prev t else Some ValueError
              end
  end.

(** The update loop, e.g. l1_to_l2a.py 353-358. *)
Fixpoint level_loop (h : heap V) (u : updater) (frames : list nat) : heap V * option exn :=
  match frames with
  | [] => (h, None)
  | k :: t =>
    let a := im_ext (img V h k) in
    let h1 := set_hdr V h a (set_keys (("DATALVL", u_new u) :: u_cards u) (hdr V h a)) in
    match u_fail u with
    | Some x => (h1, Some x)
    | None =>
      let m := img V h1 k in
      level_loop (set_img V h1 k (set_name (replace1 (u_old_tag u) (u_new_tag u) (im_name m)) m)) u t
    end
  end.

(** The whole function.  [version] and [now] are what Image.copy stamps. *)
Definition update_level (version now : string) (h : heap V) (d : dataset) (u : updater) : heap V * result dataset :=
  match check_level h (u_prev u) (ds_frames d) with
  | Some x => (h, Raise x)
  | None =>
    match ds_copy V false [("DRPVERSN", version); ("DRPCTIME", now)] h d with
    | Raise x => (h, Raise x)
    | Ok (h1, d1) =>
      match level_loop h1 u (ds_frames d1) with
      | (h2, Some x) => (h2, Raise x)
      | (h2, None) =>
        match update_step V h2 d1 (append "Updated Data Level to " (u_new u)) None None None [] with
        | (h3, d3, None) => (h3, Ok d3)
        | (h3, _, Some x) => (h3, Raise x)
        end
      end
    end
  end.

(** A user calling the updates one after another, each on the latest dataset;
    a failed call leaves the user with the dataset they had.  The log lists the
    calls that succeeded. *)
Fixpoint level_run (version now : string) (h : heap V) (d : dataset) (us : list updater)
  : heap V * dataset * list updater :=
  match us with
  | [] => (h, d, [])
  | u :: t =>
    match update_level version now h d u with
    | (h1, Ok d1) => let '(h2, d2, log) := level_run version now h1 d1 t in (h2, d2, u :: log)
    | (h1, Raise _) => level_run version now h1 d t
    end
  end.
End LevelModel.
