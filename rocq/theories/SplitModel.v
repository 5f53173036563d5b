(** Dataset.split_dataset, corgidrp/data.py 200-246, on the heap of DatasetModel.

    Header values are compared as values of one ordered type (the model's
    header values are strings); the order pandas uses for sorting the groups is
    the parameter [leb].  numpy's promotion of a mixed-type table to strings
    and its float/int conversion are not modelled. *)
From Coq Require Import List Arith Bool String.
From Verif Require Import Base DatasetModel.
Import ListNotations.
Local Open Scope list_scope.

Section SplitModel.
Variable V : Type.
Variable leb : string -> string -> bool.

(** data.py 222-234: the values of the keywords of one frame (KeyError when one
    is missing).  The code builds columns and transposes them (236). *)
Fixpoint key_values (hd : header) (keys : list string) : result (list string) :=
  match keys with
  | [] => Ok []
  | k :: t => match hget k hd with
              | None => Raise KeyError
              | Some v => do vs <- key_values hd t; Ok (v :: vs)
              end
  end.

Definition row_of (h : heap V) (pri ext : list string) (k : nat) : result (list string) :=
  do a <- key_values (hdr V h (im_pri (img V h k))) pri;
  do b <- key_values (hdr V h (im_ext (img V h k))) ext;
  Ok (a ++ b).

Fixpoint rows_of (h : heap V) (pri ext : list string) (frames : list nat) : result (list (list string)) :=
  match frames with
  | [] => Ok []
  | k :: t => do r <- row_of h pri ext k; do rs <- rows_of h pri ext t; Ok (r :: rs)
  end.

Definition keyeqb (a b : list string) : bool := if list_eq_dec string_dec a b then true else false.

(** Lexicographic order of key tuples. *)
Fixpoint lexleb (a b : list string) : bool :=
  match a, b with
  | [], _ => true
  | _ :: _, [] => false
  | x :: a', y :: b' => if String.eqb x y then lexleb a' b' else leb x y
  end.

(** data.py 239-243 [df.groupby(col_names)]: the distinct keys in sorted order
    and, for each, the ascending positions of its rows (pandas semantics). *)
Fixpoint insert_key (k : list string) (l : list (list string)) : list (list string) :=
  match l with
  | [] => [k]
  | k' :: t => if keyeqb k k' then l else if lexleb k k' then k :: l else k' :: insert_key k t
  end.

Definition group_keys (rows : list (list string)) : list (list string) :=
  fold_right insert_key [] rows.

Fixpoint positions (k : list string) (i : nat) (rows : list (list string)) : list nat :=
  match rows with
  | [] => []
  | r :: t => if keyeqb r k then i :: positions k (S i) t else positions k (S i) t
  end.

(** data.py 244-248: one sub-dataset per group, each made by slicing [self]. *)
Fixpoint take_groups (h : heap V) (d : dataset) (gs : list (list nat)) : result (heap V * list dataset) :=
  match gs with
  | [] => Ok (h, [])
  | g :: t => do s <- getitem V h d g;
              do r <- take_groups (fst s) d t;
              Ok (fst r, snd s :: snd r)
  end.

(** data.py 200-248; no keyword at all (both None, or empty lists, for which
    groupby raises) is a ValueError. *)
Definition split_dataset (h : heap V) (d : dataset) (pri ext : option (list string))
  : result (heap V * list dataset * list (list string)) :=
  match pri, ext with
  | None, None => Raise ValueError
  | _, _ =>
    let p := match pri with Some l => l | None => [] end in
    let e := match ext with Some l => l | None => [] end in
    do rows <- rows_of h p e (ds_frames d);
    match p ++ e with
    | [] => Raise ValueError
    | _ :: _ =>
      let ks := group_keys rows in
      do r <- take_groups h d (map (fun k => positions k 0 rows) ks);
      Ok (fst r, snd r, ks)
    end
  end.
End SplitModel.
