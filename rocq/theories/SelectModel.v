(** frame_select, corgidrp/l2a_to_l2b.py 157-254.

    A frame carries its DQ values (64-bit integers, as Z), the header cards the
    function reads or writes, its HISTORY and any further content (data, err,
    other cards) of an arbitrary type.  The numbers printed in the history
    message are dropped: an entry records, for each bad frame, its file name and
    the list of its rejection reasons.  Frames are values: the copy at 176 is a
    deep one (DatasetModel). *)
From Coq Require Import List Arith Bool QArith ZArith String.
From Verif Require Import Base DqModel.
Import ListNotations.
Local Open Scope nat_scope.

(** The arguments 157; [None] thresholds are not used. *)
Record setting : Type := mkset {
  s_frac : Q; s_allowed : Z; s_overexp : bool; s_rms : option Q; s_bias : option Q; s_discard : bool }.

(** One rejection reason, 190-224; [code] is what it adds to reject_flags. *)
Inductive reason : Type := BadPix | OverExp | TipRms | TiltRms | TipBias | TiltBias.
Definition code (r : reason) : N :=
  match r with BadPix => 1 | OverExp => 2 | TipRms => 4 | TiltRms => 8 | TipBias => 16 | TiltBias => 32 end%N.

(** 238-252: the history message: Removed (true) or Marked (false), and the bad
    frames. *)
Record note : Type := mknote { n_removed : bool; n_bad : list (string * list reason) }.

(** The cards FRMSEL01-06, 193-222. *)
Record selcards : Type := mksel { c1 : Q; c2 : bool; c3 : option Q; c4 : option Q; c5 : option Q; c6 : option Q }.

Section Select.
Variable X : Type.

Record sframe : Type := mkf {
  f_name : string; f_dq : list Z;
  f_over : option bool; f_z2v : option Q; f_z3v : option Q; f_z2r : option Q; f_z3r : option Q;
  f_isbad : option bool; f_sel : option selcards; f_hist : list note; f_rest : X }.

(** 186: pixels with a disallowed bit: masked_dq > 0 as signed integers. *)
Definition bad_count (allowed : Z) (dq : list Z) : nat :=
  List.length (filter (fun d => Z.ltb 0 (Z.land d (Z.lnot allowed))) dq).

Definition inQ (n : nat) : Q := inject_Z (Z.of_nat n).

(** 184-192; an image without pixels: ZeroDivisionError, here PyException. *)
Definition crit_pix (s : setting) (f : sframe) : result (list reason) :=
  if negb (Qle_bool 1 (s_frac s)) then
    match f_dq f with
    | [] => Raise PyException
    | _ :: _ =>
      if negb (Qle_bool (inQ (bad_count (s_allowed s) (f_dq f)) / inQ (List.length (f_dq f))) (s_frac s))
      then Ok [BadPix] else Ok []
    end
  else Ok [].

(** 195-198 *)
Definition crit_over (s : setting) (f : sframe) : result (list reason) :=
  if s_overexp s then do o <- getkey (f_over f); Ok (if o then [OverExp] else []) else Ok [].

(** 201-209 and 212-220: header value > threshold *)
Definition crit_thr (thr : option Q) (r : reason) (card : option Q) : result (list reason) :=
  match thr with
  | None => Ok []
  | Some t => do v <- getkey card; Ok (if negb (Qle_bool v t) then [r] else [])
  end.

Definition reasons (s : setting) (f : sframe) : result (list reason) :=
  do a <- crit_pix s f;
  do b <- crit_over s f;
  do c <- crit_thr (s_rms s) TipRms (f_z2v f);
  do d <- crit_thr (s_rms s) TiltRms (f_z3v f);
  do e <- crit_thr (s_bias s) TipBias (f_z2r f);
  do g <- crit_thr (s_bias s) TiltBias (f_z3r f);
  Ok (a ++ b ++ c ++ d ++ e ++ g).

(** reject_flags[i] *)
Definition flags (l : list reason) : N := fold_left (fun acc r => (acc + code r)%N) l 0%N.

(** 193-226: the cards written into the copied frame *)
Definition mark (s : setting) (f : sframe) (l : list reason) : sframe :=
  mkf (f_name f) (f_dq f) (f_over f) (f_z2v f) (f_z3v f) (f_z2r f) (f_z3r f)
      (if N.ltb 0 (flags l) then Some true else f_isbad f)
      (Some (mksel (s_frac s) (s_overexp s) (s_rms s) (s_rms s) (s_bias s) (s_bias s)))
      (f_hist f) (f_rest f).

Definition add_note (n : note) (f : sframe) : sframe :=
  mkf (f_name f) (f_dq f) (f_over f) (f_z2v f) (f_z3v f) (f_z2r f) (f_z3r f)
      (f_isbad f) (f_sel f) (f_hist f ++ [n]) (f_rest f).

(** 157-254 *)
Definition frame_select (s : setting) (fs : list sframe) : result (list sframe) :=
  do rs <- mapR (reasons s) fs;
  let all := combine fs rs in
  let good := filter (fun p => N.eqb (flags (snd p)) 0) all in
  let bad := filter (fun p => N.ltb 0 (flags (snd p))) all in
  match good with
  | [] => Raise ValueError
  | _ :: _ =>
    let n := mknote (s_discard s) (map (fun p => (f_name (fst p), snd p)) bad) in
    Ok (map (fun p => add_note n (mark s (fst p) (snd p))) (if s_discard s then good else all))
  end.

End Select.

Arguments f_name {X}. Arguments f_dq {X}. Arguments f_over {X}. Arguments f_z2v {X}. Arguments f_z3v {X}.
Arguments f_z2r {X}. Arguments f_z3r {X}. Arguments f_isbad {X}. Arguments f_sel {X}. Arguments f_hist {X}.
Arguments f_rest {X}. Arguments mkf {X}. Arguments crit_pix {X}. Arguments crit_over {X}. Arguments reasons {X}.
Arguments mark {X}. Arguments add_note {X}. Arguments frame_select {X}.
