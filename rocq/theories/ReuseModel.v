(** The ends of four calibrations, on the headers of the caller: corgidrp/calibrate_kgain.py 775-794 calibrate_kgain,
    corgidrp/calibrate_nonlin.py 825-832 calibrate_nonlin, corgidrp/darks.py 247-259 build_trad_dark,
    corgidrp/pump_trap_calibration.py 3291-3299 create_TrapCalibration_from_trap_dict, with the constructors they call
    (corgidrp/data.py 340-425 Image, 632-679 Dark, 766-817 NonLinearityCalibration, 838-905 KGain, 1311-1343 TrapCalibration).

    These hand the extension header of the first frame, the object itself, to the product, so that it is written to through
    the frame and through the product.  The heap is a function from addresses to extension headers; frames and products hold
    addresses.  Simplified: the arrays are taken to have the shapes that the constructors accept, the other headers (primary,
    errors, flags) are left out, the numbers are arguments, a set of names is enumerated in an arbitrary order. *)
From Coq Require Import List Arith Bool String Ascii ZArith.
From Verif Require Import Base DiskModel ProdModel.
Import ListNotations.
Local Open Scope nat_scope.
Local Open Scope string_scope.
Local Open Scope list_scope.

Definition heap : Type := nat -> hdr.
Definition upd (a : nat) (x : hdr) (h : heap) : heap := fun b => if Nat.eqb a b then x else h b.
(** a frame of a dataset: filename and the address of ext_hdr *)
Record frame : Type := mkfr { fr_name : string; fr_at : nat }.
Definition parents (h : heap) (d : list frame) : list parent := map (fun f => mkpar (fr_name f) (h (fr_at f))) d.
(** a product: class, filename and the address of ext_hdr *)
Record made : Type := mkmade { m_cls : cls; m_file : string; m_at : nat }.
Record world : Type := mkw { w_heap : heap; w_made : list made }.

(** which calibration, with the numbers it writes: read noise and its error; width and height of the dark *)
Inductive tail : Type := TKgain (rn rn_err : hv) | TNonlin | TDark (nx ny : Z) | TTrap.
Definition makes (k : tail) : cls := match k with TKgain _ _ => CKGain | TNonlin => CNonLin | TDark _ _ => CDark | TTrap => CTrap end.

Section Reuse.
Variable order : list string -> list string.
Variable show : hv -> string.
Variable version : string.

(** one statement that writes to the header at an address, or raises and leaves it *)
Definition step : Type := heap -> result hdr.
Fixpoint run (a : nat) (l : list step) (h : heap) : heap * option exn :=
  match l with
  | [] => (h, None)
  | s :: t => match s h with Ok x => run a t (upd a x h) | Raise e => (h, Some e) end
  end.
Definition edit (a : nat) (g : hdr -> hdr) : step := fun h => Ok (g (h a)).
(** ext_hdr['HISTORY'] = a text with the values of some cards *)
Definition tell (a : nat) (ks : list string) (text : list string -> string) : step := fun h =>
  do vs <- fold_right (fun k r => do v <- card k (h a); do t <- r; Ok (show v :: t)) (Ok []) ks;
  Ok (add_hist (text vs) (h a)).
(** data.py 468-490 *)
Definition record (a : nat) (d : list frame) : step := fun h => record_parents order (parents h d) (h a).

(** data.py 390-391, 417-422 *)
Definition start (a : nat) (now : string) : list step :=
  [edit a (set "DRPVERSN" (HS version)); edit a (set "DRPCTIME" (HS now));
   edit a (set_new "DESMEAR" (HB false)); edit a (set_new "CTI_CORR" (HB false)); edit a (set_new "IS_BAD" (HB false))].
(** calibrate_kgain.py 777-792, data.py 838-905 *)
Definition kgain_steps (rn rn_err : hv) (now : string) (d : list frame) (a : nat) : list step :=
  [edit a (set "RN" rn); edit a (set "RN_ERR" rn_err); edit a (set "RN_UNIT" (HS "detected electrons"));
   tell a ["DATETIME"] (fun v => ("Kgain and read noise derived from a set of frames on " ++ String.concat "" v)%string)]
  ++ start a now
  ++ [edit a (set_new "RN" (HS "")); edit a (set_new "RN_ERR" (HS "")); record a d; edit a (set "DATATYPE" (HS "KGain"));
      edit a (set "BUNIT" (HS "Detected Electrons/DN")); edit a (add_hist "KGain Calibration file created"); edit a (set "DATALVL" (HS "CAL"))].
(** calibrate_nonlin.py 827-830, data.py 766-817 *)
Definition nonlin_steps (now : string) (d : list frame) (a : nat) : list step :=
  [tell a ["DATETIME"] (fun v => ("Non-linearity calibration derived from a set of frames on " ++ String.concat "" v)%string)]
  ++ start a now
  ++ [edit a (set "DATATYPE" (HS "NonLinearityCalibration")); record a d; edit a (add_hist "Non Linearity Calibration file created");
      edit a (set "DATALVL" (HS "CAL"))].
(** darks.py 251-258, data.py 632-679: parents are recorded only if the header has no DRPNFILE *)
Definition dark_steps (nx ny : Z) (now : string) (d : list frame) (a : nat) : list step :=
  [edit a (set "NAXIS1" (HZ nx)); edit a (set "NAXIS2" (HZ ny)); edit a (set "DATATYPE" (HS "Dark"))]
  ++ start a now
  ++ [edit a (set "DATATYPE" (HS "Dark")); edit a (set "BUNIT" (HS "detected electrons")); edit a (set_new "PC_STAT" (HS "analog master dark"));
      (fun h => if has "DRPNFILE" (h a) then Ok (h a) else record a d h);
      tell a ["EXPTIME"; "EMGAIN_C"; "DRPNFILE"] (fun v => ("Dark with exptime = " ++ nth 0 v "" ++ " s and commanded EM gain = " ++ nth 1 v "" ++ " created from " ++ nth 2 v "" ++ " frames")%string);
      edit a (set "DATALVL" (HS "CAL")); edit a (set_new "PC_STAT" (HS "analog master dark"));
      edit a (set "BUNIT" (HS "Detected Electrons")); edit a (add_hist "traditional master analog dark (not synthesized from detector noise maps)")].
(** pump_trap_calibration.py 3292-3297, data.py 1311-1343 *)
Definition trap_steps (now : string) (d : list frame) (a : nat) : list step :=
  start a now
  ++ [edit a (set "DATATYPE" (HS "TrapCalibration")); record a d;
      tell a ["DRPNFILE"] (fun v => ("TrapCalibration created from " ++ String.concat "" v ++ " frames")%string);
      edit a (set "DATALVL" (HS "CAL"))].
Definition steps (k : tail) (now : string) (d : list frame) (a : nat) : list step :=
  match k with
  | TKgain rn rn_err => kgain_steps rn rn_err now d a
  | TNonlin => nonlin_steps now d a
  | TDark nx ny => dark_steps nx ny now d a
  | TTrap => trap_steps now d a
  end.
(** the name of the product, from that of the last frame *)
Definition product_name (k : tail) (s : string) : string :=
  match k with
  | TKgain _ _ => sub_tag "_KRN_CAL" s
  | TNonlin => sub_tag "_NLN_CAL" s
  | TDark _ _ => replace "_DNM_CAL" "" (sub_tag "" (before ".fits" s ++ "_DRK_CAL.fits"))
  | TTrap => sub_tag "" (before ".fits" s ++ "_TPU_CAL.fits")
  end.

Record call : Type := mkcall { c_tail : tail; c_now : string; c_data : list frame }.
(** frames[0] of an empty dataset: IndexError *)
Definition calibrate (c : call) (w : world) : world * result made :=
  match c_data c with
  | [] => (w, Raise IndexError)
  | f :: _ =>
    match run (fr_at f) (steps (c_tail c) (c_now c) (c_data c) (fr_at f)) (w_heap w) with
    | (h, Some e) => (mkw h (w_made w), Raise e)
    | (h, None) => let m := mkmade (makes (c_tail c)) (product_name (c_tail c) (fr_name (last (c_data c) f))) (fr_at f) in
                   (mkw h (w_made w ++ [m]), Ok m)
    end
  end.
(** calls one after the other, the errors caught *)
Fixpoint calls (l : list call) (w : world) : world := match l with [] => w | c :: t => calls t (fst (calibrate c w)) end.
(** the same, ended by the first error *)
Fixpoint calls_ok (l : list call) (w : world) : result world :=
  match l with [] => Ok w | c :: t => match calibrate c w with (w1, Ok _) => calls_ok t w1 | (_, Raise e) => Raise e end end.
End Reuse.
