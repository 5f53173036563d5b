(** What the ends of the calibrations may write, independently of how. *)
From Coq Require Import List Arith Bool String ZArith.
From Verif Require Import Base DiskModel ProdModel ReuseModel.
Import ListNotations.
Local Open Scope string_scope.
Local Open Scope list_scope.

(** The keywords written, apart from those of the parents *)
Definition common : list string := ["DRPVERSN"; "DRPCTIME"; "DESMEAR"; "CTI_CORR"; "IS_BAD"; "DATATYPE"; "DATALVL"].
Definition writes (k : tail) : list string :=
  common ++ match k with
            | TKgain _ _ => ["RN"; "RN_ERR"; "RN_UNIT"; "BUNIT"]
            | TDark _ _ => ["NAXIS1"; "NAXIS2"; "BUNIT"; "PC_STAT"]
            | TNonlin | TTrap => []
            end.
(** The cards that are there at the end, whatever was there before *)
Definition puts (version : string) (k : tail) (now : string) : list (string * hv) :=
  [("DRPVERSN", HS version); ("DRPCTIME", HS now); ("DATALVL", HS "CAL");
   ("DATATYPE", HS match k with TKgain _ _ => "KGain" | TNonlin => "NonLinearityCalibration" | TDark _ _ => "Dark" | TTrap => "TrapCalibration" end)]
  ++ match k with
     | TKgain rn rn_err => [("RN", rn); ("RN_ERR", rn_err); ("RN_UNIT", HS "detected electrons"); ("BUNIT", HS "Detected Electrons/DN")]
     | TDark nx ny => [("NAXIS1", HZ nx); ("NAXIS2", HZ ny); ("BUNIT", HS "Detected Electrons")]
     | TNonlin | TTrap => []
     end.
(** The header that a call writes to *)
Definition target (c : call) : option nat := match c_data c with [] => None | f :: _ => Some (fr_at f) end.
(** [k] is the calibration of the last of the calls that write to the header at [a] *)
Definition last_on (a : nat) (l : list call) (k : tail) : Prop :=
  exists l1 c l2, l = l1 ++ c :: l2 /\ target c = Some a /\ c_tail c = k /\ Forall (fun d => target d <> Some a) l2.
Definition labelled (h : heap) (m : made) (c : cls) : Prop := get "DATATYPE" (h (m_at m)) = Some (HS (label c)).
(** The cards that must be there *)
Definition needs (k : tail) : list string := match k with TKgain _ _ | TNonlin => ["DATETIME"] | TDark _ _ => ["EXPTIME"; "EMGAIN_C"] | TTrap => [] end.
(** Whether the parents are recorded: always, but for a dark whose header already has some *)
Definition records (k : tail) (e : hdr) : Prop := match k with TDark _ _ => get "DRPNFILE" e = None | _ => True end.
