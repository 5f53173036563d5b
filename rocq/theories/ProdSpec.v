(** Specification of the calibration products. *)
From Coq Require Import List Arith Bool String Ascii ZArith QArith.
From Verif Require Import Base DiskModel DiskSpec ProdModel.
Import ListNotations.
Local Open Scope nat_scope.
Local Open Scope string_scope.
Local Open Scope list_scope.

(** ** Text *)
(** The tag of a data level: _L, a digit, and a character that is not a newline *)
Definition tag (w : string) : Prop := exists d c, w = String "_" (String "L" (String d (String c EmptyString))) /\ In d (list_ascii_of_string "0123456789") /\ c <> "010"%char.
Definition occurs (P : string -> Prop) (s : string) : Prop := exists a w b, s = (a ++ w ++ b)%string /\ P w.
(** The first word of P in s, after a *)
Definition first_at (P : string -> Prop) (s a w b : string) : Prop :=
  s = (a ++ w ++ b)%string /\ P w /\ forall a' w' b', s = (a' ++ w' ++ b')%string -> P w' -> String.length a <= String.length a'.
(** All words of P replaced, from the left *)
Inductive swapped (P : string -> Prop) (rep : string) : string -> string -> Prop :=
| sw_none : forall s, ~ occurs P s -> swapped P rep s s
| sw_one : forall s a w b t, first_at P s a w b -> swapped P rep b t -> swapped P rep s (a ++ rep ++ t)%string.
(** The text before the first p *)
Definition upto (p s a : string) : Prop := (exists b, first_at (eq p) s a p b) \/ ~ occurs (eq p) s /\ a = s.

(** ** Names and units of the products *)
Definition named (c : cls) : string :=
  match c with
  | CImage => "Image" | CDark => "Dark" | CFlat => "FlatField" | CNonLin => "NonLinearityCalibration" | CKGain => "KGain" | CBpm => "BadPixelMap"
  | CDnm => "DetectorNoiseMaps" | CParams => "DetectorParams" | CAstrom => "AstrometricCalibration" | CTrap => "TrapCalibration"
  | CFlux => "FluxcalFactor" | CFpam => "FpamFsamCal" | CCt => "CoreThroughputCalibration" | CNd => "NDFilterSweetSpotDataset"
  end.
Definition unit_of (c : cls) : option string :=
  match c with CDark => Some "detected electrons" | CFlat => Some "None" | CKGain => Some "Detected Electrons/DN" | CDnm => Some "Detected Electrons" | _ => None end.
(** Cards only added when absent *)
Definition fallback (c : cls) (k : string) : option hv :=
  match c with
  | CDark => if String.eqb k "PC_STAT" then Some (HS "analog master dark") else None
  | CKGain => if orb (String.eqb k "RN") (String.eqb k "RN_ERR") then Some (HS "") else None
  | _ => None
  end.
(** The default name from the name s of the last input *)
Definition name_of (c : cls) (s f : string) : Prop :=
  match c with
  | CDark => exists a m, upto ".fits" s a /\ swapped tag "" (a ++ "_DRK_CAL.fits") m /\ swapped (eq "_DNM_CAL") "" m f
  | CFlat => swapped tag "_FLT_CAL" s f
  | CNonLin => swapped tag "_NLN_CAL" s f
  | CKGain => swapped tag "_KRN_CAL" s f
  | CBpm => occurs (eq "_FLT_CAL") s /\ swapped (eq "_FLT_CAL") "_BPM_CAL" s f \/ ~ occurs (eq "_FLT_CAL") s /\ swapped tag "_BPM_CAL" s f
  | CDnm => exists a, upto ".fits" s a /\ swapped tag "" (a ++ "_DNM_CAL.fits") f
  | CAstrom => exists a, upto ".fits" s a /\ f = (a ++ "_AST_CAL.fits")%string
  | CTrap => exists a, upto ".fits" s a /\ swapped tag "" (a ++ "_TPU_CAL.fits") f
  | CFlux => exists a, upto ".fits" s a /\ swapped tag "" (a ++ "_ABF_CAL.fits") f
  | CCt => swapped tag "_CTP_CAL" s f
  | CNd => swapped tag "_NDF_CAL" s f
  | CImage | CParams | CFpam => False
  end.
(** Detector parameters: keyword, default value, former keyword *)
Definition parameters : list (string * hv * option string) :=
  [("KGAINPAR", HQ (87 # 10), Some "KGAIN"); ("FWC_PP_E", HQ 90000, Some "FWC_PP"); ("FWC_EM_E", HQ 100000, Some "FWC_EM"); ("ROWREADT", HQ (2235 # 10000000), Some "ROWREADTIME");
   ("NEMGAIN", HZ 604, Some "NEM"); ("TELRSTRT", HZ (-1), Some "TELEM_ROWS_START"); ("TELREND", HU, Some "TELEM_ROWS_END"); ("CRHITRT", HQ 50000, Some "X");
   ("PIXAREA", HQ (169 # 1000000000000), Some "A"); ("GAINMAX", HQ 8000, Some "GMAX"); ("DELCNST", HQ (1 # 10000), Some "DELTA_CONSTR"); ("OVERHEAD", HZ 3, None);
   ("PCECNTMX", HQ (1 # 10), Some "PC_ECOUNT_MAX"); ("TFACTOR", HZ 5, Some "T_FACTOR")].
(** The value of a parameter: under its keyword, else under the former one *)
Definition par_value (ext : hdr) (e : string * hv * option string) (p : string * hv) : Prop :=
  fst p = fst (fst e) /\ (get (fst (fst e)) ext = Some (snd p) \/ get (fst (fst e)) ext = None /\ exists o, snd e = Some o /\ get o ext = Some (snd p)).

Section Spec.
Context {E : Type}.
Variable is_nan : E -> bool.
Notation arr := (arr E).
Notation image := (image E).
Notation file := (file E).
Notation prod := (prod E).

(** ** The format of each class *)
Definition band_card (ext : hdr) (v : hv) : Prop := get "FPAMNAME" ext = Some v \/ get "FPAMNAME" ext = None /\ get "FSAMNAME" ext = Some v.
Definition fits (c : cls) (x : image) : Prop :=
  match c with
  | CNonLin => exists a b r v t, shp (i_data x) = a :: b :: r /\ 2 <= a /\ 2 <= b /\ fold_right Nat.mul 1 r = 1 /\ vals (i_data x) = v :: t /\ is_nan v = true
  | CKGain => shp (i_data x) = [1; 1] /\ exists a b r, shp (i_err x) = S a :: S b :: r
  | CDnm => (exists a b, shp (i_data x) = [3; a; b]) /\ (exists k a b, shp (i_err x) = [1; k; a; b] /\ 3 <= k) /\ (exists a b, shp (i_dq x) = [3; a; b]) /\ get "B_O" (i_ext x) <> None /\ get "B_O_ERR" (i_ext x) <> None
  | CParams => forall e, In e parameters -> exists p, par_value (i_ext x) e p
  | CAstrom => exists n r, shp (i_data x) = n :: r /\ 5 <= n
  | CFlux => shp (i_data x) = [1; 1] /\ (exists s, band_card (i_ext x) (HS s)) /\ get "CFAMNAME" (i_ext x) <> None /\ exists a b d r, shp (i_err x) = S a :: S b :: S d :: r
  | CCt => get "EXTNAME" (i_ext x) = Some (HS "PSFCUBE") /\ exists y0 y1 y2 l n a b r, i_list x = y0 :: y1 :: y2 :: l /\ h_name y0 = "CTEXCAM" /\ h_name y1 = "CTFPAM" /\ h_name y2 = "CTFSAM" /\ shp (i_data x) = [n; a; b] /\ shp (h_data y0) = 3 :: n :: r
  | CNd => exists n, shp (i_data x) = [n; 3]
  | CImage | CDark | CFlat | CBpm | CTrap | CFpam => True
  end.
Definition labelled (c : cls) (x : image) : Prop := c = CImage \/ get "DATATYPE" (i_ext x) = Some (HS (named c)).
(** What a product has besides the frame x; the curve of a KGain is the third HDU *)
Definition extra (c : cls) (f : file) (x : image) (m : more E) : Prop :=
  match c with
  | CKGain => exists y0 y1 y r, f_hdus f = y0 :: y1 :: y :: r /\ m = MPtc (set "EXTNAME" (HS "PTC") (h_hdr y)) (h_data y)
  | CParams => exists l, Forall2 (par_value (i_ext x)) parameters l /\ m = MPars l
  | CFlux => exists s v, band_card (i_ext x) (HS s) /\ get "CFAMNAME" (i_ext x) = Some v /\ m = MFlux (if String.prefix "ND" s then s else "ND0") v
  | _ => m = MNone
  end.
Definition dq_remark : string := "DQ not meaningful for this calibration; just present for class consistency".
Definition err_remark : string := "err not meaningful for this calibration; just present for class consistency".
Definition dq_remarks (c : cls) : list string := match c with CNonLin | CBpm | CAstrom | CTrap => [dq_remark] | _ => [] end.
Definition err_remarks (c : cls) : list string := match c with CBpm => [err_remark] | _ => [] end.
(** The class autoload takes for the first HDU: that of the label, under another name for CNd *)
Definition taken (c : cls) (h : hdu E) : Prop :=
  get "DATATYPE" (h_hdr h) = Some (HS (match c with CNd => "NDFilterSweetSpot" | _ => named c end)) \/ get "DATATYPE" (h_hdr h) = None /\ List.length (shp (h_data h)) = 2 /\ c = CImage.
(** The headers of a loaded product *)
Definition pri_of (c : cls) (h : hdr) : hdr := match c, get "OBSID" h with CParams, Some v => set "OBSNUM" v h | _, _ => h end.
Definition ext_of (c : cls) (h : hdr) : hdr :=
  match c with
  | CDark => set_new "PC_STAT" (HS "analog master dark") h
  | CKGain => set_new "RN_ERR" (HS "") (set_new "RN" (HS "") h)
  | CParams => match get "CMDGAIN" h with Some v => set "EMGAIN_C" v h | None => h end
  | _ => h
  end.
Definition remarked (l : list string) (h h' : hdr) : Prop := cards h' = cards h /\ hist h' = hist h /\ comm h' = comm h ++ l.
(** The product y of the file f read as the frame x *)
Definition loaded (c : cls) (f : file) (x : image) (y : prod) : Prop :=
  p_cls y = c /\ extra c f x (p_more y) /\ i_pri (p_img y) = pri_of c (i_pri x) /\ i_ext (p_img y) = ext_of c (i_ext x)
  /\ i_data (p_img y) = i_data x /\ i_err (p_img y) = i_err x /\ i_dq (p_img y) = i_dq x /\ i_list (p_img y) = i_list x /\ i_names (p_img y) = i_names x /\ i_dir (p_img y) = i_dir x /\ i_file (p_img y) = i_file x
  /\ remarked (err_remarks c) (i_errh x) (i_errh (p_img y)) /\ remarked (dq_remarks c) (i_dqh x) (i_dqh (p_img y)).

(** ** What every product satisfies *)
Record sound (track : bool) (y : prod) : Prop := {
  sd_ready : ready track (p_img y); sd_fits : fits (p_cls y) (p_img y); sd_label : labelled (p_cls y) (p_img y);
  sd_ext : ext_of (p_cls y) (i_ext (p_img y)) = i_ext (p_img y); sd_pri : pri_of (p_cls y) (i_pri (p_img y)) = i_pri (p_img y);
  sd_more : match p_cls y with
            | CKGain => exists h a, p_more y = MPtc h a /\ get "EXTNAME" h = Some (HS "PTC")
            | CParams => exists l, Forall2 (par_value (i_ext (p_img y))) parameters l /\ p_more y = MPars l
            | CFlux => exists s v, band_card (i_ext (p_img y)) (HS s) /\ get "CFAMNAME" (i_ext (p_img y)) = Some v /\ p_more y = MFlux (if String.prefix "ND" s then s else "ND0") v
            | _ => p_more y = MNone
            end }.
(** A product z read back from y: equal but for the remarks, and for what a KGain file does not hold *)
Definition came_back (zero : E) (y z : prod) : Prop :=
  p_cls z = p_cls y /\ p_more z = p_more y /\ i_pri (p_img z) = i_pri (p_img y) /\ i_ext (p_img z) = i_ext (p_img y) /\ i_data (p_img z) = i_data (p_img y) /\ i_err (p_img z) = i_err (p_img y)
  /\ remarked (err_remarks (p_cls y)) (i_errh (p_img y)) (i_errh (p_img z))
  /\ (p_cls y <> CKGain -> i_dq (p_img z) = i_dq (p_img y) /\ i_list (p_img z) = i_list (p_img y) /\ remarked (dq_remarks (p_cls y)) (i_dqh (p_img y)) (i_dqh (p_img z)))
  /\ (p_cls y = CKGain -> all_zero zero (shp (i_data (p_img y))) (i_dq (p_img z)) /\ cards (i_dqh (p_img z)) = [("EXTNAME", HS "DQ")] /\ exists h a, p_more y = MPtc h a /\ i_list (p_img z) = [mkhdu h a]).

(** ** Parents *)
Definition named_by (p : parent) (s : string) : Prop := s = pa_name p \/ exists n j, get "DRPNFILE" (pa_ext p) = Some (HZ n) /\ (Z.of_nat j < n)%Z /\ get ("FILE" ++ decimal j)%string (pa_ext p) = Some (HS s).
Definition listed (p : parent) : Prop :=
  get "DRPNFILE" (pa_ext p) = None \/ exists n, get "DRPNFILE" (pa_ext p) = Some (HZ n) /\ forall j, (Z.of_nat j < n)%Z -> exists s, get ("FILE" ++ decimal j)%string (pa_ext p) = Some (HS s).
(** The cards of the parents: numbered from 0, without repetition *)
Definition parents_in (l : list parent) (e0 e : hdr) : Prop :=
  exists u, NoDup u /\ (forall s, In s u <-> exists p, In p l /\ named_by p s) /\ get "DRPNFILE" e = Some (HZ (Z.of_nat (List.length u)))
  /\ (forall i, i < List.length u -> exists s, nth_error u i = Some s /\ get ("FILE" ++ decimal i)%string e = Some (HS s))
  /\ (forall i, List.length u <= i -> get ("FILE" ++ decimal i)%string e = get ("FILE" ++ decimal i)%string e0).

(** ** Making a product *)
Notation args := (args E).
(** The arguments each constructor hands over *)
Definition err_arg (c : cls) (a : args) : option arr := match c with CImage | CDark | CKGain | CDnm | CAstrom | CFlux | CCt | CNd => a_err a | _ => None end.
Definition dq_arg (c : cls) (a : args) : option arr := match c with CImage | CDark | CDnm | CCt | CNd => a_dq a | _ => None end.
Definition errh_arg (c : cls) (a : args) : option hdr := match c with CImage | CDark | CKGain | CDnm | CFlux | CCt | CNd => a_errh a | _ => None end.
Definition dqh_arg (c : cls) (a : args) : option hdr := match c with CImage | CCt => a_dqh a | _ => None end.
Definition hdus_arg (c : cls) (a : args) : option (list (hdu E)) := match c with CImage | CCt => a_hdus a | _ => None end.
(** Whether the parents are recorded: not again by Dark and DetectorNoiseMaps *)
Definition recorded (c : cls) (a : args) (ext : hdr) : Prop := a_input a <> None /\ (c = CDark \/ c = CDnm -> get "DRPNFILE" ext = None).
(** What the constructor needs *)
Definition sourced (c : cls) (a : args) (ext : hdr) : Prop :=
  match c with CImage | CParams | CFpam => False | _ => True end
  /\ (forall l, a_input a = Some l -> l <> [] /\ (recorded c a ext -> Forall listed l))
  /\ (a_input a = None -> match c with CDark | CKGain => get "DRPNFILE" ext <> None | CDnm => get "DRPNFILE" ext <> None /\ exists s, get "FILE0" ext = Some (HS s) | CNd => True | _ => False end)
  /\ match c with
     | CDark => get "EXPTIME" ext <> None /\ get "EMGAIN_C" ext <> None
     | CFlat => get "EXPTIME" ext <> None
     | CCt => hist ext <> [] \/ get "DATETIME" ext <> None
     | _ => True
     end.
Definition is_file (k : string) : Prop := k = "DRPNFILE" \/ exists i, k = ("FILE" ++ decimal i)%string.
(** The product made from the frame x *)
Definition story (show : hv -> string) (c : cls) (e : hdr) (t : string) : Prop :=
  match c with
  | CDark => exists v g n, get "EXPTIME" e = Some v /\ get "EMGAIN_C" e = Some g /\ get "DRPNFILE" e = Some n /\ t = ("Dark with exptime = " ++ show v ++ " s and commanded EM gain = " ++ show g ++ " created from " ++ show n ++ " frames")%string
  | CFlat => exists v n, get "EXPTIME" e = Some v /\ get "DRPNFILE" e = Some n /\ t = ("Flat with exptime = " ++ show v ++ " s created from " ++ show n ++ " frames")%string
  | CTrap => exists n, get "DRPNFILE" e = Some n /\ t = ("TrapCalibration created from " ++ show n ++ " frames")%string
  | CNd => t = ("NDFilterSweetSpotDataset created from " ++ match get "DRPNFILE" e with Some n => show n | None => "?" end ++ " frames")%string
  | CCt => exists v, get "DATETIME" e = Some v /\ t = ("Core Throughput calibration derived from a set of frames on " ++ show v)%string
  | CNonLin => t = "Non Linearity Calibration file created"
  | CKGain => t = "KGain Calibration file created"
  | CBpm => t = "Bad Pixel map created"
  | CDnm => t = "DetectorNoiseMaps calibration file created"
  | CAstrom => t = "Astrometric Calibration file created"
  | CFlux => t = "Flux calibration file created"
  | CImage | CParams | CFpam => False
  end.
Definition made (show : hv -> string) (c : cls) (a : args) (x : image) (y : prod) : Prop :=
  p_cls y = c
  /\ i_pri (p_img y) = i_pri x /\ i_data (p_img y) = i_data x /\ i_err (p_img y) = i_err x /\ i_dq (p_img y) = i_dq x /\ i_list (p_img y) = i_list x /\ i_names (p_img y) = i_names x /\ i_dir (p_img y) = "."
  /\ remarked (dq_remarks c) (i_dqh x) (i_dqh (p_img y))
  /\ remarked (err_remarks c) (match c, a_errh a with CDark, Some _ | CDnm, Some _ => set "BUNIT" (HS "Detected Electrons") (i_errh x) | _, _ => i_errh x end) (i_errh (p_img y))
  (* the name *)
  /\ (forall l p, a_input a = Some (l ++ [p]) -> name_of c (pa_name p) (i_file (p_img y)))
  /\ (a_input a = None -> match c with CDark => i_file (p_img y) = "DRK_CAL.fits" | CDnm => exists s, get "FILE0" (i_ext x) = Some (HS s) /\ name_of CDnm s (i_file (p_img y)) | _ => i_file (p_img y) = EmptyString end)
  (* the cards *)
  /\ get "DATATYPE" (i_ext (p_img y)) = Some (HS (named c)) /\ get "DATALVL" (i_ext (p_img y)) = Some (HS "CAL")
  /\ (forall u, unit_of c = Some u -> get "BUNIT" (i_ext (p_img y)) = Some (HS u))
  /\ (c = CDnm -> get "B_0_UNIT" (i_ext (p_img y)) = Some (HS "DN"))
  /\ (recorded c a (i_ext x) -> exists l, a_input a = Some l /\ parents_in l (i_ext x) (i_ext (p_img y)))
  /\ (forall k, k <> "DATATYPE" -> k <> "DATALVL" -> (k = "BUNIT" -> unit_of c = None) -> (k = "B_0_UNIT" -> c <> CDnm) -> (recorded c a (i_ext x) -> ~ is_file k) ->
      get k (i_ext (p_img y)) = match get k (i_ext x) with Some v => Some v | None => fallback c k end)
  /\ comm (i_ext (p_img y)) = comm (i_ext x) /\ (c = CCt /\ hist (i_ext x) <> [] /\ hist (i_ext (p_img y)) = hist (i_ext x) \/ (c = CCt -> hist (i_ext x) = []) /\ exists t, hist (i_ext (p_img y)) = hist (i_ext x) ++ [t] /\ story show c (i_ext (p_img y)) t)
  (* the rest *)
  /\ match c with
     | CKGain => exists h d, p_more y = MPtc h d /\ h = set "EXTNAME" (HS "PTC") (match a_ptch a with Some g => g | None => blank end) /\ (match a_ptc a with Some p => d = p | None => shp d = [2; 0] /\ vals d = [] end)
     | CFlux => exists s v, band_card (i_ext x) (HS s) /\ get "CFAMNAME" (i_ext x) = Some v /\ p_more y = MFlux (if String.prefix "ND" s then s else "ND0") v
     | _ => p_more y = MNone
     end.

(** ** Detector parameters from a dictionary d, and matrices *)
Definition times (version now valid : string) (t : Z) : list (string * hv) :=
  [("SCTSRT", HS valid); ("DRPVERSN", HS version); ("DRPCTIME", HS now); ("EXPTIME", HZ t); ("OPMODE", HS ""); ("EMGAIN_C", HQ 1); ("EXCAMT", HQ 40)].
Definition usual (version now valid : string) : list (string * hv) := times version now valid 1 ++ [("DATALVL", HS "CAL")] ++ map fst parameters.
Definition params_made (zero : E) (show : hv -> string) (version now valid : string) (d : list (string * hv)) (y : prod) : Prop :=
  p_cls y = CParams
  /\ (exists l, p_more y = MPars l /\ Forall2 (fun e p => fst p = fst (fst e) /\ (In p d \/ ~ In (fst p) (map fst d) /\ p = fst e)) parameters l)
  /\ (forall k v, get k (i_ext (p_img y)) = Some v <->
        k = "DATATYPE" /\ v = HS "DetectorParams" \/ k = "EMGAIN_C" /\ In ("CMDGAIN", v) d
        \/ k <> "DATATYPE" /\ (k = "EMGAIN_C" -> ~ In "CMDGAIN" (map fst d)) /\ (In (k, v) d \/ ~ In k (map fst d) /\ In (k, v) (usual version now valid)))
  /\ hist (i_ext (p_img y)) = ["Detector Params file created"] /\ comm (i_ext (p_img y)) = [] /\ i_pri (p_img y) = mkh [("OBSNUM", HZ 0)] [] []
  /\ all_zero zero [1; 1] (i_data (p_img y)) /\ all_zero zero [1; 1] (i_err (p_img y)) /\ all_zero zero [1; 1] (i_dq (p_img y)) /\ i_list (p_img y) = [] /\ i_dir (p_img y) = "." /\ i_errh (p_img y) = mkh [] [] [] /\ i_dqh (p_img y) = mkh [] [] []
  /\ exists t, get "SCTSRT" (i_ext (p_img y)) = Some t /\ i_file (p_img y) = ("DetectorParams_" ++ show t ++ ".fits")%string.
Definition fpam_made (times0 : E -> E) (show : hv -> string) (version now valid : string) (m : arr) (y : prod) : Prop :=
  p_cls y = CFpam /\ p_more y = MNone /\ i_data (p_img y) = m
  /\ (forall k v, get k (i_ext (p_img y)) = Some v <-> k = "DATATYPE" /\ v = HS "FpamFsamCal" \/ k = "DATALVL" /\ v = HS "CAL" \/ In (k, v) (times version now valid 0))
  /\ hist (i_ext (p_img y)) = ["FPAM/FSAM rotation matrices file created"] /\ comm (i_ext (p_img y)) = [] /\ i_pri (p_img y) = mkh [("OBSNUM", HZ 0)] [] []
  /\ shp (i_err (p_img y)) = shp m /\ vals (i_err (p_img y)) = map times0 (vals m) /\ i_dq (p_img y) = i_err (p_img y) /\ i_list (p_img y) = [] /\ i_dir (p_img y) = "." /\ i_errh (p_img y) = mkh [] [] [] /\ i_dqh (p_img y) = mkh [] [] []
  /\ i_file (p_img y) = ("FpamFsamCal_" ++ show (HS valid) ++ ".fits")%string.
(** Read back from y without names for its planes: they come back as extra extensions, with new planes of zeros *)
Definition came_bare (zero : E) (y z : prod) : Prop :=
  p_cls z = p_cls y /\ p_more z = p_more y /\ i_data (p_img z) = i_data (p_img y) /\ i_pri (p_img z) = mkh (cards (i_pri (p_img y)) ++ [("ORIGIN", HS "DRP")]) [] []
  /\ (forall k, get k (i_ext (p_img z)) = match get k (i_ext (p_img y)) with Some v => Some v | None => if existsb (String.eqb k) ["DESMEAR"; "CTI_CORR"; "IS_BAD"] then Some (HB false) else None end)
  /\ hist (i_ext (p_img z)) = hist (i_ext (p_img y)) /\ comm (i_ext (p_img z)) = comm (i_ext (p_img y))
  /\ all_zero zero (1 :: shp (i_data (p_img y))) (i_err (p_img z)) /\ all_zero zero (shp (i_data (p_img y))) (i_dq (p_img z))
  /\ map h_data (i_list (p_img z)) = [i_err (p_img y); i_dq (p_img y)] /\ map h_name (i_list (p_img z)) = [EmptyString; EmptyString].
End Spec.
