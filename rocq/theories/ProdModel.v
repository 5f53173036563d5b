(** Calibration products: corgidrp/data.py 468-489 _record_parent_filenames, the constructors of the product classes
    (Dark 632-679, FlatField 691-721, NonLinearityCalibration 766-817, KGain 838-940, BadPixelMap 955-992,
    DetectorNoiseMaps 1014-1079, DetectorParams 1100-1219, AstrometricCalibration 1254-1292, TrapCalibration 1311-1343,
    FluxcalFactor 1362-1435, FpamFsamCal 1469-1529, CoreThroughputCalibration 1557-1644, NDFilterSweetSpotDataset 2434-2486),
    KGain.save 910-940, datatypes and autoload 2549-2596.

    A constructor is called with a path alone, or with an array and both headers.  Values of cards in texts are written by an
    arbitrary function; the set of parent names is enumerated in an arbitrary order; the default matrices of FpamFsamCal and
    multiplication by zero are arbitrary. *)
From Coq Require Import List Arith Bool String Ascii ZArith QArith.
From Verif Require Import Base DiskModel.
Import ListNotations.
Local Open Scope nat_scope.
Local Open Scope string_scope.
Local Open Scope list_scope.

(** ** Text *)
(** a literal at the start of s: what follows *)
Fixpoint eat_lit (p s : string) : option string :=
  match p, s with
  | EmptyString, _ => Some s
  | String a q, String b t => if Ascii.eqb a b then eat_lit q t else None
  | String _ _, EmptyString => None
  end.
Definition is_digit (c : ascii) : bool := andb (Nat.leb 48 (nat_of_ascii c)) (Nat.leb (nat_of_ascii c) 57).
(** the pattern _L[0-9]. at the start of s; the dot is anything but a newline *)
Definition eat_tag (s : string) : option string :=
  match s with
  | String a (String b (String c (String d t))) =>
    if andb (andb (Ascii.eqb a "_") (Ascii.eqb b "L")) (andb (is_digit c) (negb (Ascii.eqb d (ascii_of_nat 10)))) then Some t else None
  | _ => None
  end.
(** re.sub, str.replace: from left to right, matches do not overlap *)
Fixpoint sub_fuel (eat : string -> option string) (rep : string) (n : nat) (s : string) : string :=
  match n with
  | 0 => s
  | S m => match eat s with
           | Some r => (rep ++ sub_fuel eat rep m r)%string
           | None => match s with EmptyString => EmptyString | String c t => String c (sub_fuel eat rep m t) end
           end
  end.
Definition sub_tag (rep s : string) : string := sub_fuel eat_tag rep (String.length s) s.
Definition replace (old new s : string) : string := sub_fuel (eat_lit old) new (String.length s) s.
(** s.split(p)[0] *)
Fixpoint before (p s : string) : string :=
  match eat_lit p s with
  | Some _ => EmptyString
  | None => match s with EmptyString => EmptyString | String c t => String c (before p t) end
  end.
(** p in s *)
Fixpoint inside (p s : string) : bool :=
  match eat_lit p s with Some _ => true | None => match s with EmptyString => false | String _ t => inside p t end end.

(** ** Classes (2549-2562); the label is what the constructor writes and checks *)
Inductive cls : Type := CImage | CDark | CFlat | CNonLin | CKGain | CBpm | CDnm | CParams | CAstrom | CTrap | CFlux | CFpam | CCt | CNd.
Definition label (c : cls) : string :=
  match c with
  | CImage => "Image" | CDark => "Dark" | CFlat => "FlatField" | CNonLin => "NonLinearityCalibration" | CKGain => "KGain" | CBpm => "BadPixelMap"
  | CDnm => "DetectorNoiseMaps" | CParams => "DetectorParams" | CAstrom => "AstrometricCalibration" | CTrap => "TrapCalibration"
  | CFlux => "FluxcalFactor" | CFpam => "FpamFsamCal" | CCt => "CoreThroughputCalibration" | CNd => "NDFilterSweetSpotDataset"
  end.
Definition datatypes : list (string * cls) :=
  [("Image", CImage); ("Dark", CDark); ("NonLinearityCalibration", CNonLin); ("KGain", CKGain); ("BadPixelMap", CBpm); ("DetectorNoiseMaps", CDnm);
   ("FlatField", CFlat); ("DetectorParams", CParams); ("AstrometricCalibration", CAstrom); ("TrapCalibration", CTrap); ("FluxcalFactor", CFlux);
   ("FpamFsamCal", CFpam); ("CoreThroughputCalibration", CCt); ("NDFilterSweetSpot", CNd)].
Fixpoint class_of (k : string) (l : list (string * cls)) : option cls := match l with [] => None | (a, c) :: t => if String.eqb a k then Some c else class_of k t end.

(** 1101-1132: the parameters, their default values and former names (upper case: FITS keywords) *)
Definition par_table : list (string * hv * option string) :=
  [("KGAINPAR", HQ (87 # 10), Some "KGAIN"); ("FWC_PP_E", HQ 90000, Some "FWC_PP"); ("FWC_EM_E", HQ 100000, Some "FWC_EM"); ("ROWREADT", HQ (2235 # 10000000), Some "ROWREADTIME");
   ("NEMGAIN", HZ 604, Some "NEM"); ("TELRSTRT", HZ (-1), Some "TELEM_ROWS_START"); ("TELREND", HU, Some "TELEM_ROWS_END"); ("CRHITRT", HQ 50000, Some "X");
   ("PIXAREA", HQ (169 # 1000000000000), Some "A"); ("GAINMAX", HQ 8000, Some "GMAX"); ("DELCNST", HQ (1 # 10000), Some "DELTA_CONSTR"); ("OVERHEAD", HZ 3, None);
   ("PCECNTMX", HQ (1 # 10), Some "PC_ECOUNT_MAX"); ("TFACTOR", HZ 5, Some "T_FACTOR")].
(** 1189-1201 *)
Definition read_par (ext : hdr) (e : string * hv * option string) : result (string * hv) :=
  let k := fst (fst e) in
  match get k ext with
  | Some v => Ok (k, v)
  | None => match snd e with
            | None => Raise KeyError
            | Some o => match get o ext with Some v => Ok (k, v) | None => Raise KeyError end
            end
  end.
Fixpoint read_pars (ext : hdr) (l : list (string * hv * option string)) : result (list (string * hv)) :=
  match l with [] => Ok [] | e :: t => do p <- read_par ext e; do r <- read_pars ext t; Ok (p :: r) end.

(** a[i, j, ...] exists *)
Fixpoint at_ok (ix s : list nat) : bool := match ix, s with [], _ => true | i :: t, n :: u => andb (Nat.ltb i n) (at_ok t u) | _ :: _, [] => false end.

Section Prod.
Variable E : Type.
Variable zero : E.
Variable is_nan : E -> bool.
Variable show : hv -> string.
Variable order : list string -> list string.

Notation arr := (arr E).
Notation hdu := (hdu E).
Notation image := (image E).
Notation file := (file E).

(** what some classes have besides the frame *)
Inductive more : Type := MNone | MPtc (h : hdr) (a : arr) | MPars (l : list (string * hv)) | MFlux (nd : string) (filter : hv).
Record prod : Type := mkp { p_cls : cls; p_img : image; p_more : more }.

Definition with_ext (f : hdr -> hdr) (x : image) : image := mkim (i_pri x) (f (i_ext x)) (i_data x) (i_err x) (i_errh x) (i_dq x) (i_dqh x) (i_list x) (i_names x) (i_dir x) (i_file x).
Definition with_pri (f : hdr -> hdr) (x : image) : image := mkim (f (i_pri x)) (i_ext x) (i_data x) (i_err x) (i_errh x) (i_dq x) (i_dqh x) (i_list x) (i_names x) (i_dir x) (i_file x).
Definition with_errh (f : hdr -> hdr) (x : image) : image := mkim (i_pri x) (i_ext x) (i_data x) (i_err x) (f (i_errh x)) (i_dq x) (i_dqh x) (i_list x) (i_names x) (i_dir x) (i_file x).
Definition with_dqh (f : hdr -> hdr) (x : image) : image := mkim (i_pri x) (i_ext x) (i_data x) (i_err x) (i_errh x) (i_dq x) (f (i_dqh x)) (i_list x) (i_names x) (i_dir x) (i_file x).
Definition with_file (n : string) (x : image) : image := mkim (i_pri x) (i_ext x) (i_data x) (i_err x) (i_errh x) (i_dq x) (i_dqh x) (i_list x) (i_names x) (i_dir x) n.
Definition with_dir (d : string) (x : image) : image := mkim (i_pri x) (i_ext x) (i_data x) (i_err x) (i_errh x) (i_dq x) (i_dqh x) (i_list x) (i_names x) d (i_file x).

(** 673-679 and the like *)
Definition check_type (c : cls) (x : image) : result unit :=
  match get "DATATYPE" (i_ext x) with
  | Some (HS s) => if String.eqb s (label c) then Ok tt else Raise ValueError
  | _ => Raise ValueError
  end.
Definition dq_text : string := "DQ not meaningful for this calibration; just present for class consistency".
Definition err_text : string := "err not meaningful for this calibration; just present for class consistency".

(** ** Checks of the format *)
(** 772-781; the truth of an array of several values is an error too *)
Definition fit_nonlin (x : image) : result unit :=
  match shp (i_data x) with
  | a :: b :: r => if orb (Nat.ltb a 2) (Nat.ltb b 2) then Raise ValueError
                   else if negb (Nat.eqb (size r) 1) then Raise ValueError
                   else match vals (i_data x) with [] => Raise IndexError | v :: _ => if is_nan v then Ok tt else Raise ValueError end
  | _ => Raise ValueError
  end.
(** 850-854 *)
Definition fit_kgain (x : image) : result unit :=
  if negb (list_eqb (shp (i_data x)) [1; 1]) then Raise ValueError else if at_ok [0; 0] (shp (i_err x)) then Ok tt else Raise IndexError.
(** 1019-1028 *)
Definition cube3 (s : list nat) : bool := andb (Nat.eqb (List.length s) 3) (Nat.eqb (hd 0 s) 3).
Definition fit_dnm (x : image) : result unit :=
  if negb (cube3 (shp (i_data x))) then Raise ValueError
  else if negb (andb (Nat.eqb (List.length (shp (i_err x))) 4) (Nat.eqb (hd 0 (shp (i_err x))) 1)) then Raise ValueError
  else if negb (cube3 (shp (i_dq x))) then Raise ValueError
  else if andb (has "B_O" (i_ext x)) (has "B_O_ERR" (i_ext x)) then Ok tt else Raise ValueError.
(** 1071-1079 *)
Definition maps_dnm (x : image) : result unit := if at_ok [0; 2] (shp (i_err x)) then Ok tt else Raise IndexError.
(** 1258-1266 *)
Definition fit_astrom (x : image) : result unit := if at_ok [4] (shp (i_data x)) then Ok tt else Raise IndexError.
(** 1366-1387: the neutral density filter and the filter *)
Definition nd_name (v : hv) : result string := match v with HS s => Ok (if String.prefix "ND" s then s else "ND0") | _ => Raise AttributeError end.
Definition fit_flux (x : image) : result (string * hv) :=
  if negb (list_eqb (shp (i_data x)) [1; 1]) then Raise ValueError
  else do nd <- (match get "FPAMNAME" (i_ext x), get "FSAMNAME" (i_ext x) with
                 | Some v, _ => nd_name v
                 | None, Some v => nd_name v
                 | None, None => Raise ValueError
                 end);
       match get "CFAMNAME" (i_ext x) with Some v => Ok (nd, v) | None => Raise ValueError end.
(** 1401-1403 *)
Definition vals_flux (x : image) : result unit := if at_ok [0; 0; 0] (shp (i_err x)) then Ok tt else Raise IndexError.
(** 1566-1606 *)
Definition nth_named (i : nat) (k : string) (x : image) : result hdu :=
  match nth_error (i_list x) i with
  | None => Raise IndexError
  | Some y => if String.eqb (h_name y) k then Ok y else Raise ValueError
  end.
Definition fit_ct (x : image) : result unit :=
  match get "EXTNAME" (i_ext x) with
  | None => Raise KeyError
  | Some (HS "PSFCUBE") =>
    do y <- nth_named 0 "CTEXCAM" x;
    do _ <- nth_named 1 "CTFPAM" x;
    do _ <- nth_named 2 "CTFSAM" x;
    if negb (Nat.eqb (List.length (shp (i_data x))) 3) then Raise ValueError
    else match shp (h_data y) with
         | [] => Raise TypeError
         | a :: r => if negb (Nat.eqb a 3) then Raise ValueError
                     else match r with
                          | [] => Raise IndexError
                          | b :: _ => if Nat.eqb b (hd 0 (shp (i_data x))) then Ok tt else Raise ValueError
                          end
         end
  | Some _ => Raise ValueError
  end.
(** 2455-2459 *)
Definition fit_nd (x : image) : result unit := match shp (i_data x) with [_; 3] => Ok tt | _ => Raise ValueError end.

(** ** Loading: the constructor with a path alone *)
Definition load_as (track : bool) (c : cls) (p : string) (f : file) : result prod :=
  do x <- load_image zero track p f None None None None None;
  match c with
  | CImage => Ok (mkp c x MNone)
  | CDark => let x1 := with_ext (set_new "PC_STAT" (HS "analog master dark")) x in do _ <- check_type c x1; Ok (mkp c x1 MNone)
  | CFlat => do _ <- check_type c x; Ok (mkp c x MNone)
  | CNonLin => do _ <- fit_nonlin x; do _ <- check_type c x; Ok (mkp c (with_dqh (add_comm dq_text) x) MNone)
  | CKGain =>
    let x1 := with_ext (fun h => set_new "RN_ERR" (HS "") (set_new "RN" (HS "") h)) x in
    do _ <- fit_kgain x1;
    match nth_error (f_hdus f) 2 with
    | None => Raise IndexError
    | Some y => do _ <- check_type c x1; Ok (mkp c x1 (MPtc (set "EXTNAME" (HS "PTC") (h_hdr y)) (h_data y)))
    end
  | CBpm => do _ <- check_type c x; Ok (mkp c (with_errh (add_comm err_text) (with_dqh (add_comm dq_text) x)) MNone)
  | CDnm => do _ <- fit_dnm x; do _ <- check_type c x; do _ <- maps_dnm x; Ok (mkp c x MNone)
  | CParams =>
    do _ <- check_type c x;
    do l <- read_pars (i_ext x) par_table;
    let x1 := match get "OBSID" (i_pri x) with Some v => with_pri (set "OBSNUM" v) x | None => x end in
    let x2 := match get "CMDGAIN" (i_ext x1) with Some v => with_ext (set "EMGAIN_C" v) x1 | None => x1 end in
    Ok (mkp c x2 (MPars l))
  | CAstrom => do _ <- fit_astrom x; do _ <- check_type c x; Ok (mkp c (with_dqh (add_comm dq_text) x) MNone)
  | CTrap => do _ <- check_type c x; Ok (mkp c (with_dqh (add_comm dq_text) x) MNone)
  | CFlux => do nf <- fit_flux x; do _ <- check_type c x; do _ <- vals_flux x; Ok (mkp c x (MFlux (fst nf) (snd nf)))
  | CFpam => do _ <- check_type c x; Ok (mkp c x MNone)
  | CCt => do _ <- fit_ct x; do _ <- check_type c x; Ok (mkp c x MNone)
  | CNd => do _ <- fit_nd x; do _ <- check_type c x; Ok (mkp c x MNone)
  end.
(** 2564-2596 *)
Definition autoload (track : bool) (p : string) (f : file) : result prod :=
  match f_hdus f with
  | [] => Raise IndexError
  | y :: _ =>
    do k <- (match get "DATATYPE" (h_hdr y) with
             | Some (HS s) => Ok s
             | Some _ => Raise KeyError
             | None => if Nat.eqb (List.length (shp (h_data y))) 2 then Ok "Image" else Raise UnboundLocalError
             end);
    match class_of k datatypes with None => Raise KeyError | Some c => load_as track c p f end
  end.
(** Image.save, and 910-940 of KGain *)
Definition save_prod (dir name : option string) (y : prod) : prod * result (string * file) :=
  let x := place dir name (p_img y) in
  (mkp (p_cls y) x (p_more y),
   if String.eqb (i_file x) EmptyString then Raise ValueError
   else Ok (filepath x, match p_cls y, p_more y with
                        | CKGain, MPtc h a => mkfile (i_pri x) [mkhdu (i_ext x) (i_data x); mkhdu (i_errh x) (i_err x); mkhdu h a]
                        | _, _ => written x
                        end)).

(** ** Making: the constructor with an array and headers *)
Record parent : Type := mkpar { pa_name : string; pa_ext : hdr }.
(** 478-487 *)
Fixpoint file_cards (ext : hdr) (j n : nat) : result (list string) :=
  match n with
  | 0 => Ok []
  | S m => match get ("FILE" ++ decimal j)%string ext with
           | None => Raise KeyError
           | Some (HS s) => do r <- file_cards ext (j + 1) m; Ok (s :: r)
           | Some _ => Raise TypeError
           end
  end.
Fixpoint parent_names (l : list parent) : result (list string) :=
  match l with
  | [] => Ok []
  | p :: t => do own <- (match get "DRPNFILE" (pa_ext p) with
                         | None => Ok []
                         | Some (HZ n) => file_cards (pa_ext p) 0 (Z.to_nat n)
                         | Some _ => Raise TypeError
                         end);
              do r <- parent_names t; Ok (pa_name p :: own ++ r)
  end.
Fixpoint number_files (i : nat) (l : list string) (ext : hdr) : hdr :=
  match l with [] => ext | s :: t => number_files (i + 1) t (set ("FILE" ++ decimal i)%string (HS s) ext) end.
Definition record_parents (l : list parent) (ext : hdr) : result hdr :=
  do n <- parent_names l;
  let u := order n in
  Ok (set "DRPNFILE" (HZ (Z.of_nat (List.length u))) (number_files 0 u ext)).
(** input_dataset[-1].filename *)
Definition last_name (l : list parent) : result string := match rev l with [] => Raise IndexError | p :: _ => Ok (pa_name p) end.
Definition card (k : string) (h : hdr) : result hv := match get k h with Some v => Ok v | None => Raise KeyError end.

Record args : Type := mkargs { a_err : option arr; a_dq : option arr; a_errh : option hdr; a_dqh : option hdr; a_hdus : option (list hdu); a_ptc : option arr; a_ptch : option hdr; a_input : option (list parent) }.

Definition new_dark (track : bool) (version now : string) (data : arr) (pri ext : option hdr) (a : args) : result prod :=
  do x <- new_image zero track version now data pri ext (a_err a) (a_dq a) (a_errh a) None None;
  let known := has "DRPNFILE" (i_ext x) in
  if andb (match a_input a with None => true | Some _ => false end) (negb known) then Raise ValueError
  else
    let e1 := set_new "PC_STAT" (HS "analog master dark") (set "BUNIT" (HS "detected electrons") (set "DATATYPE" (HS "Dark") (i_ext x))) in
    do e2 <- (match a_input a with Some l => if known then Ok e1 else record_parents l e1 | None => Ok e1 end);
    do t <- card "EXPTIME" e2; do g <- card "EMGAIN_C" e2; do n <- card "DRPNFILE" e2;
    let e3 := add_hist ("Dark with exptime = " ++ show t ++ " s and commanded EM gain = " ++ show g ++ " created from " ++ show n ++ " frames")%string e2 in
    do f <- (match a_input a with
             | Some l => do s <- last_name l; Ok (replace "_DNM_CAL" "" (sub_tag "" (before ".fits" s ++ "_DRK_CAL.fits")))
             | None => Ok "DRK_CAL.fits"
             end);
    let x1 := with_file f (with_ext (fun _ => set_new "PC_STAT" (HS "analog master dark") (set "DATALVL" (HS "CAL") e3)) x) in
    let x2 := match a_errh a with Some _ => with_errh (set "BUNIT" (HS "Detected Electrons")) x1 | None => x1 end in
    do _ <- check_type CDark x2; Ok (mkp CDark x2 MNone).
Definition new_flat (track : bool) (version now : string) (data : arr) (pri ext : option hdr) (a : args) : result prod :=
  do x <- new_image zero track version now data pri ext None None None None None;
  match a_input a with
  | None => Raise ValueError
  | Some l =>
    do e1 <- record_parents l (set "BUNIT" (HS "None") (set "DATATYPE" (HS "FlatField") (i_ext x)));
    do t <- card "EXPTIME" e1; do n <- card "DRPNFILE" e1;
    let e2 := add_hist ("Flat with exptime = " ++ show t ++ " s created from " ++ show n ++ " frames")%string e1 in
    do s <- last_name l;
    let x1 := with_file (sub_tag "_FLT_CAL" s) (with_ext (fun _ => set "DATALVL" (HS "CAL") e2) x) in
    do _ <- check_type CFlat x1; Ok (mkp CFlat x1 MNone)
  end.
Definition new_nonlin (track : bool) (version now : string) (data : arr) (pri ext : option hdr) (a : args) : result prod :=
  do x <- new_image zero track version now data pri ext None None None None None;
  do _ <- fit_nonlin x;
  match a_input a with
  | None => Raise ValueError
  | Some l =>
    do e1 <- record_parents l (set "DATATYPE" (HS "NonLinearityCalibration") (i_ext x));
    let e2 := set "DATALVL" (HS "CAL") (add_hist "Non Linearity Calibration file created" e1) in
    do s <- last_name l;
    let x1 := with_file (sub_tag "_NLN_CAL" s) (with_dir "." (with_ext (fun _ => e2) x)) in
    do _ <- check_type CNonLin x1; Ok (mkp CNonLin (with_dqh (add_comm dq_text) x1) MNone)
  end.
Definition new_kgain (track : bool) (version now : string) (data : arr) (pri ext : option hdr) (a : args) : result prod :=
  do x0 <- new_image zero track version now data pri ext (a_err a) None (a_errh a) None None;
  let x := with_ext (fun h => set_new "RN_ERR" (HS "") (set_new "RN" (HS "") h)) x0 in
  do _ <- fit_kgain x;
  let ptc := match a_ptc a with Some p => p | None => zeros E zero [2; 0] end in
  let ptch := set "EXTNAME" (HS "PTC") (match a_ptch a with Some h => h | None => blank end) in
  do ef <- (match a_input a with
            | None => if has "DRPNFILE" (i_ext x) then Ok (i_ext x, i_file x) else Raise ValueError
            | Some l => do e1 <- record_parents l (i_ext x); do s <- last_name l; Ok (e1, sub_tag "_KRN_CAL" s)
            end);
  let e2 := set "DATALVL" (HS "CAL") (add_hist "KGain Calibration file created" (set "BUNIT" (HS "Detected Electrons/DN") (set "DATATYPE" (HS "KGain") (fst ef)))) in
  let x1 := with_file (snd ef) (with_ext (fun _ => e2) x) in
  do _ <- check_type CKGain x1; Ok (mkp CKGain x1 (MPtc ptch ptc)).
Definition new_bpm (track : bool) (version now : string) (data : arr) (pri ext : option hdr) (a : args) : result prod :=
  do x <- new_image zero track version now data pri ext None None None None None;
  match a_input a with
  | None => if has "DRPNFILE" (i_ext x) then Raise TypeError else Raise ValueError
  | Some l =>
    do e1 <- record_parents l (set "DATATYPE" (HS "BadPixelMap") (i_ext x));
    do s <- last_name l;
    let f := if inside "_FLT_CAL" s then replace "_FLT_CAL" "_BPM_CAL" s else sub_tag "_BPM_CAL" s in
    let x1 := with_file f (with_ext (fun _ => set "DATALVL" (HS "CAL") (add_hist "Bad Pixel map created" e1)) x) in
    do _ <- check_type CBpm x1; Ok (mkp CBpm (with_errh (add_comm err_text) (with_dqh (add_comm dq_text) x1)) MNone)
  end.
Definition new_dnm (track : bool) (version now : string) (data : arr) (pri ext : option hdr) (a : args) : result prod :=
  do x <- new_image zero track version now data pri ext (a_err a) (a_dq a) (a_errh a) None None;
  do _ <- fit_dnm x;
  let known := has "DRPNFILE" (i_ext x) in
  let e1 := set "B_0_UNIT" (HS "DN") (set "BUNIT" (HS "Detected Electrons") (set "DATATYPE" (HS "DetectorNoiseMaps") (i_ext x))) in
  do e2 <- (match a_input a with
            | None => if known then Ok e1 else Raise ValueError
            | Some l => if known then Ok e1 else record_parents l e1
            end);
  let e3 := add_hist "DetectorNoiseMaps calibration file created" e2 in
  do s <- (match a_input a with
           | Some l => last_name l
           | None => do v <- card "FILE0" e3; match v with HS s => Ok s | _ => Raise AttributeError end
           end);
  let x1 := with_file (sub_tag "" (before ".fits" s ++ "_DNM_CAL.fits")) (with_ext (fun _ => set "DATALVL" (HS "CAL") e3) x) in
  let x2 := match a_errh a with Some _ => with_errh (set "BUNIT" (HS "Detected Electrons")) x1 | None => x1 end in
  do _ <- check_type CDnm x2; do _ <- maps_dnm x2; Ok (mkp CDnm x2 MNone).
Definition new_astrom (track : bool) (version now : string) (data : arr) (pri ext : option hdr) (a : args) : result prod :=
  do x <- new_image zero track version now data pri ext (a_err a) None None None None;
  do _ <- fit_astrom x;
  match a_input a with
  | None => Raise ValueError
  | Some l =>
    do e1 <- record_parents l (set "DATATYPE" (HS "AstrometricCalibration") (i_ext x));
    do s <- last_name l;
    let x1 := with_file (before ".fits" s ++ "_AST_CAL.fits")%string (with_ext (fun _ => set "DATALVL" (HS "CAL") (add_hist "Astrometric Calibration file created" e1)) x) in
    do _ <- check_type CAstrom x1; Ok (mkp CAstrom (with_dqh (add_comm dq_text) x1) MNone)
  end.
Definition new_trap (track : bool) (version now : string) (data : arr) (pri ext : option hdr) (a : args) : result prod :=
  do x <- new_image zero track version now data pri ext None None None None None;
  match a_input a with
  | None => Raise ValueError
  | Some l =>
    do e1 <- record_parents l (set "DATATYPE" (HS "TrapCalibration") (i_ext x));
    do n <- card "DRPNFILE" e1;
    do s <- last_name l;
    let x1 := with_file (sub_tag "" (before ".fits" s ++ "_TPU_CAL.fits")) (with_ext (fun _ => set "DATALVL" (HS "CAL") (add_hist ("TrapCalibration created from " ++ show n ++ " frames")%string e1)) x) in
    do _ <- check_type CTrap x1; Ok (mkp CTrap (with_dqh (add_comm dq_text) x1) MNone)
  end.
Definition new_flux (track : bool) (version now : string) (data : arr) (pri ext : option hdr) (a : args) : result prod :=
  do x0 <- new_image zero track version now data pri ext (a_err a) None (a_errh a) None None;
  do nf <- fit_flux x0;
  let x := with_ext (fun h => set "DRPCTIME" (HS now) (set "DRPVERSN" (HS version) h)) x0 in
  do _ <- vals_flux x;
  do ef <- (match a_input a with
            | None => if has "DRPNFILE" (i_ext x) then Ok (i_ext x, None) else Raise ValueError
            | Some l => do e1 <- record_parents l (i_ext x); do s <- last_name l; Ok (e1, Some (before ".fits" s))
            end);
  let e2 := set "DATALVL" (HS "CAL") (add_hist "Flux calibration file created" (set "DATATYPE" (HS "FluxcalFactor") (fst ef))) in
  match snd ef with
  | None => Raise UnboundLocalError
  | Some o => Ok (mkp CFlux (with_file (sub_tag "" (o ++ "_ABF_CAL.fits")) (with_dir "." (with_ext (fun _ => e2) x))) (MFlux (fst nf) (snd nf)))
  end.
Definition new_ct (track : bool) (version now : string) (data : arr) (pri ext : option hdr) (a : args) : result prod :=
  do x <- new_image zero track version now data pri ext (a_err a) (a_dq a) (a_errh a) (a_dqh a) (a_hdus a);
  do _ <- fit_ct x;
  match a_input a with
  | None => Raise ValueError
  | Some l =>
    do e1 <- record_parents l (set "DATATYPE" (HS "CoreThroughputCalibration") (i_ext x));
    do e2 <- (match hist e1 with [] => do t <- card "DATETIME" e1; Ok (add_hist ("Core Throughput calibration derived from a set of frames on " ++ show t)%string e1) | _ => Ok e1 end);
    do s <- last_name l;
    let x1 := with_file (sub_tag "_CTP_CAL" s) (with_dir "." (with_ext (fun _ => set "DATALVL" (HS "CAL") e2) x)) in
    do _ <- check_type CCt x1; Ok (mkp CCt x1 MNone)
  end.
Definition new_nd (track : bool) (version now : string) (data : arr) (pri ext : option hdr) (a : args) : result prod :=
  do x <- new_image zero track version now data pri ext (a_err a) (a_dq a) (a_errh a) None None;
  do _ <- fit_nd x;
  do ef <- (match a_input a with
            | None => Ok (i_ext x, i_file x)
            | Some l => do e1 <- record_parents l (i_ext x); do s <- last_name l; Ok (e1, sub_tag "_NDF_CAL" s)
            end);
  let e1 := set "DATATYPE" (HS "NDFilterSweetSpotDataset") (fst ef) in
  let n := match get "DRPNFILE" e1 with Some v => show v | None => "?" end in
  let x1 := with_file (snd ef) (with_ext (fun _ => set "DATALVL" (HS "CAL") (add_hist ("NDFilterSweetSpotDataset created from " ++ n ++ " frames")%string e1)) x) in
  do _ <- check_type CNd x1; Ok (mkp CNd x1 MNone).
Definition new_as (track : bool) (version now : string) (c : cls) (data : arr) (pri ext : option hdr) (a : args) : result prod :=
  match c with
  | CImage => do x <- new_image zero track version now data pri ext (a_err a) (a_dq a) (a_errh a) (a_dqh a) (a_hdus a); Ok (mkp CImage x MNone)
  | CDark => new_dark track version now data pri ext a | CFlat => new_flat track version now data pri ext a
  | CNonLin => new_nonlin track version now data pri ext a | CKGain => new_kgain track version now data pri ext a
  | CBpm => new_bpm track version now data pri ext a | CDnm => new_dnm track version now data pri ext a
  | CAstrom => new_astrom track version now data pri ext a | CTrap => new_trap track version now data pri ext a
  | CFlux => new_flux track version now data pri ext a | CCt => new_ct track version now data pri ext a
  | CNd => new_nd track version now data pri ext a
  | CParams | CFpam => Raise TypeError
  end.

(** 1134-1219 with a dictionary; its keys are FITS keywords other than HISTORY and COMMENT *)
Definition set_all (l : list (string * hv)) (h : hdr) : hdr := fold_left (fun h e => set (fst e) (snd e) h) l h.
Definition new_params (version now valid : string) (d : list (string * hv)) : result prod :=
  let pri := set "OBSNUM" (HZ 0) blank in
  let e1 := set_all [("SCTSRT", HS valid); ("DRPVERSN", HS version); ("DRPCTIME", HS now); ("EXPTIME", HZ 1); ("OPMODE", HS ""); ("EMGAIN_C", HQ 1); ("EXCAMT", HQ 40); ("DATALVL", HS "CAL")] blank in
  let e2 := set_all d (set_all (map fst par_table) e1) in
  do l <- read_pars e2 par_table;
  let e3 := match get "CMDGAIN" e2 with Some v => set "EMGAIN_C" v e2 | None => e2 end in
  let e4 := add_hist "Detector Params file created" (set "DATATYPE" (HS "DetectorParams") e3) in
  do t <- card "SCTSRT" e4;
  Ok (mkp CParams (mkim pri e4 (zeros E zero [1; 1]) (zeros E zero [1; 1]) blank (zeros E zero [1; 1]) blank [] [] "." ("DetectorParams_" ++ show t ++ ".fits")%string) (MPars l)).
(** 1469-1529 with an array *)
Definition new_fpam (times0 : E -> E) (default : arr) (version now valid : string) (data : arr) : result prod :=
  match shp data with
  | [] => Raise TypeError
  | n :: _ =>
    let m := if Nat.eqb n 0 then default else data in
    if negb (list_eqb (shp m) [2; 2; 2]) then Raise ValueError
    else
      let pri := set "OBSNUM" (HZ 0) blank in
      let e1 := set_all [("SCTSRT", HS valid); ("DRPVERSN", HS version); ("DRPCTIME", HS now); ("EXPTIME", HZ 0); ("OPMODE", HS ""); ("EMGAIN_C", HQ 1); ("EXCAMT", HQ 40)] blank in
      let e2 := set "DATALVL" (HS "CAL") (add_hist "FPAM/FSAM rotation matrices file created" (set "DATATYPE" (HS "FpamFsamCal") e1)) in
      let z := mka (shp m) (map times0 (vals m)) in
      Ok (mkp CFpam (mkim pri e2 m z blank z blank [] [] "." ("FpamFsamCal_" ++ show (HS valid) ++ ".fits")%string) MNone)
  end.
End Prod.
Arguments MNone {E}. Arguments MPtc {E} _ _. Arguments MPars {E} _. Arguments MFlux {E} _ _. Arguments mkp {E} _ _ _. Arguments p_cls {E} _. Arguments p_img {E} _. Arguments p_more {E} _.
Arguments with_ext {E} _ _. Arguments with_pri {E} _ _. Arguments with_errh {E} _ _. Arguments with_dqh {E} _ _. Arguments with_file {E} _ _. Arguments with_dir {E} _ _.
Arguments check_type {E} _ _. Arguments fit_nonlin {E} _ _. Arguments fit_kgain {E} _. Arguments fit_dnm {E} _. Arguments maps_dnm {E} _. Arguments fit_astrom {E} _. Arguments fit_flux {E} _.
Arguments vals_flux {E} _. Arguments nth_named {E} _ _ _. Arguments fit_ct {E} _. Arguments fit_nd {E} _. Arguments load_as {E}. Arguments autoload {E}. Arguments save_prod {E} _ _ _.
Arguments mkargs {E}. Arguments a_err {E} _. Arguments a_dq {E} _. Arguments a_errh {E} _. Arguments a_dqh {E} _. Arguments a_hdus {E} _. Arguments a_ptc {E} _. Arguments a_ptch {E} _. Arguments a_input {E} _.
Arguments new_dark {E}. Arguments new_flat {E}. Arguments new_nonlin {E}. Arguments new_kgain {E}. Arguments new_bpm {E}. Arguments new_dnm {E}. Arguments new_astrom {E}. Arguments new_trap {E}.
Arguments new_flux {E}. Arguments new_ct {E}. Arguments new_nd {E}. Arguments new_as {E}. Arguments new_params {E}. Arguments new_fpam {E}.
