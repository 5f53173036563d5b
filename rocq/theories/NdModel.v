(** The ND filter calibration: corgidrp/nd_filter_calibration.py group_by_keyword
    33-65, compute_avg_calibration_factor 128-157, _compute_od_for_file 164-222,
    process_bright_target 225-307, create_nd_sweet_spot_dataset 310-352,
    create_nd_filter_cal 404-527.

    Floats are real numbers; NaN is None.  The order of header values used by
    pandas to sort groups is an arbitrary [leb].  Not modelled: the data views
    that slicing rebuilds (C05), the print-outs and the warning, overall_avg_od
    (computed, printed, dropped), and the history and parent cards. *)
From Coq Require Import List Bool Reals String.
From Verif Require Import Base DqModel AngleModel.
Import ListNotations.
Local Open Scope R_scope.

Section Nd.
Variable D : Type.

(** The cards used: FPAMNAME, FSAMNAME, TARGET, CFAMNAME, FPAM_H, FPAM_V, and
    those written: ODFLAG, DATALVL.  A card without a value is taken as absent. *)
Record frame : Type := mkframe {
  f_fpam : option string; f_fsam : option string; f_target : option string; f_cfam : option string;
  f_h : option R; f_v : option R; f_flag : option bool; f_level : string; f_data : D }.

Variable leb : string -> string -> bool.
(** Oracles: the calibration factor of one dim frame and the photometry of one
    bright frame, each by aperture and by Gaussian fit; the centroid (None: NaN,
    i.e. pixels around the peak are NaN); the irradiance of a star in a filter,
    a positive number. *)
Variables aper_factor gauss_factor : frame -> result R.
Variables aper_phot gauss_phot : frame -> result (option R).
Variable centroid : D -> result (option (R * R)).
Variable irradiance : string -> string -> result posreal.

(** data.py 200-248 split_dataset on one keyword (C07), nd_filter_calibration.py
    33-65: names sorted, frames of a group in the order of the dataset. *)
Fixpoint insert (k : string) (l : list string) : list string :=
  match l with [] => [k] | x :: t => if String.eqb k x then l else if leb k x then k :: l else x :: insert k t end.
Definition names (l : list string) : list string := fold_right insert [] l.
Definition has_name (key : frame -> option string) (k : string) (f : frame) : bool := match key f with Some x => String.eqb x k | None => false end.
Definition group_by (key : frame -> option string) (fs : list frame) : result (list (string * list frame)) :=
  do ks <- mapR (fun f => getkey (key f)) fs;
  Ok (map (fun k => (k, filter (has_name key k) fs)) (names ks)).

(** 128-157 *)
Definition avg_factor (method : string) (dim : list frame) : result R :=
  do cs <- (if String.eqb method "Aperture" then mapR aper_factor dim
            else if String.eqb method "Gaussian" then mapR gauss_factor dim else Raise ValueError);
  match meanR cs with Some c => Ok c | None => Raise ValueError end.

(** abs(hdr.get(a) - ref): TypeError when either is absent *)
Definition gap (a ref : option R) : result R := match a, ref with Some x, Some y => Ok (Rabs (x - y)) | _, _ => Raise TypeError end.
Definition opt_eqb (a b : option string) : bool :=
  match a, b with Some x, Some y => String.eqb x y | None, None => true | _, _ => false end.

(** 196-203, `or` from left to right *)
Definition check_file (f : frame) (name : option string) (h v : option R) (cfam : string) : result unit :=
  if negb (opt_eqb (f_fpam f) name) then Raise ValueError else
  do a <- gap (f_h f) h;
  if Rlt_dec (12 / 10) a then Raise ValueError else
  do b <- gap (f_v f) v;
  if Rlt_dec (12 / 10) b then Raise ValueError else
  if negb (opt_eqb (f_cfam f) (Some cfam)) then Raise ValueError else Ok tt.

(** 219-222: -log10(flux / (irradiance / factor)); math.log10 raises
    ValueError unless its argument is positive; the irradiance over a zero factor
    is infinite, the transmission then 0 *)
Definition density (phot : option R) (irr : posreal) (cal : R) : result (option R) :=
  match phot with
  | None => Ok None
  | Some p => if Req_EM_T cal 0 then Raise ValueError else
      let t := p / (pos irr / cal) in
      if Rlt_dec 0 t then Ok (Some (- (ln t / ln 10))) else Raise ValueError
  end.

Definition row := (option R * R * R)%type.
(** 164-222 *)
Definition od_for_file (method : string) (name : option string) (h v : option R) (cfam : string) (irr : posreal) (cal : R) (f : frame) : result (option row) :=
  do u <- check_file f name h v cfam;
  do c <- centroid (f_data f);
  match c with
  | None => Ok None
  | Some (x, y) =>
      do p <- (if String.eqb method "Aperture" then aper_phot f else if String.eqb method "Gaussian" then gauss_phot f else Raise ValueError);
      do od <- density p irr cal;
      Ok (Some (od, x, y))
  end.

Fixpoint keep {A} (l : list (option A)) : list A := match l with [] => [] | Some x :: t => x :: keep t | None :: t => keep t end.

(** np.std of an array that is not empty; NaN as soon as one value is *)
Definition sumsq (m : R) (l : list R) : R := fold_right (fun x s => (x - m) ^ 2 + s) 0 l.
Definition std (l : list (option R)) : option R :=
  match all_some l with
  | Some xs => match meanR xs with Some m => Some (sqrt (sumsq m xs / INR (List.length xs))) | None => None end
  | None => None
  end.

Record star : Type := mkstar { s_rows : list row; s_name : option string; s_h : option R; s_v : option R; s_cfam : string; s_flag : bool }.
(** 225-307 *)
Definition process_bright (method : string) (thr cal : R) (target : string) (files : list frame) : result star :=
  match files with
  | [] => Raise IndexError
  | first :: _ =>
      do cfam <- getkey (f_cfam first);
      do irr <- irradiance target cfam;
      do rs <- mapR (od_for_file method (f_fpam first) (f_h first) (f_v first) cfam irr cal) files;
      let rows := keep rs in
      let flag := match std (map (fun r => fst (fst r)) rows) with Some s => if Rle_dec thr s then true else false | None => false end in
      Ok (mkstar rows (f_fpam first) (f_h first) (f_v first) cfam flag)
  end.

(** 494-508 *)
Definition check_star (m s : star) : result unit :=
  if negb (opt_eqb (s_name m) (s_name s)) then Raise ValueError else
  do a <- gap (s_h m) (s_h s);
  if Rle_dec (12 / 10) a then Raise ValueError else
  do b <- gap (s_v m) (s_v s);
  if Rle_dec (12 / 10) b then Raise ValueError else
  if negb (String.eqb (s_cfam m) (s_cfam s)) then Raise ValueError else Ok tt.

(** 470-508: rows so far, metadata of the first star, flag of the latest *)
Fixpoint bright_loop (method : string) (thr cal : R) (rows : list row) (meta : option star) (flag : option bool) (groups : list (string * list frame)) : result (list row * option star * option bool) :=
  match groups with
  | [] => Ok (rows, meta, flag)
  | (t, files) :: rest =>
      do s <- process_bright method thr cal t files;
      do u <- match meta with None => Ok tt | Some m => check_star m s end;
      bright_loop method thr cal (rows ++ s_rows s) (Some match meta with None => s | Some m => m end) (Some (s_flag s)) rest
  end.

Record product : Type := mkproduct { p_rows : list row; p_name : option string; p_h : option R; p_v : option R; p_flag : bool }.

(** The groups' frames, and those not under an ND name (439-452) *)
Definition is_nd (k : string) : bool := String.prefix "ND" k.
Definition part (nd : bool) (groups : list (string * list frame)) : list frame :=
  flat_map (fun g => if Bool.eqb (is_nd (fst g)) nd then snd g else []) groups.

(** 404-520, up to the product.  Dataset([]) is a ValueError (data.py 35-36). *)
Definition measure (method : string) (thr : R) (factor : option R) (fs : list frame) : result product :=
  do groups <- match group_by f_fpam fs with Ok g => Ok g | Raise _ => group_by f_fsam fs end;
  let bright := part true groups in
  let dim := part false groups in
  match bright, dim with
  | [], _ | _, [] => Raise ValueError
  | _, _ =>
      do cal <- match factor with Some c => Ok c | None => avg_factor method dim end;
      do stars <- group_by f_target bright;
      do r <- bright_loop method thr cal [] None None stars;
      match r with
      | (rows, Some m, Some flag) => Ok (mkproduct rows (s_name m) (s_h m) (s_v m) flag)
      | _ => Raise UnboundLocalError
      end
  end.

(** 332-352 with data.py NDFilterSweetSpotDataset 2444-2481: the header of the
    product is that of the last input frame, written in place. *)
Definition relabel (p : product) (f : frame) : frame :=
  mkframe (p_name p) (f_fsam f) (f_target f) (f_cfam f) (p_h p) (p_v p) (Some (p_flag p)) "CAL" (f_data f).
Fixpoint on_last {A} (g : A -> A) (l : list A) : list A := match l with [] => [] | [x] => [g x] | x :: t => x :: on_last g t end.
(** The input frames after the call, and its result. *)
Definition create_nd_filter_cal (method : string) (thr : R) (factor : option R) (fs : list frame) : list frame * result product :=
  match fs with
  | [] => (fs, Raise ValueError)
  | _ => match measure method thr factor fs with Ok p => (on_last (relabel p) fs, Ok p) | Raise e => (fs, Raise e) end
  end.
End Nd.
