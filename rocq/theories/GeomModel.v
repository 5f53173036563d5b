(** Detector geometry: detector.py detector_areas 81-235, slice_section 237-262,
    embed 264-288, unpack_geom 290-316, imaging_area_geom 318-350,
    imaging_slice 352-375; and l1_to_l2a.py prescan_biassub 6-158.

    A two-dimensional array is its list of rows (all of the same length).  Pixel
    values are abstract.  In prescan_biassub the dataset is a list of frames:
    that the output shares its headers with the input is in DatasetModel
    (copy with copy_data False). *)
From Coq Require Import List Arith Bool ZArith String.
From Verif Require Import Base DqModel.
Import ListNotations.
Local Open Scope string_scope.
Local Open Scope list_scope.
Local Open Scope Z_scope.

(** One region: rows, cols, r0c0 and, for the prescan, col_start and col_end. *)
Record section : Type := mksec { s_rows : Z; s_cols : Z; s_r0 : Z; s_c0 : Z; s_st : option Z; s_end : option Z }.
Record area : Type := mkarea { a_rows : Z; a_cols : Z; a_secs : list (string * section) }.
Definition regions := list (string * area).

Fixpoint lookup {A} (k : string) (l : list (string * A)) : option A :=
  match l with [] => None | (k', v) :: t => if String.eqb k k' then Some v else lookup k t end.

Definition sec (r c r0 c0 : Z) : section := mksec r c r0 c0 None None.

(** 81-235 *)
Definition detector_areas : regions :=
  [("SCI", mkarea 1200 2200
     [("image", sec 1024 1024 13 1088); ("prescan", mksec 1200 1088 0 0 (Some 800) (Some 1000));
      ("prescan_reliable", sec 1200 200 0 800); ("parallel_overscan", sec 163 1056 1037 1088);
      ("serial_overscan", sec 1200 56 0 2144)]);
   ("ENG", mkarea 2200 2200
     [("image", sec 1024 1024 13 1088); ("prescan", mksec 2200 1088 0 0 (Some 800) (Some 1000));
      ("prescan_reliable", sec 2200 200 0 800); ("parallel_overscan", sec 1163 1056 1037 1088);
      ("serial_overscan", sec 2200 56 0 2144)]);
   ("ENG_EM", mkarea 2200 2200
     [("image", sec 2048 1024 13 1088); ("lower_image", sec 1024 1024 13 1088); ("upper_image", sec 1024 1024 1037 1088);
      ("prescan", mksec 2200 1088 0 0 (Some 800) (Some 1000));
      ("prescan_reliable", sec 2200 200 0 800); ("parallel_overscan", sec 130 1056 2070 1088);
      ("serial_overscan", sec 2200 56 0 2144)]);
   ("ENG_CONV", mkarea 2200 2200
     [("image", sec 2048 1024 13 48); ("lower_image", sec 1024 1024 13 48); ("upper_image", sec 1024 1024 1037 48);
      ("prescan", mksec 2200 1128 0 1072 (Some 1200) (Some 1400));
      ("prescan_reliable", sec 2200 200 0 1200); ("parallel_overscan", sec 130 1056 2070 16);
      ("serial_overscan", sec 2200 16 0 0)])].

(** 290-316: detector_regions[arrtype][key] *)
Definition get_area (rg : regions) (arr : string) : result area := getkey (lookup arr rg).
Definition unpack_geom (rg : regions) (arr key : string) : result section :=
  do a <- get_area rg arr; getkey (lookup key (a_secs a)).

(** Python l[lo:hi]: negative bounds count from the end, then both are clipped. *)
Definition norm_ix (n i : Z) : Z := if i <? 0 then Z.max 0 (i + n) else Z.min i n.
Definition zlen {A} (l : list A) : Z := Z.of_nat (List.length l).
Definition pyslice {A} (lo hi : Z) (l : list A) : list A :=
  let a := norm_ix (zlen l) lo in let b := norm_ix (zlen l) hi in
  firstn (Z.to_nat (b - a)) (skipn (Z.to_nat a) l).

(** frame[r0:r0+rows, c0:c0+cols] *)
Definition slice2 {A} (r0 rows c0 cols : Z) (f : list (list A)) : list (list A) :=
  map (pyslice c0 (c0 + cols)) (pyslice r0 (r0 + rows) f).

(** section.size == 0 *)
Definition size0 {A} (f : list (list A)) : bool := forallb (fun row => match row with [] => true | _ => false end) f.

(** 237-262 *)
Definition slice_section {A} (rg : regions) (arr key : string) (frame : list (list A)) : result (list (list A)) :=
  do s <- unpack_geom rg arr key;
  let out := slice2 (s_r0 s) (s_rows s) (s_c0 s) (s_cols s) frame in
  if size0 out then Raise PyException else Ok out.

(** numpy broadcasting of one axis of length [length l] to [n]. *)
Definition bcast {A} (n : nat) (l : list A) : option (list A) :=
  if Nat.eqb (List.length l) n then Some l
  else match l with [x] => Some (repeat x n) | _ => None end.

(** full_frame[lo:hi] = new, for a list of the right length *)
Definition set_slice {A} (lo : nat) (new l : list A) : list A :=
  firstn lo l ++ new ++ skipn (lo + List.length new) l.

Fixpoint option_all {A B} (f : A -> option B) (l : list A) : option (list B) :=
  match l with
  | [] => Some []
  | x :: t => match f x, option_all f t with Some y, Some r => Some (y :: r) | _, _ => None end
  end.

(** 264-288: the slice of the full frame is clipped like any slice, the data are
    broadcast to it (an array with no row at all fits only an empty slice). *)
Definition embed {A} (rg : regions) (arr key : string) (pad : A) (data : list (list A)) : result (list (list A)) :=
  do a <- get_area rg arr;
  let ff := repeat (repeat pad (Z.to_nat (a_cols a))) (Z.to_nat (a_rows a)) in
  do s <- unpack_geom rg arr key;
  let nr := List.length (pyslice (s_r0 s) (s_r0 s + s_rows s) ff) in
  let lo := Z.to_nat (norm_ix (zlen ff) (s_r0 s)) in
  let row0 := repeat pad (Z.to_nat (a_cols a)) in
  let nc := List.length (pyslice (s_c0 s) (s_c0 s + s_cols s) row0) in
  let lc := Z.to_nat (norm_ix (zlen row0) (s_c0 s)) in
  match option_all (bcast nc) data with
  | None => Raise PyException
  | Some d1 =>
    match bcast nr d1 with
    | None => Raise PyException
    | Some d2 => Ok (set_slice lo (map (fun new => set_slice lc new row0) d2) ff)
    end
  end.

(** 318-350 *)
Definition imaging_area_geom (rg : regions) (arr : string) : result (Z * Z * Z * Z) :=
  do pre <- unpack_geom rg arr "prescan";
  do ser <- unpack_geom rg arr "serial_overscan";
  do par <- unpack_geom rg arr "parallel_overscan";
  do im <- unpack_geom rg arr "image";
  do a <- get_area rg arr;
  let rows_im := a_rows a - s_rows par in
  let cols_im := a_cols a - s_cols pre - s_cols ser in
  Ok (rows_im, cols_im, s_r0 im - (rows_im - s_rows im), s_c0 im).

(** 352-375 *)
Definition imaging_slice {A} (rg : regions) (arr : string) (f : list (list A)) : result (list (list A)) :=
  do g <- imaging_area_geom rg arr;
  match g with (rows, cols, r0, c0) => Ok (slice2 r0 rows c0 cols f) end.

Section Bias.
Context {V D : Type}.
(** [sub] is the subtraction of floats, [med] np.median of a row, [sterr] the
    error derived from a row (l1_to_l2a.py 108-116: standard error of the median
    and the error of the bias offset in quadrature). *)
Variable sub : V -> V -> V.
Variable med sterr : list V -> V.

Record bframe : Type := mkb { b_arr : option string; b_data : list (list V); b_err : list (list (list V)); b_dq : list (list D) }.
(** One output frame: data, cropped error layers, cropped dq, the BIAS
    extension, and the error term given to add_error_term. *)
Record oframe : Type := mko { o_data : list (list V); o_err : list (list (list V)); o_dq : list (list D); o_bias : list V; o_term : list (list V) }.

(** numpy: an (nr, nc) array against a column of [m] values. *)
Definition bcast_rows {W X Y} (f : W -> X -> Y) (rows : list W) (col : list X) : result (list Y) :=
  if Nat.eqb (List.length col) (List.length rows) then Ok (map (fun p => f (fst p) (snd p)) (combine rows col))
  else match col with
       | [x] => Ok (map (fun r => f r x) rows)
       | _ => match rows with [r] => Ok (map (f r) col) | _ => Raise ValueError end
       end.

(** 105-124 for the aligned prescan [al] *)
Definition subtract_bias (rg : regions) (arr : string) (offset : V) (im : list (list V)) (al : list (list V))
  : result (list (list V) * list V * list (list V)) :=
  do p <- unpack_geom rg arr "prescan";
  do st <- getkey (s_st p);
  do en <- getkey (s_end p);
  let rel := map (pyslice st en) al in
  do term <- bcast_rows (fun row e => map (fun _ => e) row) im (map sterr rel);
  let bias := map (fun l => sub (med l) offset) rel in
  do d <- bcast_rows (fun row b => map (fun v => sub v b) row) im bias;
  Ok (d, bias, term).

Definition mode : Type := (bool * bool)%type. (** return_full_frame, use_imaging_area *)

(** 42-126, one frame *)
Definition bias_frame (rg : regions) (full imaging : bool) (offset : V) (f : bframe) : result oframe :=
  do arr <- getkey (b_arr f);
  if existsb (String.eqb arr) ["SCI"; "ENG"; "ENG_EM"; "ENG_CONV"] then
    do a <- get_area rg arr;
    if negb (Z.eqb (a_rows a) (zlen (b_data f)) && forallb (fun row => Z.eqb (a_cols a) (zlen row)) (b_data f)) then Raise PyException
    else
    do pre <- slice_section rg arr "prescan" (b_data f);
    if full then
      do x <- subtract_bias rg arr offset (b_data f) pre;
      Ok (mko (fst (fst x)) (b_err f) (b_dq f) (snd (fst x)) (snd x))
    else if imaging then
      do im <- imaging_slice rg arr (b_data f);
      do dq <- imaging_slice rg arr (b_dq f);
      do er <- mapR (imaging_slice rg arr) (b_err f);
      do g <- imaging_area_geom rg arr;
      match g with (prows, _, i_r0, _) =>
        do p <- unpack_geom rg arr "prescan";
        let al := pyslice (i_r0 - s_r0 p) (i_r0 - s_r0 p + prows) pre in
        do x <- subtract_bias rg arr offset im al;
        Ok (mko (fst (fst x)) er dq (snd (fst x)) (snd x))
      end
    else
      do im <- slice_section rg arr "image" (b_data f);
      do dq <- slice_section rg arr "image" (b_dq f);
      do er <- mapR (slice_section rg arr "image") (b_err f);
      (* 83-86: the default table, not the given one *)
      do gi <- unpack_geom detector_areas arr "image";
      do gp <- unpack_geom detector_areas arr "prescan";
      let al := pyslice (s_r0 gi - s_r0 gp) (s_r0 gi - s_r0 gp + s_rows gi) pre in
      do x <- subtract_bias rg arr offset im al;
      Ok (mko (fst (fst x)) er dq (snd (fst x)) (snd x))
  else Raise PyException.

(** np.array of the output frames: all of the same shape (ValueError). *)
Definition shape {A} (f : list (list A)) : nat * nat := (List.length f, match f with [] => O | r :: _ => List.length r end).
Definition same_shapes (l : list oframe) : bool :=
  match l with
  | [] => true
  | o :: t => forallb (fun p => Nat.eqb (fst (shape (o_data o))) (fst (shape (o_data p))) && Nat.eqb (snd (shape (o_data o))) (snd (shape (o_data p)))) t
  end.

(** 6-158; [rg] None: the default table; [offset] is 0 without noise maps. *)
Definition prescan_biassub (rg : option regions) (full imaging : bool) (offset : V) (fs : list bframe) : result (list oframe) :=
  let rg' := match rg with Some r => r | None => detector_areas end in
  do out <- mapR (bias_frame rg' full imaging offset) fs;
  if same_shapes out then Ok out else Raise ValueError.
End Bias.
