(** Cosmic ray flagging: detector.py find_plateaus 511-551, flag_cosmics
    376-509, calc_sat_fwc 553-571, and l1_to_l2a.py detect_cosmic_rays 160-286.
    Pixel values, thresholds and well capacities are rationals (finite). *)
From Coq Require Import List Arith Bool QArith NArith String.
From Verif Require Import Base.
Import ListNotations.
Local Open Scope nat_scope.

(** * find_plateaus *)

Fixpoint qinsert (x : Q) (l : list Q) : list Q :=
  match l with [] => [x] | y :: t => if Qle_bool x y then x :: l else y :: qinsert x t end.
Definition qsort (l : list Q) : list Q := fold_right qinsert [] l.

(** scipy.ndimage.median_filter(row, k, mode='nearest') at index [i]: the window
    is i - k//2 .. i - k//2 + k - 1 with indices clipped to the row, and the
    element of rank k//2 is taken. *)
Definition window (k : nat) (row : list Q) (i : nat) : list Q :=
  flat_map (fun j => match nth_error row (min (List.length row - 1) (i + j - k / 2)) with Some x => [x] | None => [] end)
           (seq 0 k).
Definition medfilt (k : nat) (row : list Q) (i : nat) : option Q := nth_error (qsort (window k row i)) (k / 2).

Definition ge_at (row : list Q) (t : Q) (i : nat) : bool :=
  match nth_error row i with Some x => Qle_bool t x | None => false end.
Definition lt_at (row : list Q) (t : Q) (i : nat) : bool :=
  match nth_error row i with Some x => negb (Qle_bool t x) | None => false end.

(** detector.py 535-536 *)
Definition saturated (row : list Q) (sat : Q) (cosm_filter : nat) : list nat :=
  filter (fun i => match medfilt (cosm_filter + 1) row i with Some x => Qle_bool sat x | None => false end)
         (seq 0 (List.length row)).

(** detector.py 541-547: the while loop and the shift. *)
Fixpoint walk_back (row : list Q) (plat : Q) (i : nat) : nat :=
  match i with
  | 0 => 0
  | S i' => if ge_at row plat i then walk_back row plat i' else i
  end.
Definition plateau_beg (row : list Q) (plat : Q) (i : nat) : nat :=
  let b := walk_back row plat i in if lt_at row plat b then b + 1 else b.

(** np.unique: sorted without duplicates. *)
Fixpoint ninsert (x : nat) (l : list nat) : list nat :=
  match l with
  | [] => [x]
  | y :: t => if Nat.ltb x y then x :: l else if Nat.eqb x y then l else y :: ninsert x t
  end.
Definition unique (l : list nat) : list nat := fold_right ninsert [] l.

(** detector.py 511-551 *)
Definition find_plateaus (row : list Q) (fwc sat_thresh plat_thresh : Q) (cosm_filter : nat) : option (list nat) :=
  match saturated row (sat_thresh * fwc)%Q cosm_filter with
  | [] => None
  | s => Some (unique (map (plateau_beg row (plat_thresh * fwc)%Q) s))
  end.

(** * flag_cosmics *)

Inductive cmode : Type := ImageMode | FullMode.

(** The image region of the array type (detector_regions[arrtype]['image']). *)
Record region : Type := mkregion { g_rows : nat; g_cols : nat; g_r0 : nat; g_c0 : nat }.

(** detector.py 453-464 (any mode other than 'full' is the image mode) *)
Definition bounds (m : cmode) (im : region) (nr nc : nat) : nat * nat * nat * nat :=
  match m with
  | FullMode => (g_r0 im, g_r0 im + g_rows im, g_c0 im, g_c0 im + g_cols im)
  | ImageMode => (0, nr - 1, 0, nc - 1)
  end.

(** A mask is the set of its ones; an assignment adds the pixels of a slice. *)
Definition mask := nat -> nat -> bool.
Definition set_rect (r0 r1 c0 c1 : nat) (m : mask) : mask :=
  fun r c => m r c || ((r0 <=? r) && (r <? r1) && (c0 <=? c) && (c <? c1)).
(** Assignment to a slice of the flattened mask with [nc] columns. *)
Definition set_ravel (nc lo hi : nat) (m : mask) : mask :=
  fun r c => m r c || ((lo <=? r * nc + c) && (r * nc + c <? hi)).

Section Flag.
Variables (md : cmode) (im : region) (nr nc : nat).
Variables (fwc sat_thresh plat_thresh : Q) (cosm_filter cosm_box cosm_tail : nat).

(** detector.py 481-499, for one plateau start; returns the mask and the
    overflow lengths (ex_l) so far. *)
Definition do_hit (i : nat) (acc : mask * list nat) (i_beg : nat) : mask * list nat :=
  let '(im_r0, im_r1, im_c0, im_c1) := bounds md im nr nc in
  if (i_beg <? im_c0) || (im_c1 <? i_beg) then acc
  else
    let stop := i_beg + cosm_filter + cosm_tail + 1 in
    let ex := if nc <? stop then snd acc ++ [stop - nc] else snd acc in
    let m := set_rect i (i + 1) i_beg (min stop nc) (fst acc) in
    let st_row := max (i - cosm_box) im_r0 in
    let end_row := min (i + cosm_box + 1) (im_r1 + 1) in
    let st_col := max (i_beg - cosm_box) im_c0 in
    let end_col := min (i_beg + cosm_box + 1) (im_c1 + 1) in
    (set_rect st_row end_row st_col end_col m, ex).

(** detector.py 501-506 *)
Definition do_wrap (i : nat) (m : mask) (ex : nat) : mask :=
  let rav_ind := (i + 1) * nc - 1 in set_ravel nc rav_ind (rav_ind + ex) m.

(** detector.py 466-506, for one row. *)
Definition do_row (m : mask) (i : nat) (row : list Q) : mask :=
  let '(im_r0, im_r1, _, _) := bounds md im nr nc in
  if negb (existsb (fun x => Qle_bool (sat_thresh * fwc)%Q x) row) then m
  else if (i <? im_r0) || (im_r1 <? i) then m
  else
    let begs := match find_plateaus row fwc sat_thresh plat_thresh cosm_filter with Some l => l | None => [] end in
    let '(m1, ex) := fold_left (do_hit i) begs (m, []) in
    match md with
    | FullMode => fold_left (do_wrap i) ex m1
    | ImageMode => m1
    end.

Fixpoint do_rows (m : mask) (i : nat) (rows : list (list Q)) : mask :=
  match rows with [] => m | row :: t => do_rows (do_row m i row) (S i) t end.

(** detector.py 376-509 for one frame of [nr] rows and [nc] columns (the frames
    of a cube are treated separately: the mask of frame j is only written in
    iterations over rows of frame j). *)
Definition flag_cosmics (frame : list (list Q)) : mask := do_rows (fun _ _ => false) 0 frame.
End Flag.

(** * detect_cosmic_rays *)

(** The header cards read by the step; a missing card is None. *)
Record cr_header : Type := mkcrh { h_gm : option Q; h_ga : option Q; h_gc : option Q; h_arr : option string }.

(** l1_to_l2a.py 224-233: what is appended to emgain_list for one frame (the
    append is inside the except branch). *)
Definition gain_entry (h : cr_header) : result (list Q) :=
  match h_gm h with
  | Some _ => Ok []
  | None =>
    do a <- getkey (h_ga h);
    if negb (Qle_bool a 0) then Ok [a] else do c <- getkey (h_gc h); Ok [c]
  end.

Fixpoint gain_list (hs : list cr_header) : result (list Q) :=
  match hs with
  | [] => Ok []
  | h :: t => do g <- gain_entry h; do r <- gain_list t; Ok (g ++ r)
  end.

(** numpy: a length-1 array is broadcast against n entries; other lengths that
    differ from n do not combine (ValueError). *)
Definition broadcast (n : nat) (l : list Q) : result (list Q) :=
  if Nat.eqb (List.length l) n then Ok l
  else match l with [x] => Ok (repeat x n) | _ => Raise ValueError end.

Definition qmin (a b : Q) : Q := if Qle_bool a b then a else b.

(** detector.py 553-571 on [n] frames with the same capacities (l1_to_l2a.py
    234-242).  For n = 1 and an empty gain list the product is empty and the
    append along axis 1 fails: also a ValueError. *)
Definition calc_sat_fwc (n : nat) (gains : list Q) (fwcpp fwcem sat_thresh : Q) : result (list Q) :=
  do g <- broadcast n gains;
  Ok (map (fun x => (sat_thresh * qmin (x * fwcpp) fwcem)%Q) g).

Record cr_frame : Type := mkcrf { cr_data : list (list Q); cr_dq : nat -> nat -> N; cr_hdr : cr_header }.

(** What the step leaves in a frame: the new DQ map and SAT_DN. *)
Definition or_masks (sat : Q) (d : list (list Q)) (m2 : mask) (dq : nat -> nat -> N) : nat -> nat -> N :=
  fun r c =>
    let m1 := match nth_error d r with
              | Some row => match nth_error row c with Some x => Qle_bool sat x | None => false end
              | None => false end in
    N.lor (N.lor (dq r c) (if m1 then 32%N else 0%N)) (if m2 r c then 128%N else 0%N).

(** l1_to_l2a.py 160-286.  [regions] gives the image region of an array type;
    all frames have [nr] rows and [nc] columns.  The k gain and the capacities
    are those of the calibration files. *)
Definition detect_cosmic_rays (regions : string -> option region) (md : cmode) (nr nc : nat)
    (kgain fwcpp_e fwcem_e sat_thresh plat_thresh : Q) (cosm_filter cosm_box cosm_tail : nat)
    (frames : list cr_frame) : result (list ((nat -> nat -> N) * Q)) :=
  do gains <- gain_list (map cr_hdr frames);
  do sats <- calc_sat_fwc (List.length frames) gains (fwcpp_e / kgain)%Q (fwcem_e / kgain)%Q sat_thresh;
  (fix go fs ss := match fs, ss with
     | f :: ft, s :: st =>
       do a <- getkey (h_arr (cr_hdr f));
       do im <- match md with FullMode => getkey (regions a) | ImageMode => Ok (mkregion 0 0 0 0) end;
       let m2 := flag_cosmics md im nr nc (fwcem_e / kgain)%Q sat_thresh plat_thresh cosm_filter cosm_box cosm_tail (cr_data f) in
       do r <- go ft st;
       Ok ((or_masks s (cr_data f) m2 (cr_dq f), s) :: r)
     | _, _ => Ok []
     end) frames sats.
