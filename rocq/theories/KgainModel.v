(** K gain calibration: corgidrp/calibrate_kgain.py 32-71 check_kgain_params, 78-130 ptc_bin2, 132-152 diff2std,
    228-245 calculate_mode, 247-271 sigma_clip, 275-795 calibrate_kgain.

    An array is its shape and its values at the indices (FlatModel); a value is a real number or None: NaN, or infinite after a
    division.  Floats are not rounded.  Arbitrary are the reliable prescan of a difference, [prescan] (its geometry is in
    SliceModel), and the width of the Gaussian fitted to its histogram, [width].  The sets of frames, the frames of the mean and
    the gain are what kgain_dataset_2_list makes of the dataset (StackModel); all frames have one shape.  Not modelled: the
    plots, the warnings, the headers but for the read noise; the constructor of the product. *)
From Coq Require Import List Arith Bool Reals ZArith String.
From Verif Require Import Base DqModel AngleModel NearModel CombineModel FindModel FlatModel ThruModel FrnModel.
Import ListNotations.
Local Open Scope R_scope.

(** ** The settings, 32-71.  A value of the dictionary: a whole number, a float, or something else *)
Inductive setting : Type := Whole (z : Z) | Float (x : R) | Other.
Definition keys : list string := ["rowroi1"; "rowroi2"; "colroi1"; "colroi2"; "rn_bins1"; "rn_bins2"; "max_DN_val"; "signal_bins_N"]%string.
Definition number (s : setting) : bool := match s with Other => false | _ => true end.
Definition check_kgain_params (d : string -> option setting) : result unit :=
  if negb (forallb (fun k => match d k with Some _ => true | None => false end) keys) then Raise ValueError
  else if negb (forallb (fun k => match d k with Some s => number s | None => false end) keys) then Raise TypeError
  else Ok tt.
(** 439-447 and their uses: slice, range and linspace take whole numbers only *)
Record params : Type := mkparams { p_box : box; p_rn : Z * Z; p_top : R; p_bins : Z }.
Definition whole_of (d : string -> option setting) (k : string) : result Z :=
  do s <- getkey (d k); match s with Whole z => Ok z | _ => Raise TypeError end.
Definition real_of (d : string -> option setting) (k : string) : result R :=
  do s <- getkey (d k); match s with Whole z => Ok (IZR z) | Float x => Ok x | Other => Raise TypeError end.
Definition read_params (d : string -> option setting) : result params :=
  do _ <- check_kgain_params d;
  do r1 <- whole_of d "rowroi1"; do r2 <- whole_of d "rowroi2"; do c1 <- whole_of d "colroi1"; do c2 <- whole_of d "colroi2";
  do a <- whole_of d "rn_bins1"; do b <- whole_of d "rn_bins2"; do t <- real_of d "max_DN_val"; do n <- whole_of d "signal_bins_N";
  Ok (mkparams (mkbox r1 r2 c1 c2) (a, b) t n).

(** ** ptc_bin2.  [bins_of]: len(np.arange(1, n + 1, w)) *)
Definition bins_of (n w : nat) : nat := ((n + w - 1) / w)%nat.
Definition at_level (d : R) (k : nat) (v : val) : bool :=
  match v with Some x => (if Rle_dec (INR k * d) x then true else false) && rltb x (INR k * d + d) | None => false end.
Definition level_stat (d : R) (k : nat) (frame mean : list val) : val * val :=
  match filter (fun p => at_level d k (snd p)) (combine frame mean) with
  | [] => (Some 0, Some 0)
  | s => (nanmean (map fst s), nanstd (map fst s))
  end.
Definition ptc_bin2 (f m : img) (w : nat) (top : R) : result (list (val * val)) :=
  let nr := bins_of (rows f) w in let nc := bins_of (cols f) w in
  if Nat.eqb (nr * nc) 0 then Raise PyException else
  let d := top / INR (nr * nc) in
  Ok (map (fun p => if (Nat.ltb (fst p) (nr - 1) && Nat.ltb (snd p) (nc - 1))%bool
                    then level_stat d (fst p * (nc - 1) + snd p + 1) (values f) (values m) else (Some 0, Some 0))
          (list_prod (seq 0 (rows f / w)) (seq 0 (cols f / w)))).

(** np.mean, np.std(ddof=k): NaN in, NaN out *)
Definition vmean (l : list val) : val := match all_some l with Some _ => nanmean l | None => None end.
Definition vstd (k : nat) (l : list val) : val :=
  match all_some l, nanmean l with
  | Some g, Some m => if Nat.ltb k (List.length g) then Some (sqrt (rsum (map (fun x => (x - m) ^ 2) g) / INR (List.length g - k))) else None
  | _, _ => None
  end.

(** ** One set of frames, 502-576 *)
Definition offsets (n : nat) : list nat := ([2; 3; 1; 4; 5] ++ (if Nat.ltb 5 n then seq 4 (n - 1 - 4) else []))%nat.
Definition pairs (n : nat) : list (nat * nat) :=
  ([(0, 1); (0, 2); (1, 2); (2, 3); (3, 4)] ++ (if Nat.ltb 5 n then map (fun i => (i, i + 1)) (seq 4 (n - 1 - 4)) else []))%nat.
Definition minus (f g : img) : img := mkimg (rows f) (cols f) (fun r c => vsub (pix f r c) (pix g r c)).
Definition average (l : list img) (f : img) : img := mkimg (rows f) (cols f) (fun r c => vmean (map (fun g => pix g r c) l)).
Definition vmul (a b : val) : val := match a, b with Some x, Some y => Some (x * y) | _, _ => None end.
Definition half (v : val) : val := option_map (fun x => x / sqrt 2) v.
(** 571-575: the modulus of a complex square root *)
Definition shot (rn std : val) : val := match std, rn with Some s, Some r => Some (sqrt (Rabs (s ^ 2 - r ^ 2))) | _, _ => None end.

Section Kgain.
Variable prescan : img -> list val.
Variable width : Z * Z -> img -> result R.

(** 132-152 *)
Definition diff2std (f : img) : val := half (vstd 1 (prescan f)).
(** [good]: the region of the mean frame.  The points, averages with shot deviations, and the fitted read noises. *)
Definition one_set (p : params) (w : nat) (good : img) (fs : list img) : result (list (val * val) * list R) :=
  let n := List.length fs in
  do frames <- mapR (fun o => pick fs (n - o)) (offsets n);
  do diffs <- mapR (fun jk => do a <- pick frames (fst jk); do b <- pick frames (snd jk); Ok (minus a b)) (pairs n);
  do rn <- mapR (fun d => do s <- width (p_rn p) d; Ok (s / sqrt 2)) diffs;
  do f <- pick frames 0;
  let factor := vdiv (vmean (values (crop (p_box p) (average frames f)))) (vmean (values good)) in
  let scaled := mkimg (rows good) (cols good) (fun r c => vmul factor (pix good r c)) in
  do avs <- mapR (fun f => do t <- ptc_bin2 (crop (p_box p) f) scaled w (p_top p); Ok (map fst t)) frames;
  do devs <- mapR (fun d => do t <- ptc_bin2 (crop (p_box p) d) scaled w (p_top p); Ok (map (fun x => shot (diff2std d) (half (snd x))) t)) diffs;
  Ok (combine (List.concat avs) (List.concat devs), rn).

(** ** The curve, 584-638 *)
Record level : Type := mklevel { l_avg : val; l_dev : val; l_err : val }.
Definition linspace (a b : R) (n : nat) : list R :=
  match n with 1%nat => [a] | _ => map (fun k => a + INR k * ((b - a) / INR (n - 1))) (seq 0 n) end.
Definition inside_bin (lo hi : R) (q : val * val) : bool := match fst q with Some x => (rltb lo x && rltb x hi)%bool | None => false end.
Definition level_of (pts : list (val * val)) (lo hi : R) : level :=
  match filter (inside_bin lo hi) pts with
  | [] => mklevel None None None
  | s => mklevel (vmean (map fst s)) (vmean (map snd s)) (option_map (fun e => e / sqrt (INR (List.length s))) (vstd 1 (map snd s)))
  end.
Definition curve (pts : list (val * val)) (n : Z) : result (list level) :=
  match pts with
  | [] => Raise ValueError
  | _ => if (n <? 0)%Z then Raise ValueError else
    match all_some (map fst pts) with
    | Some (x :: t) =>
      let edges := 0 :: linspace (fold_left Rmin t x) (fold_left Rmax t x) (Z.to_nat n) in
      Ok (map (fun e => level_of pts (fst e) (snd e)) (combine edges (tl edges)))
    | _ => Ok (map (fun _ => mklevel None None None) (seq 0 (Z.to_nat n)))
    end
  end.

(** ** The points used and their values, 644-682 *)
Fixpoint first_where {A} (q : A -> bool) (l : list A) : option nat :=
  match l with [] => None | x :: t => if q x then Some 0%nat else option_map Datatypes.S (first_where q t) end.
Fixpoint last_where {A} (q : A -> bool) (l : list A) : option nat :=
  match l with
  | [] => None
  | x :: t => match last_where q t with Some k => Some (Datatypes.S k) | None => if q x then Some 0%nat else None end
  end.
Definition above (x : R) (l : level) : bool := match l_avg l with Some a => rltb x a | None => false end.
Definition below (x : R) (l : level) : bool := match l_avg l with Some a => rltb a x | None => false end.
(** The logarithms: of a negative average or a zero deviation nothing is kept *)
Definition gain_at (l : level) : list R :=
  match l_avg l, l_dev l, l_err l with
  | Some a, Some d, Some _ => if Rle_dec 0 a then if Rlt_dec 0 d then [a / d ^ 2] else [] else []
  | _, _, _ => []
  end.
Definition gains (lo hi : R) (t : list level) : result (list R) :=
  match first_where (above lo) t, last_where (below hi) t with
  | Some i, Some j => Ok (flat_map gain_at (firstn (j - i) (skipn i t)))
  | _, _ => Raise ValueError
  end.

(** ** sigma_clip, 247-271, of a list of numbers *)
Definition rmean (l : list R) : R := rsum l / INR (List.length l).
Definition rdev (l : list R) : R := sqrt (rsum (map (fun x => (x - rmean l) ^ 2) l) / INR (List.length l)).
Definition outlier (sigma : R) (l : list R) (x : R) : bool := rltb (sigma * rdev l) (Rabs (x - rmean l)).
Fixpoint sigma_clip (sigma : R) (iters : nat) (l : list R) : list R :=
  match iters with
  | O => l
  | Datatypes.S k => if existsb (outlier sigma l) l then sigma_clip sigma k (filter (fun x => negb (outlier sigma l x)) l) else l
  end.

(** ** calculate_mode, 228-245: np.histogram with ten bins, the last one closed *)
Definition range_of (l : list R) : R * R :=
  match l with
  | [] => (0, 1)
  | x :: t => let a := fold_left Rmin t x in let b := fold_left Rmax t x in if Req_EM_T a b then (a - 1 / 2, b + 1 / 2) else (a, b)
  end.
Definition edge (r : R * R) (k : nat) : R := fst r + INR k * ((snd r - fst r) / 10).
Definition in_bin (r : R * R) (k : nat) (x : R) : bool :=
  ((if Rle_dec (edge r k) x then true else false) &&
   (if Nat.eqb k 9 then if Rle_dec x (edge r (k + 1)) then true else false else rltb x (edge r (k + 1))))%bool.
Definition count (r : R * R) (l : list R) (k : nat) : nat := List.length (filter (in_bin r k) l).
Fixpoint argmax (f : nat -> nat) (best : nat) (l : list nat) : nat :=
  match l with [] => best | k :: t => argmax f (if Nat.ltb (f best) (f k) then k else best) t end.
Definition calculate_mode (l : list R) : R :=
  let r := range_of l in let k := argmax (count r l) 0 (seq 1 9) in (edge r k + edge r (k + 1)) / 2.

(** ** The whole, 353-795 *)
Record product : Type := mkproduct { k_gain : R; k_err : R; k_ptc : list (val * val); k_rn : R; k_rn_err : R }.
Definition positive_int (s : setting) : result Z := match s with Whole z => if (0 <? z)%Z then Ok z else Raise TypeError | _ => Raise TypeError end.
(** 381-437 *)
Definition accept (sets : list (list img)) (means : list img) (gain : R) (n_cal n_mean : nat) (smin smax sw : setting) : result (Z * Z * nat) :=
  if Nat.eqb (List.length sets) 0 then Raise IndexError
  else if Nat.ltb (List.length sets) n_cal then Raise PyException
  else if existsb (fun s => Nat.ltb (List.length s) 5) sets then Raise PyException
  else if negb (forallb (fun s => Nat.eqb (List.length s) (List.length (hd [] sets))) sets) then Raise PyException
  else if Nat.eqb (List.length means) 0 then Raise IndexError
  else if Nat.ltb (List.length means) n_mean then Raise PyException
  else if Rle_dec gain 0 then Raise TypeError
  else if Rlt_dec gain 1 then Raise PyException
  else do a <- positive_int smin; do b <- positive_int smax;
  if (b <=? a)%Z then Raise PyException
  else do w <- positive_int sw;
  if ((w <? 10) || (800 <? w))%Z%bool then Raise PyException else Ok (a, b, Z.to_nat w).
(** 697-795: a NaN is no value of a card *)
Definition finish (t : list level) (rn ks : list R) : result product :=
  match sigma_clip (5 / 2) 6 ks with
  | [] => Raise ValueError
  | c => let k := calculate_mode c in
    Ok (mkproduct k (rdev c) (map (fun l => (l_avg l, l_dev l)) t) (rmean rn * k) (sqrt ((k * rdev rn) ^ 2 + (rmean rn * rdev c) ^ 2)))
  end.
Definition calibrate_kgain (d : string -> option setting) (sets : list (list img)) (means : list img) (gain : R) (n_cal n_mean : nat)
    (smin smax sw : setting) : result product :=
  do _ <- check_kgain_params d;
  do q <- accept sets means gain n_cal n_mean smin smax sw;
  do p <- read_params d;
  do m <- pick means 0;
  let good := crop (p_box p) (average means m) in
  do per <- mapR (one_set p (snd q) good) sets;
  do t <- curve (List.concat (map fst per)) (p_bins p);
  do ks <- gains (IZR (fst (fst q))) (IZR (snd (fst q))) t;
  do final <- getkey (nth_error per (List.length per - 1));
  finish t (snd final) ks.
End Kgain.
