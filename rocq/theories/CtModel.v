(** Core throughput: corgidrp/corethroughput.py 11-236 (positions and throughputs of off-axis PSFs), 238-414 (calibration
    product), 457-541 (throughput map); astrom.py centroid_with_roi 38-82; data.py CoreThroughputCalibration 1530-1690
    (construction, position of the mask) and 1692-1843 (interpolation).

    Arrays and values are those of FlatModel: a value is a real number or None.  Files with curves are given by an environment;
    scipy's LinearNDInterpolator is an arbitrary function.  The radius of the region of interest is a natural number.  The list
    of target locations is an array.  Frames do not share arrays.  Of the headers only the cards named here are modelled;
    history, comments, parents and file names are not. *)
From Coq Require Import List Arith Bool Reals ZArith String.
From Verif Require Import Base CombineModel DqModel FindModel AngleModel NearModel FlatModel FluxModel.
Import ListNotations.
Local Open Scope R_scope.

Definition vadd (a b : val) : val := match a, b with Some x, Some y => Some (x + y) | _, _ => None end.
Definition vmul (a b : val) : val := match a, b with Some x, Some y => Some (x * y) | _, _ => None end.
(** np.sum *)
Definition vsum (l : list val) : val := fold_right vadd (Some 0) l.
Definition at_ (f : img) (p : nat * nat) : val := pix f (fst p) (snd p).
Definition values (f : img) : list val := map (at_ f) (spots f).

(** ** astrom.py 38-82 without an initial guess *)
(** np.nanargmax: the first of the largest values in the order of the rows *)
Definition better (f : img) (b : option ((nat * nat) * R)) (p : nat * nat) : option ((nat * nat) * R) :=
  match at_ f p, b with
  | Some v, Some (_, w) => if Rlt_dec w v then Some (p, v) else b
  | Some v, None => Some (p, v)
  | None, _ => b
  end.
Definition brightest (f : img) : result (nat * nat) :=
  match fold_left (better f) (spots f) None with Some (p, _) => Ok p | None => Raise ValueError end.
Definition span (n k r : nat) : list nat := let lo := (k - r)%nat in let hi := Nat.min n (k + r + 1) in seq lo (hi - lo).
Definition centroid_with_roi (f : img) (r : nat) : result (val * val) :=
  do p <- brightest f;
  let ps := list_prod (span (rows f) (fst p) r) (span (cols f) (snd p) r) in
  let total := vsum (map (at_ f) ps) in
  if is_zero total then Ok (Some (INR (snd p)), Some (INR (fst p)))
  else Ok (vdiv (vsum (map (fun q => vmul (Some (INR (snd q))) (at_ f q)) ps)) total,
           vdiv (vsum (map (fun q => vmul (Some (INR (fst q))) (at_ f q)) ps)) total).

(** ** corethroughput.py 112-146, one PSF *)
Definition bigger (a b : val) : val := match a, b with Some x, Some y => Some (if Rlt_dec x y then y else x) | _, _ => None end.
Definition vmax (l : list val) : result val := match l with [] => Raise ValueError | v :: t => Ok (fold_left bigger t v) end.
Definition at_least_half (m v : val) : bool := match m, v with Some x, Some y => if Rle_dec (x / 2) y then true else false | _, _ => false end.
Definition psf_ct (norm : val) (f : img) : result val :=
  do m <- vmax (values f);
  Ok (vdiv (vsum (filter (at_least_half m) (values f))) norm).

(** ** Transmissions, 11-91.  [ver] is the text of the version; [l_pupil] and [l_imaging] are the curves of the lenses in that
    version, wavelengths in Angstroems, if the file can be read. *)
Record lenses : Type := mklenses { l_dir : list string; l_curve : string -> list (R * R); l_pupil : string -> option (list (R * R)); l_imaging : string -> option (list (R * R)) }.
Definition get_cfam (L : lenses) (name ver : string) : result (list R * list val) :=
  match filter (contains name) (l_dir L) with
  | [] => Raise ValueError
  | names => match filter (contains ("v" ++ ver)) names with
             | [] => Raise ValueError
             | file :: _ => do m <- vmax (map (fun p => Some (snd p)) (l_curve L file));
                            Ok (map fst (l_curve L file), map (fun p => vdiv (Some (snd p)) m) (l_curve L file))
             end
  end.
Definition lens (o : option (list (R * R))) : result ((R * R) * list (R * R)) :=
  match o with Some (p :: t) => Ok ((fst p / 10, snd p), map (fun q => (fst q / 10, snd q)) t) | _ => Raise PyException end.
Definition di_over_pil (L : lenses) (name ver : string) : result val :=
  do p <- lens (l_pupil L ver);
  do i <- lens (l_imaging L ver);
  do c <- get_cfam L name ver;
  let through q := vsum (map (fun wt => vmul (Some (interp (fst q) (snd q) (fst wt))) (snd wt)) (combine (fst c) (snd c))) in
  Ok (vdiv (through i) (through p)).

(** ** 148-236 *)
Record ctframe : Type := mkct { t_img : img; t_dq : nat -> nat -> Z; t_cfam : option string; t_dpam : option string; t_lsam : option string; t_fsam : option string; t_fpam : option string;
  t_fpam_hv : option R * option R; t_fsam_hv : option R * option R; t_date : option string }.
Definition is_card (o : option string) (s : string) : bool := match o with Some x => String.eqb x s | None => false end.
Definition is_pupil (t : ctframe) : bool := (is_card (t_dpam t) "PUPIL" && is_card (t_lsam t) "OPEN" && is_card (t_fsam t) "OPEN" && is_card (t_fpam t) "OPEN_12")%bool.
Definition one_cfam (l : list ctframe) : result string :=
  do names <- mapR (fun t => match t_cfam t with Some n => Ok n | None => Raise PyException end) l;
  match names with [] => Raise PyException | n :: r => if forallb (String.eqb n) r then Ok n else Raise PyException end.
(** No off-axis frame: the constructor of Dataset raises. *)
Definition estimate (L : lenses) (ver : string) (r : nat) (l : list ctframe) : result (list (val * val) * list val) :=
  do cfam <- one_cfam l;
  match filter is_pupil l with
  | [] => Raise PyException
  | pupils =>
    let mean := vdiv (vsum (map (fun t => vsum (values (t_img t))) pupils)) (Some (INR (List.length pupils))) in
    do k <- di_over_pil L cfam ver;
    match filter (fun t => negb (is_pupil t)) l with
    | [] => Raise ValueError
    | off =>
      do pos <- mapR (fun t => centroid_with_roi (t_img t) r) off;
      do ct <- mapR (fun t => psf_ct (vmul mean k) (t_img t)) off;
      Ok (pos, ct)
    end
  end.

(** ** 238-324 *)
Definition n_pix_psf (lams : list R) : Z := ceil (3 * (fold_right Rplus 0 lams / INR (List.length lams)) * / 1000000000 / (236 / 100) * 180 / PI * 3600000 / (218 / 10)).
Definition stamp : Type := (img * (nat -> nat -> Z))%type.
Definition cut (n : Z) (t : ctframe) (loc : val * val) : result stamp :=
  match loc with
  | (Some x, Some y) =>
    let f := t_img t in
    let b := mkbox (Z.max (rint y - n) 0) (Z.min (Z.of_nat (rows f)) (rint y + n + 1)) (Z.max (rint x - n) 0) (Z.min (Z.of_nat (cols f)) (rint x + n + 1)) in
    Ok (crop b f, fun i j => t_dq t (bound (rows f) (ymin b) + i)%nat (bound (cols f) (xmin b) + j)%nat)
  | _ => Raise ValueError
  end.
Fixpoint cuts (n : Z) (l : list ctframe) (locs : list (val * val)) : result (list stamp) :=
  match l with
  | [] => Ok []
  | t :: r => if is_pupil t then cuts n r locs
              else match locs with
                   | [] => Raise IndexError
                   | loc :: locs' => do s <- cut n t loc; do ss <- cuts n r locs'; Ok (s :: ss)
                   end
  end.
Definition generate_psf_cube (L : lenses) (name ver : string) (l : list ctframe) (locs : list (val * val)) : result (list stamp) :=
  do c <- get_cfam L name ver;
  do ss <- cuts (n_pix_psf (fst c)) l locs;
  if negb (match ss with [] => true | s :: r => forallb (fun s' => same (fst s) (fst s')) r end) then Raise ValueError
  else if negb (Nat.eqb (List.length ss) (List.length locs)) then Raise PyException
  else match l with
       | [] => Raise IndexError
       | t0 :: _ => do _ <- getkey (t_date t0); do _ <- getkey (t_date (last l t0)); Ok ss
       end.

(** ** 326-414: the product *)
Record ctcal : Type := mkctcal { k_cube : list stamp; k_table : list ((val * val) * val); k_fpam : R * R; k_fsam : R * R }.
Definition both (o : option R * option R) : result (R * R) := do h <- getkey (fst o); do v <- getkey (snd o); Ok (h, v).
Definition generate_ct_cal (L : lenses) (ver : string) (r : nat) (l : list ctframe) : result ctcal :=
  do cfam <- one_cfam l;
  do e <- estimate L ver r l;
  do cube <- generate_psf_cube L cfam ver l (fst e);
  match l with
  | [] => Raise IndexError
  | t0 :: _ =>
    do fp <- both (t_fpam_hv t0);
    do fs <- both (t_fsam_hv t0);
    Ok (mkctcal cube (combine (fst e) (snd e)) fp fs)
  end.

(** ** data.py 1650-1690: the cards of the first frame of the coronagraphic dataset *)
Record corhdr : Type := mkcor { c_star : option R * option R; c_fpam : option R * option R; c_fsam : option R * option R }.
Definition matrix : Type := ((R * R) * (R * R))%type.
Definition times_vec (M : matrix) (d : R * R) : R * R := (fst (fst M) * fst d + snd (fst M) * snd d, fst (snd M) * fst d + snd (snd M) * snd d).
Definition ct_fpm_position (fpam fsam : R * R) (M0 M1 : matrix) (cor : list corhdr) : result ((R * R) * (R * R)) :=
  match cor with
  | [] => Raise IndexError
  | h :: _ =>
    do c <- both (c_star h);
    do fp <- both (c_fpam h);
    do fs <- both (c_fsam h);
    let d0 := times_vec M0 (fst fpam - fst fp, snd fpam - snd fp) in
    let d1 := times_vec M1 (fst fsam - fst fs, snd fsam - snd fs) in
    Ok ((fst c + fst d0, snd c + snd d0), (fst c + fst d1, snd c + snd d1))
  end.

(** ** data.py 1740-1843.  [linear points values] makes the interpolator, or raises; None is NaN or infinite. *)
Definition pymod (a m : R) : val := if Req_EM_T m 0 then None else Some (a - m * IZR (Int_part (a / m))).
Definition log10 (x : R) : val := if Rlt_dec 0 x then Some (ln x / ln 10) else None.
Definition out_of_unit (v : val) : bool := match v with Some x => if Rlt_dec x 0 then true else if Rlt_dec 1 x then true else false | None => false end.
Definition is_nan (v : val) : bool := match v with Some _ => false | None => true end.
(** 1817-1829: the indices of the NaNs are taken first *)
Definition here (t g : R * R) : bool := if Req_EM_T (fst t) (fst g) then if Req_EM_T (snd t) (snd g) then true else false else false.
Fixpoint set_nth {A} (l : list A) (i : nat) (x : A) : option (list A) :=
  match l, i with [], _ => None | _ :: t, O => Some (x :: t) | a :: t, S k => option_map (cons a) (set_nth t k x) end.
Fixpoint repair_from (i : nat) (t : R * R) (grid : list ((R * R) * R)) (vs : list val) : result (list val) :=
  match grid with
  | [] => Ok vs
  | (g, c) :: r => if here t g then match set_nth vs i (Some c) with Some vs' => repair_from (S i) t r vs' | None => Raise IndexError end
                   else repair_from (S i) t r vs
  end.
Fixpoint repair (ts : list (R * R)) (grid : list ((R * R) * R)) (vs : list val) : result (list val) :=
  match ts with [] => Ok vs | t :: r => do vs' <- repair_from 0 t grid vs; repair r grid vs' end.

Section Interpolate.
Variable linear : list (val * R) -> list R -> result (val * val -> val).
Definition interpolate_ct (table : list ((R * R) * R)) (fpam fsam : R * R) (M0 M1 : matrix) (cor : list corhdr) (xs ys : list R) (logr : bool) : result (list (R * (R * R))) :=
  if negb (Nat.eqb (List.length xs) (List.length ys)) then Raise ValueError
  else
    do c <- ct_fpm_position fpam fsam M0 M1 cor;
    let grid := map (fun e => ((fst (fst e) - fst (fst c), snd (fst e) - snd (fst c)), snd e)) table in
    let radii := map (fun g => radius (fst g)) grid in
    let angles := map (fun g => arctan2 (snd (fst g)) (fst (fst g))) grid in
    do a0 <- rmin angles;
    do lo <- rmin radii;
    let t1 := filter (fun t => if Rle_dec lo (radius t) then true else false) (combine xs ys) in
    if Nat.eqb (List.length t1) 0 then Raise ValueError
    else
      do hi <- rmax radii;
      let t2 := filter (fun t => if Rle_dec (radius t) hi then true else false) t1 in
      if Nat.eqb (List.length t2) 0 then Raise ValueError
      else
        do m <- rmax (map (fun a => a - a0) angles);
        let rad x := if logr then log10 x else Some x in
        do q <- linear (combine (map rad radii) (map (fun a => a - a0) angles)) (map snd grid);
        let vs := map (fun t => q (rad (radius t), pymod (arctan2 (snd t) (fst t) - a0) m)) t2 in
        if existsb out_of_unit vs then Raise ValueError
        else
          do vs' <- repair (map fst (filter (fun tv => is_nan (snd tv)) (combine t2 vs))) grid vs;
          if forallb is_nan vs' then Raise ValueError
          else Ok (flat_map (fun tv => match snd tv with Some v => [(v, fst tv)] | None => [] end) (combine t2 vs')).

(** ** corethroughput.py 457-541; the second component is the file that is written *)
Definition linspace (a b : R) (n : nat) : list R := map (fun i => if Nat.eqb n 1 then a else a + INR i * ((b - a) / INR (n - 1))) (seq 0 n).
Definition create_ct_map (table : list ((R * R) * R)) (fpam fsam : R * R) (M0 M1 : matrix) (cor : list corhdr) (xr yr : R * R) (nx ny : nat) (target : option (list R * list R)) (logr : bool)
    (filepath : option string) (save : bool) (default : string) : result (list (R * R * R) * option string) :=
  let g := list_prod (linspace (fst yr) (snd yr) ny) (linspace (fst xr) (snd xr) nx) in
  let t := match target with Some t => t | None => (map snd g, map fst g) end in
  do out <- interpolate_ct table fpam fsam M0 M1 cor (fst t) (snd t) logr;
  Ok (map (fun e => (fst (snd e), snd (snd e), fst e)) out,
      if save then match filepath with None => Some default | Some _ => None end else None).
End Interpolate.
