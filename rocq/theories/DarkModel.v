(** Master darks and their subtraction: corgidrp/darks.py mean_combine 10-125,
    build_trad_dark 127-259, build_synthesized_dark 759-871; l2a_to_l2b.py
    dark_subtraction 45-116; data.py 1071-1079 (planes of the noise maps).

    Images are lists of rows.  Data are [fl] (exact rationals, infinities, NaN);
    errors are real numbers or NaN ([None]), because of the square roots; only
    error layer 0 is modelled here (the others: C16).  Headers are reduced to the
    cards read; history, file names and what the constructors write into
    the headers are not modelled. *)
From Coq Require Import List Arith Bool QArith ZArith String Reals Qreals.
From Verif Require Import Base FloatModel CosmicModel DqModel GeomModel.
Import ListNotations.
Local Open Scope nat_scope.

Notation rl := (option R) (only parsing).
Record dkh : Type := mkdh { h_cr : cr_header; h_t : option Q; h_k : option Q }.
Record dkf : Type := mkdk { k_hdr : dkh; k_data : list (list fl); k_err : list (list rl); k_dq : list (list N) }.

(** Elementwise operation on arrays of the same shape; other shapes: ValueError
    (numpy would repeat an axis of length 1; not modelled). *)
Fixpoint zipM {A B C} (f : A -> B -> result C) (l : list A) (m : list B) : result (list C) :=
  match l, m with
  | [], [] => Ok []
  | x :: t, y :: u => do z <- f x y; do r <- zipM f t u; Ok (z :: r)
  | _, _ => Raise ValueError
  end.
Definition zip2 {A B C} (f : A -> B -> C) (a : list (list A)) (b : list (list B)) : result (list (list C)) := zipM (zipR f) a b.
Definition map2d {A B} (f : A -> B) (a : list (list A)) : list (list B) := map (map f) a.

(** array.shape == (nr, nc) *)
Definition has_shape {A} (nr nc : Z) (f : list (list A)) : bool :=
  Z.eqb (zlen f) nr && forallb (fun row => Z.eqb (zlen row) nc) f.
(** s0 of mean_combine 82 *)
Definition shape_of {A} (f : list (list A)) : Z * Z := (zlen f, match f with [] => 0%Z | r :: _ => zlen r end).
Definition any2 {A} (p : A -> bool) (f : list (list A)) : bool := existsb (existsb p) f.

(** split_dataset by EXPTIME, EMGAIN_C, KGAINPAR (darks.py 190-192, 802-804,
    l2a_to_l2b.py 59-61): more than one distinct key is an error; the result is
    unique_vals[0] if there is a frame at all. *)
Definition key_of (h : dkh) : result (Q * Q * Q) :=
  do t <- getkey (h_t h); do c <- getkey (h_gc (h_cr h)); do k <- getkey (h_k h); Ok (t, c, k).
Definition keyeq (a b : Q * Q * Q) : bool :=
  Qeq_bool (fst (fst a)) (fst (fst b)) && Qeq_bool (snd (fst a)) (snd (fst b)) && Qeq_bool (snd a) (snd b).
Definition unique_key (fs : list dkf) : result (option (Q * Q * Q)) :=
  do ks <- mapR (fun f => key_of (k_hdr f)) fs;
  match ks with
  | [] => Ok None
  | k :: t => if forallb (keyeq k) t then Ok (Some k) else Raise PyException
  end.

(** * mean_combine *)
Section Mean.
Context {A : Type}.
Variable zero : A.
Variable add : A -> A -> A.
Variable divn : A -> nat -> A.
(** err=True: squares before the sum, square root after the division. *)
Variable pre post : A -> A.

(** 101-108: one frame added to (sum_im, map_im); masked pixels count as 0. *)
Definition acc_frame (acc : list (list (A * nat))) (fm : list (list A) * list (list N)) : result (list (list (A * nat))) :=
  do px <- zip2 (fun v m => (v, m)) (fst fm) (snd fm);
  zip2 (fun s p => if N.eqb (snd p) 0 then (add (fst s) (pre (fst p)), S (snd s)) else (add (fst s) (pre zero), snd s)) acc px.
Fixpoint accumulate (acc : list (list (A * nat))) (l : list (list (list A) * list (list N))) : result (list (list (A * nat))) :=
  match l with [] => Ok acc | fm :: t => do a <- acc_frame acc fm; accumulate a t end.

Record mean_out : Type := mkmean { m_im : list (list A); m_bp : list (list bool); m_num : list (list nat); m_enough : bool }.

(** 10-125 (numpy arrays given as lists of frames).  121: map_im.min() < n/2. *)
Definition mean_combine (ims : list (list (list A))) (bps : list (list (list N))) : result mean_out :=
  if negb (Nat.eqb (List.length ims) (List.length bps)) then Raise TypeError
  else match ims with
  | [] => Raise TypeError
  | im0 :: _ =>
    let s0 := shape_of im0 in
    if negb (forallb (has_shape (fst s0) (snd s0)) ims) then Raise TypeError
    else if negb (forallb (fun bp => negb (any2 (fun v => negb (N.eqb v 0) && negb (N.eqb v 1)) bp) && has_shape (fst s0) (snd s0) bp) bps) then Raise TypeError
    else
    do acc <- accumulate (map2d (fun _ => (zero, 0)) im0) (combine ims bps);
    Ok (mkmean (map2d (fun p => post (if Nat.eqb (snd p) 0 then zero else divn (fst p) (snd p))) acc)
               (map2d (fun p => Nat.eqb (snd p) 0) acc)
               (map2d snd acc)
               (negb (any2 (fun p => Nat.ltb (2 * snd p) (List.length ims)) acc)))
  end.
End Mean.

Definition rl_add (x y : rl) : rl := match x, y with Some a, Some b => Some (a + b)%R | _, _ => None end.
Definition rl_divn (x : rl) (n : nat) : rl := option_map (fun a => a / INR n)%R x.
Definition rl_sq (x : rl) : rl := option_map (fun a => a * a)%R x.
Definition rl_sqrt (x : rl) : rl := option_map sqrt x.
Definition mean_data := @mean_combine fl (Fin 0) fadd (fun x n => fdiv x (Fin (inject_Z (Z.of_nat n)))) (fun x => x) (fun x => x).
Definition mean_err := @mean_combine rl (Some 0%R) rl_add rl_divn rl_sq rl_sqrt.

(** * build_trad_dark *)
Definition to_rl (x : fl) : rl := match x with Fin q => Some (Q2R q) | _ => None end.
Definition rl_sum (l : list rl) : rl := fold_right rl_add (Some 0%R) l.
Definition rl_mean (l : list rl) : rl := rl_divn (rl_sum l) (List.length l).
(** np.ma.std over the unmasked samples (ddof 0) *)
Definition rl_std (l : list rl) : rl :=
  match rl_mean l with
  | None => None
  | Some m => rl_sqrt (rl_mean (map (fun x => rl_sq (rl_add x (Some (- m)%R))) l))
  end.

(** frame[lo:hi] = v for whole rows *)
Definition set_rows {A} (lo hi : Z) (v : A) (f : list (list A)) : list (list A) :=
  map (fun p => if Z.leb (norm_ix (zlen f) lo) (Z.of_nat (fst p)) && Z.ltb (Z.of_nat (fst p)) (norm_ix (zlen f) hi)
                then map (fun _ => v) (snd p) else snd p)
      (combine (seq 0 (List.length f)) f).

(** 201-216, one frame: (frame, bad pixel mask, error) *)
Definition prep_frame (rg : regions) (lo hi : Z) (f : dkf) : result (list (list fl) * list (list N) * list (list rl)) :=
  do i0 <- slice_section rg "SCI" "image" (set_rows lo hi NaN (k_data f));
  if any2 is_nan i0 then Raise ValueError
  else Ok (set_rows lo hi (Fin 0) (k_data f), map2d (fun d => if N.eqb d 0 then 0%N else 1%N) (k_dq f), k_err f).

(** The unmasked samples of a pixel, for np.ma.std 222-223: an array holding
    the list of samples of each pixel. *)
Definition add_samples (acc : list (list (list rl))) (fm : list (list fl) * list (list N)) : result (list (list (list rl))) :=
  do px <- zip2 (fun v m => (v, m)) (fst fm) (snd fm);
  zip2 (fun l p => if N.eqb (snd p) 0 then l ++ [to_rl (fst p)] else l) acc px.
Fixpoint samples (acc : list (list (list rl))) (l : list (list (list fl) * list (list N))) : result (list (list (list rl))) :=
  match l with [] => Ok acc | fm :: t => do a <- add_samples acc fm; samples a t end.

Record dark : Type := mkdark { dk_data : list (list fl); dk_err : list (list rl); dk_dq : list (list N) }.

Section Trad.
(** What np.ma.getdata leaves in a pixel masked in every frame (226); numpy
    does not specify it. *)
Variable hidden : rl.

(** 220-224, one pixel: statistical and propagated error *)
Definition total_err (l : list rl) (e : rl) : rl :=
  match l with
  | [] => hidden
  | _ :: _ => rl_sqrt (rl_add (rl_sq e) (rl_sq (option_map (fun s => s / sqrt (INR (List.length l)))%R (rl_std l))))
  end.

(** 127-259.  [lo], [hi]: TELRSTRT and TELREND of the detector parameters. *)
Definition build_trad_dark (rg : option regions) (telem_start telem_end : option Z) (full : bool) (fs : list dkf) : result dark :=
  let rg' := match rg with Some r => r | None => detector_areas end in
  do _ <- unique_key fs;
  do lo <- getkey telem_start;
  do hi <- getkey telem_end;
  do prep <- mapR (prep_frame rg' lo hi) fs;
  let frames := map (fun p => fst (fst p)) prep in
  let bpmaps := map (fun p => snd (fst p)) prep in
  do m <- mean_data frames bpmaps;
  do e <- mean_err (map snd prep) bpmaps;
  do smp <- samples (map2d (fun _ => []) (m_im m)) (combine frames bpmaps);
  do err <- zip2 total_err smp (m_im e);
  let dq0 := map2d (fun n => if Nat.ltb (2 * n) (List.length fs) then 256%N else 0%N) (m_num m) in
  do dq <- zip2 (fun d (b : bool) => if b then 1%N else d) dq0 (m_bp m);
  if full then Ok (mkdark (m_im m) err dq)
  else
    do dq' <- slice_section rg' "SCI" "image" dq;
    do err' <- slice_section rg' "SCI" "image" err;
    do d' <- slice_section rg' "SCI" "image" (m_im m);
    Ok (mkdark d' err' dq').
End Trad.

(** * build_synthesized_dark *)

(** data.py 1074-1079: planes FPN, CIC, DC of data, err[0] and dq *)
Record noisemaps : Type := mknm {
  nm_data : list (list (list fl)); nm_err : list (list (list rl)); nm_dq : list (list (list N)) }.
Definition plane {A} (l : list (list (list A))) (i : nat) : result (list (list A)) :=
  match nth_error l i with Some p => Ok p | None => Raise IndexError end.

(** 856-857 *)
Definition synth_data (g t : Q) (f d c : fl) : fl := fadd (fadd (fdiv f (Fin g)) (fmul (Fin t) d)) c.
Definition synth_err (g t : Q) (f d c : rl) : rl :=
  match f, d, c with
  | Some x, Some y, Some z => Some (sqrt (x * x / (Q2R g * Q2R g) + Q2R t * Q2R t * (y * y) + z * z))
  | _, _, _ => None
  end%R.

Definition crop {A} (rg : regions) (full : bool) (f : list (list A)) : result (list (list A)) :=
  if full then Ok f else slice_section rg "SCI" "image" f.

(** 759-871; the result also has the gain and exposure time written as EMGAIN_C
    and EXPTIME. *)
Definition build_synthesized_dark (rg : regions) (nm : noisemaps) (full : bool) (fs : list dkf) : result (dark * Q * Q) :=
  do Fd <- plane (nm_data nm) 0;
  do Dd <- plane (nm_data nm) 2;
  do Cd <- plane (nm_data nm) 1;
  do _ <- unique_key fs;
  match fs with
  | [] => Raise IndexError
  | f0 :: _ =>
    do g <- em_gain (h_cr (k_hdr f0));
    do t <- getkey (h_t (k_hdr f0));
    do a <- get_area rg "SCI";
    if negb (has_shape (a_rows a) (a_cols a) Fd) then Raise TypeError
    else if negb (has_shape (a_rows a) (a_cols a) Dd) then Raise TypeError
    else if negb (has_shape (a_rows a) (a_cols a) Cd) then Raise TypeError
    else if any2 (fun v => flt v (Fin 0)) Dd then Raise TypeError
    else if any2 (fun v => flt v (Fin 0)) Cd then Raise TypeError
    else if negb (Qle_bool 1 g) then Raise TypeError
    else
    do Fd' <- crop rg full Fd;
    do Dd' <- crop rg full Dd;
    do Cd' <- crop rg full Cd;
    do Ferr <- (do e <- plane (nm_err nm) 0; crop rg full e);
    do Derr <- (do e <- plane (nm_err nm) 2; crop rg full e);
    do Cerr <- (do e <- plane (nm_err nm) 1; crop rg full e);
    do Fdq <- (do e <- plane (nm_dq nm) 0; crop rg full e);
    do Ddq <- (do e <- plane (nm_dq nm) 2; crop rg full e);
    do Cdq <- (do e <- plane (nm_dq nm) 1; crop rg full e);
    do fd <- zip2 (fun x y => (x, y)) Fd' Dd';
    do data <- zip2 (fun p z => synth_data g t (fst p) (snd p) z) fd Cd';
    do fde <- zip2 (fun x y => (x, y)) Ferr Derr;
    do err <- zip2 (fun p z => synth_err g t (fst p) (snd p) z) fde Cerr;
    do fdq <- zip2 N.lor Fdq Ddq;
    do dq <- zip2 N.lor fdq Cdq;
    Ok (mkdark data err dq, g, t)
  end.

(** * dark_subtraction *)
Inductive darkarg : Type :=
| ADark (pc_stat : option string) (h : dkh) (d : dark)
| AMaps (nm : noisemaps)
| AOther.

Definition quad (a b : rl) : rl := rl_sqrt (rl_add (rl_sq a) (rl_sq b)).

(** 93-112, one frame: data, error layer 0 (add_error_term), dq *)
Definition sub_frame_dark (d : dark) (f : dkf) : result dkf :=
  do data <- zip2 fsub (k_data f) (dk_data d);
  do err <- zip2 quad (k_err f) (dk_err d);
  do dq <- zip2 N.lor (k_dq f) (dk_dq d);
  Ok (mkdk (k_hdr f) data err dq).

(** 45-116.  Returns the frames and the dark saved to disk, if any. *)
Definition dark_subtraction (rg : option regions) (arg : darkarg) (fs : list dkf) : result (list dkf * option dark) :=
  do k <- unique_key fs;
  let rg' := match rg with Some r => r | None => detector_areas end in
  do a <- get_area rg' "SCI";
  do im <- unpack_geom rg' "SCI" "image";
  match arg with
  | AMaps nm =>
    match fs with
    | [] => Raise IndexError
    | f0 :: _ =>
      do full <- (if has_shape (a_rows a) (a_cols a) (k_data f0) then Ok true
                  else if has_shape (s_rows im) (s_cols im) (k_data f0) then Ok false
                  else Raise PyException);
      do x <- build_synthesized_dark rg' nm full fs;
      do out <- mapR (sub_frame_dark (fst (fst x))) fs;
      Ok (out, Some (fst (fst x)))
    end
  | ADark pc h d =>
    if match pc with Some s => negb (String.eqb s "analog master dark") | None => false end then Raise PyException
    else
    do kd <- key_of h;
    match k with
    | None => Raise IndexError
    | Some ku => if negb (keyeq kd ku) then Raise PyException
                 else do out <- mapR (sub_frame_dark d) fs; Ok (out, None)
    end
  | AOther => Raise PyException
  end.
