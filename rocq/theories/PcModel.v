(** Photon counting: corgidrp/photon_counting.py.

    An image is the list of its pixels (the 2-D shape plays no role here);
    analog data and their error are rationals or NaN ([None]), counts are
    integers, corrected means are reals.  EXPTIME, EMGAIN_C, KGAINPAR and RN are
    compared as numbers.  Warnings, history and header cards not named are left
    out.  PhotonCountException and plain Exception are both [PyException]. *)
From Coq Require Import List Arith Bool QArith ZArith String Reals Qreals.
From Verif Require Import Base CosmicModel DqModel DarkModel.
Import ListNotations.
Local Open Scope Z_scope.

Notation px := (option Q) (only parsing).
Record pframe : Type := mkpf {
  pf_name : string; pf_parents : list string;
  pf_exp : option Q; pf_emc : option Q; pf_kgp : option Q; pf_rn : option Q;      (* EXPTIME EMGAIN_C KGAINPAR RN *)
  pf_vis : option string; pf_ispc : option bool; pf_emm : option Q; pf_ema : option Q;  (* VISTYPE ISPC EMGAIN_M EMGAIN_A *)
  pf_data : list px; pf_err : list px; pf_dq : list Z }.                             (* err: layer 0 *)

Definition qgt (a b : Q) : bool := negb (Qle_bool a b).
(** photon_count 41-61, one pixel *)
Definition photon_count (x : px) (t : Q) : Z := match x with Some v => if qgt v t then 1 else 0 | None => 0 end.

(** 240-253: the frame's contribution to (co-added, nframes) *)
Definition plus (x y : px) : px := match x, y with Some a, Some b => Some (a + b)%Q | _, _ => None end.
Definition minus (x y : px) : px := match x, y with Some a, Some b => Some (a - b)%Q | _, _ => None end.
Definition contrib (t : Q) (xs : list px) (dq : list Z) : result (list (Z * Z)) :=
  zipR (fun x q => if Z.eqb q 0 then (photon_count x t, 1) else (0, 0)) xs dq.
Fixpoint coadd (t : Q) (acc : list (Z * Z)) (l : list (list px * list Z)) : result (list (Z * Z)) :=
  match l with
  | [] => Ok acc
  | f :: r => do c <- contrib t (fst f) (snd f); do a <- zipR (fun u v => (fst u + fst v, snd u + snd v)) acc c; coadd t a r
  end.

Local Open Scope R_scope.
(** varL23 11-34; None is NaN: the square root of a negative number, or a zero
    denominator, where e is infinite and e (1 - e) is -inf or NaN *)
Definition e_thresh (g L T : R) : R :=
  6 / (6 + L * (6 + L * (3 + L))) * (exp (- T / g) * L * (2 * g ^ 2 * (6 + L * (3 + L)) + 2 * g * L * (3 + L) * T + L ^ 2 * T ^ 2)) / (12 * g ^ 2).
Definition varL23 (g L T N : R) : option R :=
  let e := e_thresh g L T in
  if Req_EM_T (6 + L * (6 + L * (3 + L))) 0 then None
  else if Rlt_dec (N * e * (1 - e)) 0 then None
  else let std := sqrt (N * e * (1 - e)) in
  Some (std ^ 2 * (exp (T / g) / N + 2 * ((exp (2 * T / g) * (g - T)) / (2 * g * N ^ 2)) * (N * e)
        + 3 * ((exp (3 * T / g) * (4 * g ^ 2 - 8 * g * T + 5 * T ^ 2)) / (12 * g ^ 2 * N ^ 3)) * (N * e) ^ 2) ^ 2).

(** _calc_func 430-454 *)
Definition epsilon_prime (t g lam : R) : R :=
  (lam * (2 * g ^ 2 * (6 + lam * (3 + lam)) + 2 * g * lam * (3 + lam) * t + lam ^ 2 * t ^ 2)) / (2 * exp (t / g) * g ^ 2 * (6 + lam * (6 + lam * (3 + lam)))).
Definition calc_func (nobs nfr t g lam : R) : R := nfr * epsilon_prime t g lam - nobs.
(** _calc_dfunc 457-475 *)
Definition calc_dfunc (nfr t g lam : R) : R :=
  (lam * nfr * (2 * g ^ 2 * (3 + 2 * lam) + 2 * g * lam * t + 2 * g * (3 + lam) * t + 2 * lam * t ^ 2)) / (2 * exp (t / g) * g ^ 2 * (6 + lam * (6 + lam * (3 + lam))))
  - (lam * (6 + lam * (3 + lam) + lam * (3 + 2 * lam)) * nfr * (2 * g ^ 2 * (6 + lam * (3 + lam)) + 2 * g * lam * (3 + lam) * t + lam ^ 2 * t ^ 2)) / (2 * exp (t / g) * g ^ 2 * (6 + lam * (6 + lam * (3 + lam))) ^ 2)
  + (nfr * (2 * g ^ 2 * (6 + lam * (3 + lam)) + 2 * g * lam * (3 + lam) * t + lam ^ 2 * t ^ 2)) / (2 * exp (t / g) * g ^ 2 * (6 + lam * (6 + lam * (3 + lam)))).
(** calc_lam_approx 361-393, one pixel; None for 0/0 *)
Definition calc_lam_approx (nobs nfr : Z) (t g : R) : option R :=
  if Z.eqb nfr 0 then None
  else let init := 1 - IZR nobs / IZR nfr * exp (t / g) in
  if Rlt_dec 0 init then Some (- ln init) else Some (IZR nobs / IZR nfr).
(** lam_newton_fit 396-428, one pixel: the masked value.  The mask of nobs==0
    reaches the estimate in the first iteration (niter >= 1); a masked value is
    not changed; a division by 0 masks (numpy also masks quotients that overflow:
    not modelled). *)
Fixpoint newton (n : nat) (nobs nfr t g : R) (st : R * bool) : R * bool :=
  match n with
  | O => st
  | Datatypes.S n' =>
    let '(lam, masked) := st in
    newton n' nobs nfr t g
      (if masked then st
       else if Req_EM_T (6 + lam * (6 + lam * (3 + lam))) 0 then (lam, true)
       else if Req_EM_T (calc_dfunc nfr t g lam) 0 then (lam, true)
       else (lam - calc_func nobs nfr t g lam / calc_dfunc nfr t g lam, false))
  end.
Definition fit_pixel (niter : nat) (t g : R) (kn : Z * Z) : option (R * bool) :=
  match calc_lam_approx (fst kn) (snd kn) t g with
  | None => None
  | Some l0 => Some (newton niter (IZR (fst kn)) (IZR (snd kn)) t g (l0, if Req_EM_T l0 0 then true else Z.eqb (fst kn) 0))
  end.
(** 422: lam_est_m.data of the considered pixels; nanmin of an empty array is a
    ValueError, NaN is ignored *)
Definition negative (p : option (R * bool)) : bool := match p with Some (l, _) => if Rlt_dec l 0 then true else false | None => false end.
Definition filled (p : option (R * bool)) : R := match p with Some (l, false) => l | _ => 0 end.
Definition corr_photon_count (niter : nat) (t g : R) (considered : list bool) (kn : list (Z * Z)) : result (list R) :=
  let fit := map (fit_pixel niter t g) kn in
  do sel <- zipR (fun (b : bool) p => (b, p)) considered fit;
  if negb (existsb fst sel) then Raise ValueError
  else if existsb (fun s => fst s && negative (snd s)) sel then Raise PyException
  else Ok (map filled fit).

(** 266-270, one pixel.  nframes = 0 gives NaN. *)
Definition pc_error (g t : R) (n : Z) (m up low : R) : option R :=
  if Z.eqb n 0 then None
  else match varL23 g m t (IZR n) with
  | None => None
  | Some v => Some (Rmax (up + v - m) (m - (low - v)))
  end.
Local Close Scope R_scope.

(** 140-157: the header checks of one bin; returns VISTYPE *)
Definition settings_of (f : pframe) : result (Q * Q * Q * Q) :=
  do a <- getkey (pf_exp f); do b <- getkey (pf_emc f); do c <- getkey (pf_kgp f); do d <- getkey (pf_rn f); Ok (a, b, c, d).
Definition seteq (x y : Q * Q * Q * Q) : bool :=
  Qeq_bool (fst (fst (fst x))) (fst (fst (fst y))) && Qeq_bool (snd (fst (fst x))) (snd (fst (fst y))) && Qeq_bool (snd (fst x)) (snd (fst y)) && Qeq_bool (snd x) (snd y).
Definition checked (mode : string) (has_dark : bool) (f0 : pframe) (fs : list pframe) : result string :=
  do ks <- mapR settings_of (f0 :: fs);
  do vs <- (if match ks with k :: r => forallb (seteq k) r | [] => true end then mapR (fun f => getkey (pf_vis f)) (f0 :: fs) else Raise PyException);
  match vs with
  | [] => Raise IndexError
  | v :: r =>
    if negb (forallb (String.eqb v) r) then Raise PyException
    else if String.eqb v "DARK" && negb (String.eqb mode "darks") then Raise PyException
    else if String.eqb v "DARK" && has_dark then Raise PyException
    else if negb (String.eqb v "DARK") && negb (String.eqb mode "illuminated") then Raise PyException
    else match pf_ispc f0 with Some false => Raise PyException | _ => Ok v end
  end.
(** 184-191 *)
Definition em_gain (f : pframe) : result Q :=
  match pf_emm f with
  | Some g => Ok g
  | None => do a <- getkey (pf_ema f); if qgt a 0 then Ok a else getkey (pf_emc f)
  end.
(** 202: np.nanmean of the considered pixels of all frames, divided by the gain *)
Fixpoint collect (considered : list bool) (l : list (list px)) : result (list Q) :=
  match l with
  | [] => Ok []
  | d :: r => do s <- zipR (fun (b : bool) (x : px) => if b then x else None) considered d; do t <- collect considered r;
              Ok (flat_map (fun x : px => match x with Some v => [v] | None => [] end) s ++ t)
  end.
Definition too_bright (vals : list Q) (g mx : Q) : bool :=
  match vals with [] => false | _ => qgt (fold_right Qplus 0%Q vals / inject_Z (Z.of_nat (List.length vals)) / g) mx end.

(** A photon-counted master dark *)
Record pdark : Type := mkpd { pd_stat : option string; pd_thresh : option Q; pd_num : option Z; pd_slices : list (list rl * list rl * list Z) }.  (* data, err, dq *)
Record pout : Type := mkpo { o_mean : list rl; o_err : list rl; o_dq : list Z; o_thresh : Q; o_last : pframe }.

Definition sub_clip (a : R) (b : rl) : rl := match b with Some y => if Rlt_dec (a - y) 0 then Some 0%R else Some (a - y)%R | None => None end.
Definition quad2 (a b : rl) : rl := match a, b with Some x, Some y => Some (sqrt (x ^ 2 + y ^ 2))%R | _, _ => None end.

Section Pc.
Variables (niter : nat) (safemode : bool) (mode : string) (mask : option (list bool)) (dark : option pdark).
Variables (tf mx : Q).

(** 272-294: the dark's planes for bin [i], after the checks *)
Definition dark_planes (i : nat) (nsub : nat) (thresh : Q) (npix : nat) : result (list rl * list rl * list Z) :=
  match dark with
  | None => Ok (repeat (Some 0%R) npix, repeat (Some 0%R) npix, repeat 0 npix)
  | Some d =>
    match pd_stat d with
    | None => Raise PyException
    | Some s =>
      if negb (String.eqb s "photon-counted master dark") then Raise PyException
      else match pd_thresh d with
      | None => Raise PyException
      | Some t =>
        if negb (Qeq_bool t thresh) then Raise PyException
        else do n <- getkey (pd_num d);
        if n <? Z.of_nat nsub then Raise PyException
        else match nth_error (pd_slices d) (Nat.modulo i (List.length (pd_slices d))) with Some p => Ok p | None => Raise IndexError end
      end
    end
  end.
(** 136-306: one bin *)
Definition pc_bin (i : nat) (f0 : pframe) (fs : list pframe) : result (string * pout) :=
  do v <- checked mode (match dark with Some _ => true | None => false end) f0 fs;
  let considered := match mask with None => map (fun _ => true) (pf_data f0) | Some m => m end in
  do rn <- getkey (pf_rn f0);
  let thresh := (tf * rn)%Q in
  if qgt 0 thresh then Raise PyException
  else do g <- em_gain f0;
  if negb (qgt g thresh) && safemode then Raise PyException
  else do vals <- collect considered (map pf_data (f0 :: fs));
  if too_bright vals g mx && safemode then Raise PyException
  else if negb (qgt rn 0) then Raise PyException
  else if Qeq_bool g 0 then Raise PyException   (* ZeroDivisionError *)
  else
  let start := map (fun _ => (0, 0)) (pf_data f0) in
  do c <- coadd thresh start (map (fun f => (pf_data f, pf_dq f)) (f0 :: fs));
  do ups <- mapR (fun f => do d <- zipR plus (pf_data f) (pf_err f); Ok (d, pf_dq f)) (f0 :: fs);
  do lows <- mapR (fun f => do d <- zipR minus (pf_data f) (pf_err f); Ok (d, pf_dq f)) (f0 :: fs);
  do cu <- coadd thresh start ups;
  do cl <- coadd thresh start lows;
  do m <- corr_photon_count niter (Q2R thresh) (Q2R g) considered c;
  do mu <- corr_photon_count niter (Q2R thresh) (Q2R g) considered cu;
  do ml <- corr_photon_count niter (Q2R thresh) (Q2R g) considered cl;
  do ul <- zipR (fun u l => (u, l)) mu ml;
  do nm <- zipR (fun kn mm => (snd kn, mm)) c m;
  do err <- zipR (fun x y => pc_error (Q2R g) (Q2R thresh) (fst x) (snd x) (fst y) (snd y)) nm ul;
  do p <- dark_planes i (Datatypes.S (List.length fs)) thresh (List.length c);
  do mean <- zipR sub_clip m (fst (fst p));
  do err2 <- zipR quad2 err (snd (fst p));
  do dq <- zipR Z.lor (map (fun kn => if Z.eqb (snd kn) 0 then 1 else 0) c) (snd p);
  Ok (v, mkpo mean err2 dq thresh (last fs f0)).

(** 132-306: the loop; the remainder is ignored *)
Fixpoint pc_bins (n i bin : nat) (l : list pframe) : result (list (string * pout * list pframe)) :=
  match n with
  | O => Ok []
  | Datatypes.S n' =>
    match firstn bin l with
    | [] => Raise ValueError
    | f0 :: fs => do o <- pc_bin i f0 fs; do r <- pc_bins n' (Datatypes.S i) bin (skipn bin l); Ok ((fst o, snd o, f0 :: fs) :: r)
    end
  end.

(** Images: mean, err, dq, PCTHRESH, NUM_FR, file names recorded as parents (C10).
    Dark: the stacked planes, PCTHRESH and NUM_FR of the last bin, the frames
    whose names are recorded as parents. *)
Inductive pc_out : Type :=
| PcImages (l : list (pout * list pframe))
| PcDark (l : list pout) (thresh : Q) (num : nat) (parents : list pframe).

(** 64-333; [bin_size] None is the whole dataset. *)
Definition get_pc_mean (bin_size : option Z) (fs : list pframe) : result pc_out :=
  if Nat.eqb niter 0 then Raise PyException
  else
  let len := List.length fs in
  let b := match bin_size with None => Z.of_nat len | Some b => b end in
  if b <=? 0 then Raise TypeError
  else if Z.of_nat len <? b then Raise ValueError
  else
  let bin := Z.to_nat b in
  let num_bins := Nat.div len bin in
  let index := (num_bins * Nat.div len num_bins)%nat in
  do l <- pc_bins num_bins 0 bin fs;
  match last (map Some l) None with
  | None => Raise UnboundLocalError
  | Some (v, o, sub) =>
    if negb (String.eqb v "DARK") then Ok (PcImages (map (fun x => (snd (fst x), snd x)) l))
    else Ok (PcDark (map (fun x => snd (fst x)) l) (o_thresh o) (List.length sub) (firstn index fs))
  end.
End Pc.
