(** Specification of photon counting. *)
From Coq Require Import List Arith Bool QArith ZArith String Reals Qreals.
From Verif Require Import Base DarkModel PcModel.
Import ListNotations.
Local Open Scope R_scope.

(** * The detector model
    A pixel collects a Poisson number of electrons, at most three; the gain
    register turns n electrons into an Erlang distributed signal, which exceeds
    x gains with probability [tail n x]. *)
Definition pois (n : nat) (lam : R) : R := lam ^ n / INR (fact n).
Definition tail (n : nat) (x : R) : R := exp (- x) * sum_f_R0 (fun j => x ^ j / INR (fact j)) (pred n).
Definition weight (lam : R) : R := pois 0 lam + pois 1 lam + pois 2 lam + pois 3 lam.
Definition detect (x lam : R) : R := (pois 1 lam * tail 1 x + pois 2 lam * tail 2 x + pois 3 lam * tail 3 x) / weight lam.
(** excess of the expected over the observed number of detections *)
Definition excess (n k x lam : R) : R := n * detect x lam - k.

(** Newton's method on the excess: [fits F n lam d v]: from [lam], after [n] steps
    the estimate is [d] and the value reported [v]; it stops (reporting 0) where
    the step is not defined. *)
Inductive fits (F : R -> R) : nat -> R -> R -> R -> Prop :=
| f_done : forall lam, fits F 0 lam lam lam
| f_step : forall n lam l d v, weight lam <> 0 -> derivable_pt_lim F lam l -> l <> 0 -> fits F n (lam - F lam / l) d v -> fits F (Datatypes.S n) lam d v
| f_stop : forall n lam, weight lam = 0 \/ (weight lam <> 0 /\ derivable_pt_lim F lam 0) -> fits F (Datatypes.S n) lam lam 0.
(** First guess: the rate of a pixel that never has two electrons, if that
    explains the counts, else the detected fraction. *)
Definition first_guess (x p lam : R) : Prop :=
  (p < exp (- x) /\ p = exp (- x) * (1 - exp (- lam))) \/ (exp (- x) <= p /\ lam = p).
(** The estimate of a pixel with [k] detections in [n] usable frames *)
Inductive estimate (niter : nat) (x : R) (k n : Z) : R -> R -> Prop :=
| es_none : k = 0%Z -> estimate niter x k n 0 0
| es_fit : forall l0 d v, (0 < k)%Z -> first_guess x (IZR k / IZR n) l0 -> fits (excess (IZR n) (IZR k) x) niter l0 d v -> estimate niter x k n d v.

(** Third-order inverse of [detect x] and its derivative *)
Definition inv3 (x p : R) : R := exp x * p + exp (2 * x) * (1 - x) / 2 * p ^ 2 + exp (3 * x) * (4 - 8 * x + 5 * x ^ 2) / 12 * p ^ 3.
Definition dinv3 (x p : R) : R := exp x + exp (2 * x) * (1 - x) * p + exp (3 * x) * (4 - 8 * x + 5 * x ^ 2) / 4 * p ^ 2.
(** Variance of the estimate: the binomial variance of the detected fraction
    propagated through that inverse *)
Definition pc_var (x n lam : R) : R := detect x lam * (1 - detect x lam) / n * (dinv3 x (detect x lam)) ^ 2.

(** Uncertainty of a mean: the larger distance to the upper and lower estimates,
    each moved outward by the variance *)
Inductive uncertainty (x : R) (n : Z) (m up low : R) : rl -> Prop :=
| u_none : n = 0%Z \/ weight m = 0 \/ detect x m * (1 - detect x m) < 0 -> uncertainty x n m up low None
| u_some : n <> 0%Z -> weight m <> 0 -> 0 <= detect x m * (1 - detect x m) ->
    uncertainty x n m up low (Some (Rmax (up + pc_var x (IZR n) m - m) (m - (low - pc_var x (IZR n) m)))).
Local Close Scope R_scope.

(** * Counting *)
Definition brighter (thr : Q) (f : pframe) (j : nat) : Prop := exists v, nth_error (pf_data f) j = Some (Some v) /\ (thr < v)%Q.
Definition brighter_up (thr : Q) (f : pframe) (j : nat) : Prop :=
  exists v e, nth_error (pf_data f) j = Some (Some v) /\ nth_error (pf_err f) j = Some (Some e) /\ (thr < v + e)%Q.
Definition brighter_low (thr : Q) (f : pframe) (j : nat) : Prop :=
  exists v e, nth_error (pf_data f) j = Some (Some v) /\ nth_error (pf_err f) j = Some (Some e) /\ (thr < v - e)%Q.
(** [tally above j l k n]: pixel [j] is unflagged in [n] frames of [l], above threshold in [k] of them *)
Inductive tally (above : pframe -> nat -> Prop) (j : nat) : list pframe -> Z -> Z -> Prop :=
| t_nil : tally above j [] 0 0
| t_flag : forall f l k n q, nth_error (pf_dq f) j = Some q -> q <> 0%Z -> tally above j l k n -> tally above j (f :: l) k n
| t_above : forall f l k n, nth_error (pf_dq f) j = Some 0%Z -> above f j -> tally above j l k n -> tally above j (f :: l) (k + 1) (n + 1)
| t_below : forall f l k n, nth_error (pf_dq f) j = Some 0%Z -> ~ above f j -> tally above j l k n -> tally above j (f :: l) k (n + 1).

(** * One bin *)
Definition shaped (npix : nat) (f : pframe) : Prop := List.length (pf_data f) = npix /\ List.length (pf_err f) = npix /\ List.length (pf_dq f) = npix.
Definition card (o : option Q) (q : Q) : Prop := exists r, o = Some r /\ (r == q)%Q.
Definition same_settings (e c k r : Q) (f : pframe) : Prop := card (pf_exp f) e /\ card (pf_emc f) c /\ card (pf_kgp f) k /\ card (pf_rn f) r.
Definition accepts (mode : string) (dark : option pdark) (v : string) : Prop :=
  (v = "DARK"%string /\ mode = "darks"%string /\ dark = None) \/ (v <> "DARK"%string /\ mode = "illuminated"%string).
(** EM gain: measured, else applied if positive, else commanded *)
Inductive gain_is (f : pframe) : Q -> Prop :=
| g_meas : forall g, pf_emm f = Some g -> gain_is f g
| g_appl : forall g, pf_emm f = None -> pf_ema f = Some g -> (0 < g)%Q -> gain_is f g
| g_cmd : forall a g, pf_emm f = None -> pf_ema f = Some a -> (a <= 0)%Q -> pf_emc f = Some g -> gain_is f g.
Definition considers (mask : option (list bool)) (npix : nat) (j : nat) : Prop :=
  match mask with None => (j < npix)%nat | Some m => nth_error m j = Some true end.
(** all values of considered pixels, NaN left out *)
Definition pool (mask : option (list bool)) (l : list pframe) : list Q :=
  flat_map (fun f => flat_map (fun p : bool * option Q => match p with (true, Some v) => [v] | _ => [] end)
                       (combine (match mask with None => map (fun _ => true) (pf_data f) | Some m => m end) (pf_data f))) l.
Definition average (l : list Q) : Q := (fold_right Qplus 0 l / inject_Z (Z.of_nat (List.length l)))%Q.
Inductive dark_for (dark : option pdark) (i nsub : nat) (thr : Q) (npix : nat) : list rl -> list rl -> list Z -> Prop :=
| df_none : dark = None -> dark_for dark i nsub thr npix (repeat (Some 0%R) npix) (repeat (Some 0%R) npix) (repeat 0%Z npix)
| df_some : forall d t n a e q, dark = Some d -> pd_stat d = Some "photon-counted master dark"%string -> pd_thresh d = Some t -> (t == thr)%Q ->
    pd_num d = Some n -> (Z.of_nat nsub <= n)%Z -> nth_error (pd_slices d) (Nat.modulo i (List.length (pd_slices d))) = Some (a, e, q) ->
    List.length a = npix -> List.length e = npix -> List.length q = npix -> dark_for dark i nsub thr npix a e q.
Definition less_dark (v : R) (b : rl) (m : rl) : Prop := (b = None /\ m = None) \/ (exists y, b = Some y /\ m = Some (Rmax 0 (v - y))%R).
Definition with_dark (u b e : rl) : Prop := ((u = None \/ b = None) /\ e = None) \/ (exists s t, u = Some s /\ b = Some t /\ e = Some (sqrt (s ^ 2 + t ^ 2))%R).
(** pixel [j] of the result *)
Definition pixel_spec (niter : nat) (thr : Q) (x : R) (mask : option (list bool)) (npix : nat) (c : list pframe) (j : nat) (b be : rl) (bq : Z) (m e : rl) (q : Z) : Prop :=
  exists k ku kl n d du dl v vu vl u,
    tally (brighter thr) j c k n /\ tally (brighter_up thr) j c ku n /\ tally (brighter_low thr) j c kl n
    /\ estimate niter x k n d v /\ estimate niter x ku n du vu /\ estimate niter x kl n dl vl
    /\ (considers mask npix j -> (0 <= d /\ 0 <= du /\ 0 <= dl)%R)
    /\ less_dark v b m /\ uncertainty x n v vu vl u /\ with_dark u be e
    /\ q = Z.lor (if Z.eqb n 0 then 1 else 0) bq.
Definition bin_spec (niter : nat) (safemode : bool) (mode : string) (mask : option (list bool)) (dark : option pdark) (tf mx : Q)
    (i : nat) (c : list pframe) (o : pout) : Prop :=
  exists f0 npix e cg kg rn vis g b be bq,
    hd_error c = Some f0 /\ Forall (same_settings e cg kg rn) c /\ Forall (fun f => pf_vis f = Some vis) c
    /\ accepts mode dark vis /\ pf_ispc f0 <> Some false
    /\ pf_rn f0 = Some rn /\ (0 < rn)%Q /\ o_thresh o = (tf * rn)%Q /\ (0 <= tf * rn)%Q
    /\ gain_is f0 g /\ ~ (g == 0)%Q
    /\ (safemode = true -> (tf * rn < g)%Q /\ (pool mask c <> [] -> (average (pool mask c) / g <= mx)%Q))
    /\ Forall (shaped npix) c /\ (exists j, considers mask npix j) /\ (forall m, mask = Some m -> List.length m = npix)
    /\ dark_for dark i (List.length c) (tf * rn) npix b be bq
    /\ List.length (o_mean o) = npix /\ List.length (o_err o) = npix /\ List.length (o_dq o) = npix
    /\ (forall j y ye yq, nth_error b j = Some y -> nth_error be j = Some ye -> nth_error bq j = Some yq ->
          exists m s q, nth_error (o_mean o) j = Some m /\ nth_error (o_err o) j = Some s /\ nth_error (o_dq o) j = Some q
                      /\ pixel_spec niter (tf * rn) (Q2R (tf * rn) / Q2R g)%R mask npix c j y ye yq m s q)
    /\ (exists pre, c = pre ++ [o_last o]).

(** * The whole dataset: consecutive bins of [b] frames, the rest ignored *)
Inductive bins (b : nat) : list pframe -> list (list pframe) -> Prop :=
| b_done : forall l, (List.length l < b)%nat -> bins b l []
| b_more : forall c rest cs, List.length c = b -> bins b rest cs -> bins b (c ++ rest) (c :: cs).
(** Outcome: [num] bins; an image per bin, or one dark with a plane per bin *)
Definition run_spec (niter : nat) (safemode : bool) (mode : string) (mask : option (list bool)) (dark : option pdark) (tf mx : Q)
    (bin_size : option Z) (fs : list pframe) (out : pc_out) : Prop :=
  exists b cs os,
    (0 < niter)%nat /\ (bin_size = Some (Z.of_nat b) \/ (bin_size = None /\ b = List.length fs)) /\ (0 < b <= List.length fs)%nat
    /\ bins b fs cs /\ List.length os = List.length cs
    /\ (forall i c o, nth_error cs i = Some c -> nth_error os i = Some o -> bin_spec niter safemode mode mask dark tf mx i c o)
    /\ ((mode = "illuminated"%string /\ out = PcImages (combine os cs))
        \/ (mode = "darks"%string /\ exists pre o, os = pre ++ [o]
            /\ out = PcDark os (o_thresh o) b (firstn (List.length cs * Nat.div (List.length fs) (List.length cs)) fs))).
