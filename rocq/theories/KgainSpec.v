(** Specification of the K gain calibration. *)
From Coq Require Import List Arith Bool Reals ZArith String.
From Verif Require Import Base CombineModel CombineSpec ComboSpec FlatModel FlatSpec ThruSpec KgainModel.
Import ListNotations.
Local Open Scope R_scope.

(** ** Settings *)
Definition settings : list string := ["rowroi1"; "rowroi2"; "colroi1"; "colroi2"; "rn_bins1"; "rn_bins2"; "max_DN_val"; "signal_bins_N"]%string.
Definition is_int (d : string -> option setting) (k : string) (z : Z) : Prop := d k = Some (Whole z).
Definition is_num (d : string -> option setting) (k : string) (x : R) : Prop := d k = Some (Float x) \/ exists z, d k = Some (Whole z) /\ x = IZR z.
Definition reads_as (d : string -> option setting) (p : params) : Prop :=
  is_int d "rowroi1" (ymin (p_box p)) /\ is_int d "rowroi2" (ymax (p_box p)) /\ is_int d "colroi1" (xmin (p_box p)) /\ is_int d "colroi2" (xmax (p_box p))
  /\ is_int d "rn_bins1" (fst (p_rn p)) /\ is_int d "rn_bins2" (snd (p_rn p)) /\ is_num d "max_DN_val" (p_top p) /\ is_int d "signal_bins_N" (p_bins p).

(** ** Means and deviations that do not pass over NaN *)
Definition mean_all (l : list val) (v : val) : Prop :=
  match v with Some m => exists g, l = map Some g /\ is_mean g m | None => l = [] \/ In None l end.
(** The sample deviation: the divisor is the number less one *)
Definition sample_dev (l : list val) (v : val) : Prop :=
  match v with
  | Some s => 0 <= s /\ exists g m, l = map Some g /\ is_mean g m /\ (2 <= List.length g)%nat
              /\ s ^ 2 * (INR (List.length g) - 1) = fold_right Rplus 0 (map (fun x => (x - m) ^ 2) g)
  | None => In None l \/ (List.length l < 2)%nat
  end.

(** ** Levels of the mean frame.  [groups]: n pixels in groups of w, the last perhaps incomplete *)
Definition groups (n w g : nat) : Prop := (n <= g * w)%nat /\ (g = 0 \/ (g - 1) * w < n)%nat.
Definition lit (m : nat -> nat -> val) (lo hi : R) (p : nat * nat) : Prop := exists x, m (fst p) (snd p) = Some x /\ lo <= x < hi.
(** The value of a cell: mean and deviation of the frame where the mean frame is at the cell's level *)
Definition cell (f : img) (m : nat -> nat -> val) (nr nc : nat) (top : R) (p : nat * nat) (v : val * val) : Prop :=
  let d := top / INR (nr * nc) in let k := (fst p * (nc - 1) + snd p + 1)%nat in
  ((fst p + 1 < nr)%nat /\ (snd p + 1 < nc)%nat
   /\ exists ps, sieve (lit m (INR k * d) ((INR k + 1) * d)) (places f) ps
      /\ (ps = [] /\ v = (Some 0, Some 0)
          \/ ps <> [] /\ mean_of (map (fun q => pix f (fst q) (snd q)) ps) (fst v) /\ spread_of (map (fun q => pix f (fst q) (snd q)) ps) (snd v)))
  \/ ((nr <= fst p + 1)%nat \/ (nc <= snd p + 1)%nat) /\ v = (Some 0, Some 0).
Definition cells (f : img) (m : nat -> nat -> val) (w : nat) (top : R) (t : list (val * val)) : Prop :=
  exists nr nc, groups (rows f) w nr /\ groups (cols f) w nc /\ (1 <= nr * nc)%nat
  /\ Forall2 (cell f m nr nc top) (list_prod (seq 0 (rows f / w)) (seq 0 (cols f / w))) t.

(** ** A set of frames.  The frames used, by their places, and the differences taken between them *)
Definition order (n : nat) : list nat := ([n - 2; n - 3; n - 1; n - 4; n - 5] ++ rev (seq 2 (n - 5)))%nat.
Definition steps (n : nat) : list (nat * nat) := ([(0, 1); (0, 2)] ++ map (fun i => (i, i + 1)) (seq 1 (n - 2)))%nat.
Definition difference (f g : img) : img :=
  mkimg (rows f) (cols f) (fun r c => match pix f r c, pix g r c with Some x, Some y => Some (x - y) | _, _ => None end).
Definition region (b : box) (f : img) : img :=
  mkimg (extent (rows f) (ymin b) (ymax b)) (extent (cols f) (xmin b) (xmax b))
        (fun r c => pix f (start (rows f) (ymin b) + r) (start (cols f) (xmin b) + c)).
Definition everywhere (f : img) : list val := map (fun p => pix f (fst p) (snd p)) (places f).
Definition mean_image (l : list img) (f g : img) : Prop :=
  rows g = rows f /\ cols g = cols f /\ forall r c, mean_all (map (fun h => pix h r c) l) (pix g r c).
Definition ratio (a b v : val) : Prop :=
  match a, b with Some x, Some y => (y <> 0 /\ exists q, v = Some q /\ q * y = x) \/ (y = 0 /\ v = None) | _, _ => v = None end.
Definition times (a b : val) : val := match a, b with Some x, Some y => Some (x * y) | _, _ => None end.
(** Shot noise: the difference of the variances, without its sign *)
Definition shot_of (total read v : val) : Prop :=
  match total, read with Some s, Some r => exists x, v = Some x /\ 0 <= x /\ x ^ 2 = Rabs (s ^ 2 - r ^ 2) | _, _ => v = None end.
Definition root2 (v : val) : val := option_map (fun x => x / sqrt 2) v.

Section Spec.
Variable prescan : img -> list val.
Variable width : Z * Z -> img -> result R.

Definition set_of (p : params) (w : nat) (good : img) (fs : list img) (pts : list (val * val)) (rn : list R) : Prop :=
  exists frames diffs f whole a b k avs devs,
    Forall2 (fun i g => nth_error fs i = Some g) (order (List.length fs)) frames
    /\ Forall2 (fun jk d => exists g h, nth_error frames (fst jk) = Some g /\ nth_error frames (snd jk) = Some h /\ d = difference g h) (steps (List.length fs)) diffs
    /\ Forall2 (fun d x => exists s, width (p_rn p) d = Ok s /\ x * sqrt 2 = s) diffs rn
    /\ nth_error frames 0 = Some f /\ mean_image frames f whole
    /\ mean_all (everywhere (region (p_box p) whole)) a /\ mean_all (everywhere good) b /\ ratio a b k
    /\ Forall2 (fun g av => exists t, cells (region (p_box p) g) (fun r c => times k (pix good r c)) w (p_top p) t /\ av = map fst t) frames avs
    /\ Forall2 (fun d dv => exists t s, cells (region (p_box p) d) (fun r c => times k (pix good r c)) w (p_top p) t
                            /\ sample_dev (prescan d) s /\ Forall2 (fun x v => shot_of (root2 (snd x)) (root2 s) v) t dv) diffs devs
    /\ pts = combine (List.concat avs) (List.concat devs).

(** ** The curve *)
Definition blank : level := mklevel None None None.
Definition between (lo hi : R) (q : val * val) : Prop := exists x, fst q = Some x /\ lo < x < hi.
Definition level_is (pts : list (val * val)) (lo hi : R) (l : level) : Prop :=
  exists s, sieve (between lo hi) pts s
  /\ (s = [] /\ l = blank
      \/ s <> [] /\ mean_all (map fst s) (l_avg l) /\ mean_all (map snd s) (l_dev l)
         /\ exists e, sample_dev (map snd s) e /\ l_err l = option_map (fun x => x / sqrt (INR (List.length s))) e).
Definition ends (lo hi : R) (n k : nat) : R * R :=
  match k with O => (0, lo) | Datatypes.S j => (lo + INR j * ((hi - lo) / INR (n - 1)), lo + INR k * ((hi - lo) / INR (n - 1))) end.
Definition least (xs : list R) (a : R) : Prop := In a xs /\ forall x, In x xs -> a <= x.
Definition greatest (xs : list R) (b : R) : Prop := In b xs /\ forall x, In x xs -> x <= b.
Definition curve_of (pts : list (val * val)) (n : Z) (t : list level) : Prop :=
  pts <> [] /\ (0 <= n)%Z
  /\ ((exists xs a b, map fst pts = map Some xs /\ least xs a /\ greatest xs b
       /\ Forall2 (fun k l => level_is pts (fst (ends a b (Z.to_nat n) k)) (snd (ends a b (Z.to_nat n) k)) l) (seq 0 (Z.to_nat n)) t)
      \/ In None (map fst pts) /\ t = repeat blank (Z.to_nat n)).

(** ** The levels used: above the minimum, and a later one below the maximum *)
Definition usable (lo hi : R) (t : list level) (j : nat) : Prop :=
  exists l a d e, nth_error t j = Some l /\ l_avg l = Some a /\ l_dev l = Some d /\ l_err l = Some e /\ lo < a /\ 0 < d
  /\ exists j' l' b, (j < j')%nat /\ nth_error t j' = Some l' /\ l_avg l' = Some b /\ b < hi.
Definition gains_of (lo hi : R) (t : list level) (ks : list R) : Prop :=
  (exists l a, In l t /\ l_avg l = Some a /\ lo < a) /\ (exists l a, In l t /\ l_avg l = Some a /\ a < hi)
  /\ exists js, sieve (usable lo hi t) (seq 0 (List.length t)) js
     /\ Forall2 (fun j k => exists l a d, nth_error t j = Some l /\ l_avg l = Some a /\ l_dev l = Some d /\ k * d ^ 2 = a) js ks.
(** The averages increase *)
Definition rising (t : list level) : Prop :=
  forall i j l l' a b, (i < j)%nat -> nth_error t i = Some l -> nth_error t j = Some l' -> l_avg l = Some a -> l_avg l' = Some b -> a < b.

(** ** Clipping *)
Definition spread (l : list R) (m s : R) : Prop := is_mean l m /\ 0 <= s /\ is_mean (map (fun x => (x - m) ^ 2) l) (s ^ 2).
Inductive clips (sigma : R) : nat -> list R -> list R -> Prop :=
| clips_end : forall l, clips sigma 0 l l
| clips_none : forall n, clips sigma (Datatypes.S n) [] []
| clips_same : forall n l m s, spread l m s -> (forall x, In x l -> Rabs (x - m) <= sigma * s) -> clips sigma (Datatypes.S n) l l
| clips_some : forall n l m s x l1 l2, spread l m s -> In x l -> sigma * s < Rabs (x - m) ->
    sieve (fun x => Rabs (x - m) <= sigma * s) l l1 -> clips sigma n l1 l2 -> clips sigma (Datatypes.S n) l l2.

(** ** The mode: the middle of the first of the fullest of ten equal bins *)
Definition span_of (l : list R) (a b : R) : Prop :=
  exists x y, least l x /\ greatest l y /\ (x < y /\ a = x /\ b = y \/ x = y /\ a = x - 1 / 2 /\ b = x + 1 / 2).
Definition holds (a b : R) (k : nat) (x : R) : Prop :=
  a + INR k * ((b - a) / 10) <= x /\ (x < a + (INR k + 1) * ((b - a) / 10) \/ k = 9%nat /\ x <= b).
Definition members (a b : R) (l : list R) (k n : nat) : Prop := exists s, sieve (holds a b k) l s /\ List.length s = n.
Definition mode_is (l : list R) (v : R) : Prop :=
  exists a b k n, span_of l a b /\ (k < 10)%nat /\ members a b l k n /\ v = a + (INR k + 1 / 2) * ((b - a) / 10)
  /\ forall j i, (j < 10)%nat -> members a b l j i -> (i <= n)%nat /\ ((j < k)%nat -> (i < n)%nat).

(** ** The whole *)
Definition accepted (sets : list (list img)) (means : list img) (gain : R) (n_cal n_mean : nat) (smin smax sw : setting) (a b w : Z) : Prop :=
  sets <> [] /\ (n_cal <= List.length sets)%nat /\ (forall s, In s sets -> 5 <= List.length s)%nat
  /\ (forall s s', In s sets -> In s' sets -> List.length s = List.length s')
  /\ means <> [] /\ (n_mean <= List.length means)%nat /\ 1 <= gain
  /\ smin = Whole a /\ smax = Whole b /\ sw = Whole w /\ (0 < a < b)%Z /\ (10 <= w <= 800)%Z.
Definition product_of (t : list level) (rn ks : list R) (out : product) : Prop :=
  exists c m r s, clips (5 / 2) 6 ks c /\ mode_is c (k_gain out) /\ spread c m (k_err out)
  /\ k_ptc out = map (fun l => (l_avg l, l_dev l)) t
  /\ spread rn r s /\ k_rn out = r * k_gain out
  /\ 0 <= k_rn_err out /\ (k_rn_err out) ^ 2 = (k_gain out * s) ^ 2 + (r * k_err out) ^ 2.
Definition calibrated (d : string -> option setting) (sets : list (list img)) (means : list img) (gain : R) (n_cal n_mean : nat)
    (smin smax sw : setting) (out : product) : Prop :=
  exists p a b w m good per t ks pts rn,
    reads_as d p /\ accepted sets means gain n_cal n_mean smin smax sw a b w
    /\ nth_error means 0 = Some m /\ mean_image means m good
    /\ Forall2 (fun fs q => set_of p (Z.to_nat w) (region (p_box p) good) fs (fst q) (snd q)) sets per
    /\ curve_of (List.concat (map fst per)) (p_bins p) t
    /\ gains_of (IZR a) (IZR b) t ks
    /\ nth_error per (List.length sets - 1) = Some (pts, rn)
    /\ product_of t rn ks out.
(** All frames have one shape *)
Definition one_shape (sets : list (list img)) (means : list img) (h w : nat) : Prop :=
  (forall s f, In s sets -> In f s -> rows f = h /\ cols f = w) /\ forall f, In f means -> rows f = h /\ cols f = w.
End Spec.
