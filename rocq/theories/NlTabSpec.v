(** What the table of nonlinearity is. *)
From Coq Require Import List Arith Bool Reals ZArith String.
From Verif Require Import Base CombineModel ComboSpec FlatModel FlatSpec CtModel CtSpec NlTabModel.
Import ListNotations.
Local Open Scope R_scope.

(** ** Settings *)
Inductive counts_as : num -> val -> Prop := counts_int : forall z, counts_as (NInt z) (Some (IZR z)) | counts_float : forall v, counts_as (NFloat v) v.
Definition numeric (n : num) : Prop := exists v, counts_as n v.
Definition named (k : string) : Prop :=
  In k ["rowroi1"; "rowroi2"; "colroi1"; "colroi2"; "rowback11"; "rowback12"; "rowback21"; "rowback22"; "colback11"; "colback12"; "colback21"; "colback22";
        "min_exp_time"; "num_bins"; "min_bin"; "min_mask_factor"]%string.
Definition all_named (d : string -> option num) : Prop := forall k, named k -> exists v, d k = Some v.
Definition all_numeric (d : string -> option num) : Prop := forall k v, named k -> d k = Some v -> numeric v.
(** Comparisons: neither holds with a NaN *)
Definition less (a b : val) : Prop := exists x y, a = Some x /\ b = Some y /\ x < y.
Definition atmost (a b : val) : Prop := exists x y, a = Some x /\ b = Some y /\ x <= y.
(** The checks, in their order *)
Definition norm_ok (o : nopts) (z : Z) : Prop := n_norm o = NInt z /\ (0 < z)%Z.
Definition step_ok (z : Z) : Prop := exists k, z = (20 * k)%Z.
Definition above_zero (n : num) : Prop := exists v, counts_as n v /\ ~ atmost v (Some 0).
Definition not_negative (n : num) : Prop := exists v, counts_as n v /\ ~ less v (Some 0).
Definition limits_ok (o : nopts) : Prop := above_zero (n_min o) /\ above_zero (n_max o).
Definition between_ok (o : nopts) (z : Z) : Prop :=
  forall a b, counts_as (n_min o) a -> counts_as (n_max o) b -> ~ atmost b a /\ ~ less (Some (IZR z)) a /\ ~ less b (Some (IZR z)).
Definition errors_ok (o : nopts) : Prop := not_negative (n_low o) /\ not_negative (n_upp o).
Definition ordered_ok (o : nopts) : Prop := forall a b, counts_as (n_low o) a -> counts_as (n_upp o) b -> ~ atmost b a.
Definition rest_ok (o : nopts) : Prop := Forall numeric [n_frac o; n_up1 o; n_up2 o; n_lo1 o; n_lo2 o].
Definition valid (o : nopts) (z : Z) : Prop := norm_ok o z /\ step_ok z /\ limits_ok o /\ between_ok o z /\ errors_ok o /\ ordered_ok o /\ rest_ok o.
Definition invalid (o : nopts) (e : exn) : Prop :=
  ((forall z, ~ norm_ok o z) /\ e = TypeError) \/
  exists z, norm_ok o z /\
    ((~ step_ok z /\ e = PyException) \/
     (step_ok z /\ ~ limits_ok o /\ e = TypeError) \/
     (step_ok z /\ limits_ok o /\ ~ between_ok o z /\ e = PyException) \/
     (step_ok z /\ limits_ok o /\ between_ok o z /\ ~ errors_ok o /\ e = TypeError) \/
     (step_ok z /\ limits_ok o /\ between_ok o z /\ errors_ok o /\ ~ ordered_ok o /\ e = PyException) \/
     (step_ok z /\ limits_ok o /\ between_ok o z /\ errors_ok o /\ ordered_ok o /\ ~ rest_ok o /\ e = TypeError)).

(** ** Regions *)
Definition bounds (d : string -> option num) (a b : string) (r : nat * nat) : Prop := d a = Some (NInt (Z.of_nat (fst r))) /\ d b = Some (NInt (Z.of_nat (snd r))).
Definition set_out (d : string -> option num) (g : regs) : Prop :=
  (bounds d "rowroi1" "rowroi2" (g_row g) /\ bounds d "colroi1" "colroi2" (g_col g) /\ bounds d "rowback11" "rowback12" (g_row1 g) /\
   bounds d "rowback21" "rowback22" (g_row2 g) /\ bounds d "colback11" "colback12" (g_col1 g) /\ bounds d "colback21" "colback22" (g_col2 g))%string.
Definition edge (k : string) : Prop :=
  In k ["rowroi1"; "rowroi2"; "colroi1"; "colroi2"; "rowback11"; "rowback12"; "rowback21"; "rowback22"; "colback11"; "colback12"; "colback21"; "colback22"]%string.
Definition no_negative (d : string -> option num) : Prop := forall k z, edge k -> d k = Some (NInt z) -> (0 <= z)%Z.
Definition not_whole (d : string -> option num) : Prop := exists k, edge k /\ forall z, d k <> Some (NInt z).
Definition lies_in (r c : nat * nat) (p : nat * nat) : Prop := (fst r <= fst p < snd r)%nat /\ (fst c <= snd p < snd c)%nat.
Definition empty (r : nat * nat) : Prop := (snd r <= fst r)%nat.

(** ** The mask *)
Definition average (l : list val) (v : val) : Prop := exists s, total l s /\ v = quot s (Some (INR (List.length l))).
Definition mean_image (l : list img) (f : img) : Prop :=
  exists g t, l = g :: t /\ rows f = rows g /\ cols f = cols g /\ forall i j, average (map (fun h => pix h i j) l) (pix f i j).
Definition first_most (P : R * nat -> Prop) (l : list (R * nat)) (b : R * nat) : Prop :=
  exists u w, l = u ++ b :: w /\ P b /\ (forall x, In x u -> P x -> (snd x < snd b)%nat) /\ forall x, In x w -> P x -> (snd x <= snd b)%nat.
Definition first_least (P : R * nat -> Prop) (l : list (R * nat)) (b : R * nat) : Prop :=
  exists u w, l = u ++ b :: w /\ P b /\ (forall x, In x u -> P x -> (snd b < snd x)%nat) /\ forall x, In x w -> P x -> (snd b <= snd x)%nat.
(** The first of the emptiest bins between the least one allowed and the first of the fullest *)
Definition valley (bins : list (R * nat)) (least factor t : val) : Prop :=
  exists m b, first_most (fun x => atmost least (Some (fst x))) bins m /\ first_least (fun x => atmost least (Some (fst x)) /\ fst x <= fst m) bins b /\ t = prod factor (Some (fst b)).
Section Mask.
  Variable hist : list val -> num -> result (list (R * nat)).
  Definition inside_roi (g : regs) (f : img) : Prop := ~ empty (g_row g) /\ ~ empty (g_col g) /\ (snd (g_row g) <= rows f)%nat /\ (snd (g_col g) <= cols f)%nat.
  Definition masked (d : string -> option num) (g : regs) (l : list img) (m : nat -> nat -> bool) : Prop :=
    exists f ps nb mb fa vb vf bins t, mean_image l f /\ inside_roi g f /\ sieve (lies_in (g_row g) (g_col g)) (places f) ps /\
      (d "num_bins" = Some nb /\ d "min_bin" = Some mb /\ d "min_mask_factor" = Some fa)%string /\ counts_as mb vb /\ counts_as fa vf /\
      hist (map (value_of f) ps) nb = Ok bins /\ valley bins vb vf t /\ forall i j, m i j = true <-> ~ less (pix f i j) t.
  Definition unmasked (d : string -> option num) (g : regs) (l : list img) (e : exn) : Prop :=
    (l = [] /\ e = IndexError) \/
    exists f, mean_image l f /\
      ((~ inside_roi g f /\ e = IndexError) \/
       (inside_roi g f /\ exists ps nb, sieve (lies_in (g_row g) (g_col g)) (places f) ps /\ d "num_bins"%string = Some nb /\
          (hist (map (value_of f) ps) nb = Raise e \/
           exists bins mb vb, hist (map (value_of f) ps) nb = Ok bins /\ d "min_bin"%string = Some mb /\ counts_as mb vb /\ (forall b, In b bins -> ~ atmost vb (Some (fst b))) /\ e = ValueError))).
End Mask.

(** ** The signal of a frame *)
Definition minus (a b : val) : val := match a, b with Some x, Some y => Some (x - y) | _, _ => None end.
Definition plus (a b : val) : val := match a, b with Some x, Some y => Some (x + y) | _, _ => None end.
Definition region_mean (f : img) (r c : nat * nat) (v : val) : Prop := exists ps, sieve (lies_in r c) (places f) ps /\ average (map (value_of f) ps) v.
Definition lit_signal (m : nat -> nat -> bool) (r1 c1 r2 c2 : nat * nat) (f : img) (v : val) : Prop :=
  exists b1 b2 b ps, region_mean f r1 c1 b1 /\ region_mean f r2 c2 b2 /\ b = quot (plus b1 b2) (Some 2) /\
    sieve (fun p => m (fst p) (snd p) = true /\ less b (value_of f p)) (places f) ps /\
    ((ps = [] /\ v = None) \/ (ps <> [] /\ average (map (fun p => minus (value_of f p) b) ps) v)).
Definition some_empty (r1 c1 r2 c2 : nat * nat) : Prop := empty r1 \/ empty c1 \/ empty r2 \/ empty c2.

(** ** The column of a gain *)
Inductive each3 {A B C} (P : A -> B -> C -> Prop) : list A -> list B -> list C -> Prop :=
| each3_nil : each3 P [] [] []
| each3_cons : forall a b c l m n, P a b c -> each3 P l m n -> each3 P (a :: l) (b :: m) (c :: n).
Definition on_line (p : val * val) (t : R) : val := plus (prod (fst p) (Some t)) (snd p).
Definition misfit (ts : list R) (ys : list val) (p : val * val) (e : val) : Prop :=
  exists rs s, each3 (fun t y r => r = option_map Rabs (quot (minus y (on_line p t)) y)) ts ys rs /\ average (map (fun r => prod r r) rs) s /\ e = option_map sqrt s.
(** Python's l[i:j] *)
Definition place_in (n k : Z) (i : Z) : Prop := ((0 <= k)%Z /\ i = Z.min k n) \/ ((k < 0)%Z /\ i = Z.max 0 (k + n)).
Definition segment {A} (i j : Z) (l m : list A) : Prop :=
  exists a b, place_in (Z.of_nat (List.length l)) i a /\ place_in (Z.of_nat (List.length l)) j b /\
    (((b <= a)%Z /\ m = []) \/ ((a < b)%Z /\ exists u w, l = u ++ m ++ w /\ Z.of_nat (List.length u) = a /\ Z.of_nat (List.length m) = (b - a)%Z)).
Definition gridded (c : Z) : Prop := exists k, (1 <= k <= 700)%Z /\ c = (20 * k)%Z.
Definition steps : list Z := map (fun k => (20 * (Z.of_nat k + 1))%Z) (seq 0 (Z.to_nat 700)).
Inductive cutting := Whole | First | Second.
Definition cutting_of (o : nopts) (e : val) (c : cutting) : Prop :=
  exists a b, counts_as (n_low o) a /\ counts_as (n_upp o) b /\
    match c with Whole => less e a | First => atmost a e /\ less e b | Second => ~ less e a /\ ~ (atmost a e /\ less e b) end.
Definition cut_by (o : nopts) (c : cutting) {X} (l m : list X) : Prop :=
  match c with
  | Whole => m = l
  | First => exists i j, n_lo1 o = NInt i /\ n_up1 o = NInt j /\ segment i j l m
  | Second => exists i j, n_lo2 o = NInt i /\ n_up2 o = NInt j /\ segment i j l m
  end.
Definition uncut (o : nopts) (c : cutting) : Prop :=
  match c with
  | Whole => False
  | First => ~ exists i j, n_lo1 o = NInt i /\ n_up1 o = NInt j
  | Second => ~ exists i j, n_lo2 o = NInt i /\ n_up2 o = NInt j
  end.
Section Column.
  Variable fit : list R -> list val -> result (val * val).
  Variable lowess : num -> list val -> list val -> result (list val).
  Variable interp : list val -> list val -> result (R -> val).
  Definition refitted (o : nopts) (ts : list R) (ys : list val) (r : result (val * val)) : Prop :=
    exists p e c ts' ys', fit ts ys = Ok p /\ misfit ts ys p e /\ cutting_of o e c /\ cut_by o c ts ts' /\ cut_by o c ys ys' /\ r = fit ts' ys'.
  Definition smoothed (o : nopts) (ts : list R) (ys : list val) (r : result (list val)) : Prop :=
    exists p gs, refitted o ts ys (Ok p) /\ each3 (fun t y g => g = quot y (on_line p t)) ts ys gs /\ r = lowess (n_frac o) gs ys.
  Definition gains_of (o : nopts) (ts : list R) (ys : list val) (f : R -> val) : Prop :=
    List.length ts = List.length ys /\ ys <> [] /\ exists sm, smoothed o ts ys (Ok sm) /\ interp ys sm = Ok f.
  (** One over the gain, relative to the gain at the count of the norm *)
  Definition corrections (o : nopts) (z : Z) (ts : list R) (ys : list val) (F : R -> val) : Prop :=
    gridded z /\ exists f, gains_of o ts ys f /\ forall c, F c = quot (Some 1) (quot (f c) (f (IZR z))).
  Definition no_column (o : nopts) (z : Z) (ts : list R) (ys : list val) (e : exn) : Prop :=
    (List.length ts <> List.length ys /\ e = TypeError) \/
    (List.length ts = List.length ys /\
      (fit ts ys = Raise e \/
       (exists p m c, fit ts ys = Ok p /\ misfit ts ys p m /\ cutting_of o m c /\ uncut o c /\ e = TypeError) \/
       refitted o ts ys (Raise e) \/ smoothed o ts ys (Raise e) \/
       exists sm, smoothed o ts ys (Ok sm) /\ ((ys = [] /\ e = ValueError) \/ (ys <> [] /\ (interp ys sm = Raise e \/ (exists f, interp ys sm = Ok f) /\ ~ gridded z /\ e = IndexError))))).
End Column.

(** ** The whole *)
Section All.
  Variable hist : list val -> num -> result (list (R * nat)).
  Variable fit : list R -> list val -> result (val * val).
  Variable lowess : num -> list val -> list val -> result (list val).
  Variable interp : list val -> list val -> result (R -> val).
  Variable drift : list (R * R * val) -> result (list R * list val).
  Definition signals (m : nat -> nat -> bool) (g : regs) (fs : list (R * R * img)) (sg : list (R * R * val)) : Prop :=
    Forall2 (fun f s => fst s = fst f /\ lit_signal m (g_row1 g) (g_col1 g) (g_row2 g) (g_col2 g) (snd f) (snd s)) fs sg.
  Definition column_for (o : nopts) (z : Z) (m : nat -> nat -> bool) (g : regs) (fs : list (R * R * img)) (F : R -> val) : Prop :=
    (fs <> [] -> ~ some_empty (g_row1 g) (g_col1 g) (g_row2 g) (g_col2 g)) /\
    exists sg ts ys, signals m g fs sg /\ drift sg = Ok (ts, ys) /\ corrections fit lowess interp o z ts ys F.
  Definition no_column_for (o : nopts) (z : Z) (m : nat -> nat -> bool) (g : regs) (fs : list (R * R * img)) (e : exn) : Prop :=
    (fs <> [] /\ some_empty (g_row1 g) (g_col1 g) (g_row2 g) (g_col2 g) /\ e = IndexError) \/
    ((fs <> [] -> ~ some_empty (g_row1 g) (g_col1 g) (g_row2 g) (g_col2 g)) /\ exists sg, signals m g fs sg /\ (drift sg = Raise e \/ exists ts ys, drift sg = Ok (ts, ys) /\ no_column fit lowess interp o z ts ys e)).
  Definition within (o : nopts) (c : Z) : Prop := exists a b, counts_as (n_min o) a /\ counts_as (n_max o) b /\ atmost a (Some (IZR c)) /\ atmost (Some (IZR c)) b.
  (** A row of gains, then a row for every count within the limits *)
  Definition rows_of (o : nopts) (gains : list R) (Fs : list (R -> val)) (T : list (list val)) : Prop :=
    exists cs, sieve (within o) steps cs /\ T = (None :: map Some gains) :: map (fun c => Some (IZR c) :: map (fun F => F (IZR c)) Fs) cs.
  Definition tabulated (d : string -> option num) (o : nopts) (means : list img) (sets : list (R * list (R * R * img))) (T : list (list val)) : Prop :=
    all_named d /\ all_numeric d /\ sets <> [] /\ exists z g m Fs, valid o z /\ set_out d g /\ masked hist d g means m /\
      Forall2 (fun s F => column_for o z m g (snd s) F) sets Fs /\ rows_of o (map fst sets) Fs T.
  Definition not_tabulated (d : string -> option num) (o : nopts) (means : list img) (sets : list (R * list (R * R * img))) (e : exn) : Prop :=
    (~ all_named d /\ e = ValueError) \/
    (all_named d /\ ~ all_numeric d /\ e = TypeError) \/
    (all_named d /\ all_numeric d /\
      ((sets = [] /\ e = PyException) \/
       (sets <> [] /\
         (invalid o e \/
          exists z, valid o z /\
            ((not_whole d /\ e = TypeError) \/
             exists g, set_out d g /\
               (unmasked hist d g means e \/
                exists m, masked hist d g means m /\
                  exists s u w Fs, sets = u ++ s :: w /\ Forall2 (fun s F => column_for o z m g (snd s) F) u Fs /\ no_column_for o z m g (snd s) e)))))).
End All.

(** ** Laws *)
(** The row of a count *)
Definition row_for (T : list (list val)) (c : Z) (vs : list val) : Prop := In (Some (IZR c) :: vs) (tl T).
(** The limits are numbers *)
Definition limits_known (o : nopts) : Prop := exists a b, counts_as (n_min o) (Some a) /\ counts_as (n_max o) (Some b).
Definition one_or_none (v : val) : Prop := v = Some 1 \/ v = None.
(** Settings but for the norm *)
Definition same_but_norm (o o' : nopts) : Prop :=
  n_min o' = n_min o /\ n_max o' = n_max o /\ n_frac o' = n_frac o /\ n_low o' = n_low o /\ n_upp o' = n_upp o /\
  n_up1 o' = n_up1 o /\ n_up2 o' = n_up2 o /\ n_lo1 o' = n_lo1 o /\ n_lo2 o' = n_lo2 o.
(** Points on a line, that has no root among them *)
Definition through (p : val * val) (ts : list R) (ys : list val) : Prop := Forall2 (fun t y => exists v, v <> 0 /\ y = Some v /\ on_line p t = Some v) ts ys.
Definition linear (ts : list R) (ys : list val) : Prop := exists p, through p ts ys.
Definition ones (l : list val) : Prop := Forall (fun v => v = Some 1) l.
Section Ideal.
  Variable fit : list R -> list val -> result (val * val).
  Variable lowess : num -> list val -> list val -> result (list val).
  Variable interp : list val -> list val -> result (R -> val).
  (** The fit finds a line through the points if there is one; neither smoothing nor interpolation changes a gain of 1 everywhere *)
  Definition ideal : Prop :=
    (forall ts ys, linear ts ys -> exists p, fit ts ys = Ok p /\ through p ts ys) /\
    (forall n gs ys, ones gs -> exists r, lowess n gs ys = Ok r /\ ones r) /\
    (forall ys gs f, ones gs -> interp ys gs = Ok f -> forall c, f c = Some 1).
End Ideal.

(** ** A small case *)
(** Regions of one pixel, a mask that keeps it, two exposures *)
Definition d0 (k : string) : option num :=
  if existsb (String.eqb k) ["rowroi1"; "colroi1"; "rowback11"; "rowback21"; "colback11"; "colback21"; "min_bin"]%string then Some (NInt 0) else Some (NInt 1).
Definition frame0 : img := mkimg 1 1 (fun _ _ => Some 100).
Definition sets0 : list (R * list (R * R * img)) := [(1, [(1, 0, frame0)])].
Definition hist0 (l : list val) (n : num) : result (list (R * nat)) := Ok [(0, 1%nat)].
Definition drift0 (l : list (R * R * val)) : result (list R * list val) := Ok ([1; 2], [Some 40; Some 20]).
Definition fit0 (ts : list R) (ys : list val) : result (val * val) := Ok (Some 20, Some 0).
(** Smoothing that changes nothing, and gives the gains in the order of the signals as lowess does *)
Definition lowess0 (n : num) (gs ys : list val) : result (list val) :=
  match gs, ys with
  | [a; b], [Some x; Some y] => Ok (if Rlt_dec y x then [b; a] else [a; b])
  | _, _ => Ok gs
  end.
(** Interpolation that is right at the nodes *)
Definition interp0 (ys vs : list val) : result (R -> val) :=
  match ys, vs with
  | [Some x; Some y], [a; b] => Ok (fun c => if Req_EM_T c x then a else if Req_EM_T c y then b else a)
  | _, _ => Raise ValueError
  end.
Definition o0 (z : Z) (lo up : num) : nopts := mknopts (NInt z) lo up (NFloat (Some (1 / 10))) (NFloat (Some 1)) (NFloat (Some 2)) (NInt 2) (NInt 2) (NInt 0) (NInt 0).
Definition table0 (d : string -> option num) (o : nopts) : result (list (list val)) := calibrate_nonlin hist0 fit0 lowess0 interp0 drift0 d o [frame0] sets0.
(** As before, with a float for a row *)
Definition d1 (k : string) : option num := if String.eqb k "rowroi1" then Some (NFloat (Some 0)) else d0 k.
(** A linear detector, and tools that find it so *)
Fixpoint slope (t y : R) (ts : list R) (ys : list val) : R :=
  match ts, ys with t' :: ts, Some y' :: ys => if Req_EM_T t' t then slope t y ts ys else (y' - y) / (t' - t) | _, _ => 0 end.
Definition fit1 (ts : list R) (ys : list val) : result (val * val) :=
  match ts, ys with t :: ts, Some y :: ys => Ok (Some (slope t y ts ys), Some (y - slope t y ts ys * t)) | _, _ => Ok (Some 0, Some 0) end.
Definition lowess1 (n : num) (gs ys : list val) : result (list val) := Ok gs.
Definition interp1 (ys gs : list val) : result (R -> val) := Ok (fun _ => hd (Some 1) gs).
Definition drift1 (l : list (R * R * val)) : result (list R * list val) := Ok ([1; 2], [Some 20; Some 40]).
