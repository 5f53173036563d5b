(** Specification of the flux ratio noise curve. *)
From Coq Require Import List Arith Bool Reals ZArith Sorted Permutation.
From Verif Require Import Base NearSpec CombineModel FlatModel FlatSpec ThruSpec FrnModel.
Import ListNotations.
Local Open Scope R_scope.

Definition times (a b : val) : val := match a, b with Some x, Some y => Some (x * y) | _, _ => None end.

(** ** Reading a table at [x]: the line through the two neighbours, beyond the ends the outermost line *)
Definition on_line (a b : R * val) (x : R) (v : val) : Prop :=
  match snd a, snd b with
  | Some p, Some q => exists y, v = Some y /\ (y - p) * (fst b - fst a) = (q - p) * (x - fst a)
  | _, _ => v = None
  end.
Definition reads (xs : list R) (ys : list val) (x : R) (v : val) : Prop :=
  exists pre a b post, Permutation (pre ++ a :: b :: post) (combine xs ys)
  /\ StronglySorted (fun p q => fst p < fst q) (pre ++ a :: b :: post)
  /\ (pre = [] \/ fst a < x) /\ (post = [] \/ x <= fst b) /\ on_line a b x v.

(** ** The half-width *)
Definition least_gap (l : list R) (g : R) : Prop :=
  (exists pre a b post, l = pre ++ a :: b :: post /\ g = b - a) /\ forall pre a b post, l = pre ++ a :: b :: post -> g <= b - a.
Definition half_of (ct kl : list R) (h : R) : Prop := exists g g', least_gap ct g /\ least_gap kl g' /\ h = Rmin g g' / 2.

(** ** The star *)
Definition before (p q : nat * nat) : Prop := (fst p < fst q)%nat \/ fst p = fst q /\ (snd p < snd q)%nat.
(** The first of the brightest pixels; no NaN *)
Definition brightest (f : img) (p : nat * nat) : Prop :=
  (fst p < rows f)%nat /\ (snd p < cols f)%nat
  /\ forall q, (fst q < rows f)%nat -> (snd q < cols f)%nat ->
     exists x y, pix f (fst p) (snd p) = Some x /\ pix f (fst q) (snd q) = Some y /\ y <= x /\ (before q p -> y < x).
(** [o]: the largest odd number up to [n] *)
Definition trimmed (n o : nat) : Prop := Nat.Odd o /\ (n = o \/ n = o + 1)%nat.
Definition inside (o : nat) (z : Z) : Prop := (- Z.of_nat o <= z < Z.of_nat o)%Z.
Definition located (f : img) (i : nat) (given : option (list num * list num)) (r c : Z) : Prop :=
  match given with
  | None => exists p, brightest f p /\ r = Z.of_nat (fst p) /\ c = Z.of_nat (snd p)
  | Some (a, b) => nth_error a i = Some (I r) /\ nth_error b i = Some (I c)
  end.

(** ** One value: the flux of a Gaussian as high as the noise, relative to that of the star, corrected for both throughputs *)
Definition value_of (cen : R * R) (hw : R) (kl : list R) (ct : list R * list val) (flux : val) (f : img) (tab : list (val * val)) (sep : R) (v : val) : Prop :=
  exists n w tp c, noise_of cen hw [] f sep n /\ reads kl (map snd tab) sep w /\ reads kl (map fst tab) sep tp /\ reads (fst ct) (snd ct) sep c
  /\ v = over (over (volume (n, w)) flux) (times tp c).
(** Image [j] and row [j] of the throughput; one image serves all rows and one row all images *)
Definition matched {A B} (l : list A) (m : list B) (n j : nat) (a : A) (b : B) : Prop :=
  (nth_error l j = Some a /\ List.length l = n \/ l = [a]) /\ (nth_error m j = Some b /\ List.length m = n \/ m = [b]).
Definition rows_fit {A B} (l : list A) (m : list B) (n : nat) : Prop :=
  List.length l = n /\ List.length m = n \/ List.length l = 1%nat /\ List.length m = n \/ List.length m = 1%nat /\ List.length l = n.

Section Spec.
Variable S : Type.
Variable star : S -> img.
Variable gauss : S -> nat * nat -> R * R -> result (list (R * R * val)).
Variable od : R -> R -> val.

(** The source found nearest to the start, its flux times the entry of the ND calibration *)
Definition flux_of (s : S) (i : nat) (given : option (list num * list num)) (v : val) : Prop :=
  exists r c nr nc found k x y fl,
    located (star s) i given r c /\ trimmed (rows (star s)) nr /\ trimmed (cols (star s)) nc /\ inside nr r /\ inside nc c
    /\ gauss s (nr, nc) (IZR r, IZR c) = Ok found
    /\ nearest_of (fun q => distance (fst q) (IZR c, IZR r)) found k (x, y, fl)
    /\ v = times (od x y) fl.

(** The curve of one frame: separations in pixels and in mas, one row for each KL mode *)
Definition curve_of (i : nat) (f : frame) (s : S) (given : option (list num * list num)) (req : list R) (hw : R) (out : list R * list R * list (list val)) : Prop :=
  exists plate kl ct cx cy flux,
    f_plate f = Some plate /\ f_kl f = Some kl /\ f_ct f = Some ct /\ f_cen f = (Some cx, Some cy)
    /\ (2 <= List.length (fst kl))%nat /\ (2 <= List.length (fst ct))%nat
    /\ flux_of s i given flux
    /\ fst (fst out) = req /\ Forall2 (fun x y => y = x * plate) req (snd (fst out))
    /\ rows_fit (f_cube f) (snd kl) (List.length (snd out))
    /\ forall j row, nth_error (snd out) j = Some row ->
       exists im tab, matched (f_cube f) (snd kl) (List.length (snd out)) j im tab
       /\ Forall2 (value_of (cx, cy) hw (fst kl) ct flux im tab) req row.

(** All frames with the separations and the half-width given or else taken from the first frame *)
Definition curves_of (frames : list frame) (stars : list S) (given : option (list num * list num)) (req : option (list R)) (hw : option R)
    (outs : list (list R * list R * list (list val))) : Prop :=
  List.length frames = List.length stars /\ List.length outs = List.length frames
  /\ exists r h,
     (forall f, hd_error frames = Some f -> exists kl ct, f_kl f = Some kl /\ f_ct f = Some ct
        /\ (req = Some r \/ req = None /\ r = fst kl) /\ (hw = Some h \/ hw = None /\ half_of (fst ct) (fst kl) h) /\ 0 < h)
     /\ forall i f s out, nth_error frames i = Some f -> nth_error stars i = Some s -> nth_error outs i = Some out -> curve_of i f s given r h out.
(** What a frame and its star must have *)
Definition complete (i : nat) (f : frame) (s : S) (given : option (list num * list num)) : Prop :=
  exists plate kl ct cx cy flux n, f_plate f = Some plate /\ f_kl f = Some kl /\ f_ct f = Some ct /\ f_cen f = (Some cx, Some cy)
    /\ (2 <= List.length (fst kl))%nat /\ (2 <= List.length (fst ct))%nat /\ flux_of s i given flux /\ rows_fit (f_cube f) (snd kl) n.
End Spec.

(** A half-width that is given is positive; else the separations of both tables of the first frame are ascending *)
Definition chosen_settings (frames : list frame) (hw : option R) : Prop :=
  exists f kl ct, hd_error frames = Some f /\ f_kl f = Some kl /\ f_ct f = Some ct
  /\ match hw with Some h => 0 < h | None => StronglySorted Rlt (fst kl) /\ StronglySorted Rlt (fst ct) end.
(** The positions from number [i] on *)
Definition later (i : nat) (given : option (list num * list num)) : option (list num * list num) := option_map (fun p => (skipn i (fst p), skipn i (snd p))) given.

(** The tables of a frame: different separations, rows of the same length *)
Definition tidy (f : frame) : Prop :=
  (forall kl, f_kl f = Some kl -> NoDup (fst kl) /\ forall tab, In tab (snd kl) -> List.length tab = List.length (fst kl))
  /\ forall ct, f_ct f = Some ct -> NoDup (fst ct) /\ List.length (snd ct) = List.length (fst ct).
