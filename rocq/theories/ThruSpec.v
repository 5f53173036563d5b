(** Specification of the throughput of the PSF subtraction.

    A pixel is (row, column), a point (x, y), a place (separation, position angle in degrees from +y towards -x). *)
From Coq Require Import List Arith Bool Reals ZArith String Sorted Permutation.
From Verif Require Import Base CombineModel CombineSpec ComboSpec FlatModel FlatSpec ThruModel.
Import ListNotations.
Local Open Scope R_scope.

(** ** The noise *)
Definition point_of (cen : R * R) (l : R * R) : R * R :=
  (fst cen - fst l * sin (snd l * PI / 180), snd cen + fst l * cos (snd l * PI / 180)).
Definition distance (p q : R * R) : R := sqrt ((fst p - fst q) ^ 2 + (snd p - snd q) ^ 2).
Definition at_pixel (p : nat * nat) : R * R := (INR (snd p), INR (fst p)).
Definition in_ring (cen : R * R) (hw sep : R) (cands : list (R * R)) (p : nat * nat) : Prop :=
  sep - hw < distance (at_pixel p) cen < sep + hw /\ forall c, In c cands -> 5 * hw < distance (at_pixel p) (point_of cen c).
(** The population standard deviation of the numbers among [l] *)
Definition spread_of (l : list val) (v : val) : Prop :=
  match v with
  | Some s => 0 <= s /\ exists m, is_mean (somes l) m /\ is_mean (map (fun x => (x - m) ^ 2) (somes l)) (s ^ 2)
  | None => somes l = []
  end.
Definition noise_of (cen : R * R) (hw : R) (cands : list (R * R)) (f : img) (sep : R) (v : val) : Prop :=
  exists ps, sieve (in_ring cen hw sep cands) (places f) ps /\ spread_of (map (fun p => pix f (fst p) (snd p)) ps) v.

(** ** The pattern of the injections: at the separation number i the angles are turned by i times a third of their mean spacing *)
Definition turned (a b : R) : Prop := 0 <= b < 360 /\ exists z : Z, b = a + 360 * IZR z.
Definition target := ((R * R) * val)%type.
Definition row_of (snr : R) (pas : list R) (i : nat) (s : R * val) (row : list target) : Prop :=
  Forall2 (fun pa t => fst (fst t) = fst s /\ turned (pa + INR i * (120 / INR (List.length pas))) (snd (fst t))
                       /\ snd t = option_map (fun x => x * snr) (snd s)) pas row.
Definition grid_of (snr : R) (pas : list R) (seps : list (R * val)) (g : list target) : Prop :=
  exists rows, g = List.concat rows /\ List.length rows = List.length seps
  /\ forall i s row, nth_error seps i = Some s -> nth_error rows i = Some row -> row_of snr pas i s row.
(** Far enough from the known sources, wherever the centre is *)
Definition free (res : R) (cands : list (R * R)) (t : target) : Prop :=
  forall c, In c cands -> res <= distance (point_of (0, 0) c) (point_of (0, 0) (fst t)).
Definition targets (snr res : R) (cands : list (R * R)) (pas : list R) (seps : list (R * val)) (ts : list target) : Prop :=
  exists g, grid_of snr pas seps g /\ sieve (free res cands) g ts.

Section Spec.
Variable F : Type.
Variable roll_of : F -> option R.
Variable inject : F -> val -> R * R -> result (F * img).
Variable K : Type.
Variable klip : K -> list F -> result (img * (R * R)).
Variable fit : img -> R * R -> R -> val -> val * val.

(** One injection after the other *)
Inductive chain : F -> list target -> F -> list placed -> Prop :=
| chain_nil : forall f, chain f [] f []
| chain_cons : forall f l v f1 m ts f2 ds, inject f v l = Ok (f1, m) -> chain f1 ts f2 ds -> chain f ((l, v) :: ts) f2 (mkplaced l v m :: ds).

(** ** The background *)
Definition clipped (l m : list val) : Prop :=
  (somes l = [] /\ m = l) \/
  exists s x, spread_of l (Some s) /\ is_median (somes l) x
  /\ Forall2 (fun a b => forall y, b = Some y <-> a = Some y /\ Rabs (y - x) <= 3 * s) l m.
Inductive rounds : nat -> list val -> list val -> Prop :=
| rounds_0 : forall l, rounds 0 l l
| rounds_S : forall n l m k, clipped l m -> rounds n m k -> rounds (S n) l k.
Definition level_of (f : img) (b : val) : Prop :=
  exists l, rounds 5 (map (fun p => pix f (fst p) (snd p)) (places f)) l /\ median_of l b.

(** ** The arrays compared *)
(** The model in the middle of zeros *)
Definition framed (m f : img) : Prop :=
  let n := rows m in
  cols m = n /\ rows f = (2 * n + 1)%nat /\ cols f = (2 * n + 1)%nat
  /\ forall r c, pix f r c = if Nat.ltb r (n - n / 2) then Some 0 else if Nat.leb (2 * n - n / 2) r then Some 0
                             else if Nat.ltb c (n - n / 2) then Some 0 else if Nat.leb (2 * n - n / 2) c then Some 0
                             else pix m (r - (n - n / 2)) (c - (n - n / 2)).
(** The 2n+1 indices around [c] of an axis of length [N] can be taken: they overlap with it or touch it, or are as far as this from it *)
Definition takes (n N : nat) (c : Z) : Prop :=
  let n := Z.of_nat n in let N := Z.of_nat N in
  (c - n <= N /\ 0 <= c + n + 1 \/ N + 2 * n + 1 <= c - n \/ c + n + 1 <= 1 - N)%Z.
(** The square of 2n+1 pixels around one, NaN outside of the data *)
Definition surroundings (n : nat) (d : img) (cy cx : Z) (f : img) : Prop :=
  rows f = (2 * n + 1)%nat /\ cols f = (2 * n + 1)%nat
  /\ forall r c,
     let y := (cy - Z.of_nat n + Z.of_nat r)%Z in let x := (cx - Z.of_nat n + Z.of_nat c)%Z in
     let covered := (r < 2 * n + 1 /\ c < 2 * n + 1)%nat /\ (0 <= y < Z.of_nat (rows d))%Z /\ (0 <= x < Z.of_nat (cols d))%Z in
     (covered -> pix f r c = pix d (Z.to_nat y) (Z.to_nat x)) /\ (~ covered -> pix f r c = None).
(** The integer part, towards zero *)
Definition whole (x : R) (z : Z) : Prop := (0 <= x -> IZR z <= x < IZR z + 1) /\ (x < 0 -> IZR z - 1 < x <= IZR z).
(** The volume under a Gaussian *)
Definition volume (q : val * val) : val := match q with (Some a, Some w) => Some (PI * a * w ^ 2 / (4 * ln 2)) | _ => None end.

(** ** The throughput of one source *)
Definition measured (fwhm : R) (guess : val) (data : img) (cen : R * R) (p : placed) (v : val * val) : Prop :=
  exists big cut cy cx,
    framed (p_model p) big
    /\ whole (snd (point_of cen (p_loc p))) cy /\ whole (fst (point_of cen (p_loc p))) cx
    /\ takes (rows (p_model p)) (rows data) cy /\ takes (rows (p_model p)) (cols data) cx
    /\ surroundings (rows (p_model p)) data cy cx cut
    /\ let mid := (INR (rows (p_model p)), INR (rows (p_model p))) in
       v = (over (volume (fit cut mid fwhm guess)) (volume (fit big mid fwhm guess)), snd (fit cut mid fwhm guess)).

(** ** The table of one KL mode *)
Definition summary (ms : list ((R * R) * (val * val))) (sep : R) (v : val * val) : Prop :=
  exists us, sieve (fun m => fst (fst m) = sep) ms us /\ median_of (map (fun m => fst (snd m)) us) (fst v) /\ median_of (map (fun m => snd (snd m)) us) (snd v).
(** The separations are different, there is a measurement at each of them, and the entries are in their ascending order *)
Definition row_of_mode (seps : list R) (ms : list ((R * R) * (val * val))) (row : list (val * val)) : Prop :=
  NoDup seps /\ (forall s, In s seps -> exists m, In m ms /\ fst (fst m) = s)
  /\ exists up, StronglySorted Rlt up /\ Permutation up seps /\ Forall2 (summary ms) up row.

Definition mode_of (cen : option R * option R) (cube : list img) (fs : list F) (seps pas : list R) (cands : list (R * R)) (snr fwhm res : R)
    (k : nat) (klmode : K) (row : list (val * val)) : Prop :=
  exists cx cy f nz ts outs data pc level vs,
    (forall g, In g fs -> roll_of g <> None)
    /\ cen = (Some cx, Some cy) /\ seps <> [] /\ pas <> []
    (* the noise of the mode *)
    /\ nth_error cube k = Some f /\ Forall2 (noise_of (cx, cy) fwhm cands f) seps nz
    (* the same sources in all the frames *)
    /\ targets snr res cands pas (combine seps nz) ts /\ ts <> []
    /\ Forall2 (fun g o => chain g ts (fst o) (snd o)) fs outs
    (* they are looked for in the PSF-subtracted image, without its background *)
    /\ klip klmode (map fst outs) = Ok (data, pc) /\ level_of data level
    /\ (exists lev, rows lev = rows data /\ cols lev = cols data /\ (forall r c, pix lev r c = minus (pix data r c) level)
        /\ exists ds o, outs = (o, ds) :: tl outs /\ Forall2 (measured fwhm (option_map (fun x => x * snr) (last nz None)) lev pc) ds vs)
    /\ row_of_mode seps (combine (map fst ts) vs) row.

(** ** The settings *)
(** In mas: 1.22 times 573.8 nm by 2.36 m *)
Definition resolution : R := 122 / 100 * 5738 / 236 / 100000000 * 206265 * 1000.
Definition spaced (a b d : R) (l : list R) : Prop :=
  d <> 0 /\ forall i x, nth_error l i = Some x <-> x = a + INR i * d /\ (0 < d /\ x < b \/ d < 0 /\ b < x).
Definition separations (h : hdr) (scale res : R) (given : option (list R)) (seps : list R) : Prop :=
  given = Some seps \/
  given = None /\ h_lsam h = Some "NFOV"%string /\ h_fpam h = Some "HLC12_C2R1"%string /\ spaced (140 / scale) (450 / scale) res seps.
Definition angles (n : nat) (given : option (list R)) (pas : list R) : Prop :=
  given = Some pas \/ given = None /\ forall i x, nth_error pas i = Some x <-> (i < n)%nat /\ x = INR i * 360 / INR n.

Definition throughput (h : hdr) (cen : option R * option R) (cube : list img) (fs : list F) (numbasis : list K)
    (snr spacing : R) (n_pas : nat) (seps pas : option (list R)) (cands : list (R * R)) (out : list R * list (list (val * val))) : Prop :=
  exists scale ps,
    h_cfam h = Some "1F"%string /\ h_plate h = Some scale /\ scale <> 0
    /\ let fwhm := resolution / scale in
       separations h scale (spacing * fwhm) seps (fst out) /\ angles n_pas pas ps
    /\ List.length (snd out) = List.length numbasis
    /\ forall k m row, nth_error numbasis k = Some m -> nth_error (snd out) k = Some row ->
         mode_of cen cube fs (fst out) ps cands snr fwhm (spacing * fwhm) k m row.
End Spec.
