(** Specification of the flat fields. *)
From Coq Require Import List Arith Bool Reals ZArith String Ascii.
From Verif Require Import Base CombineModel CombineSpec ComboSpec FindModel FlatModel.
Import ListNotations.
Local Open Scope R_scope.

(** Difference, quotient and mean of two values; not a number if one of them is not, or on division by 0. *)
Definition minus (a b : val) : val := match a, b with Some x, Some y => Some (x - y) | _, _ => None end.
Definition over (a b : val) : val := match a, b with Some x, Some y => if Req_EM_T y 0 then None else Some (x / y) | _, _ => None end.
Definition halfway (a b : val) : val := match a, b with Some x, Some y => Some ((x + y) / 2) | _, _ => None end.
(** All the places of an array, row by row. *)
Definition places (f : img) : list (nat * nat) := list_prod (seq 0 (rows f)) (seq 0 (cols f)).
Definition median_of (l : list val) (v : val) : Prop := match v with Some m => is_median (somes l) m | None => somes l = [] end.
Definition mean_of (l : list val) (v : val) : Prop := match v with Some m => is_mean (somes l) m | None => somes l = [] end.
(** The standard error with the number [n] of all the frames. *)
Definition error_of (n : nat) (l : list val) (v : val) : Prop :=
  match v with
  | Some e => 0 <= e /\ exists m, is_mean (somes l) m /\ is_mean (map (fun x => (x - m) ^ 2) (somes l)) (e ^ 2 * INR n)
  | None => somes l = []
  end.

(** ** Slices of n indices: those from [lo] to [hi], negative ones counted from the end *)
Definition norm (n : nat) (k : Z) : Z := (if (k <? 0) then k + Z.of_nat n else k)%Z.
Definition within (n : nat) (lo hi : Z) (r : nat) : Prop := (r < n)%nat /\ (norm n lo <= Z.of_nat r < norm n hi)%Z.
Definition start (n : nat) (lo : Z) : nat := Z.to_nat (Z.min (Z.of_nat n) (norm n lo)).
Definition extent (n : nat) (lo hi : Z) : nat := Z.to_nat (Z.min (Z.of_nat n) (norm n hi) - Z.max 0 (norm n lo)).

Section Spec.
Variable centre : img -> Z * Z.
Variable gauss : img -> img.
Notation cy f := (fst (centre f)).
Notation cx f := (snd (centre f)).

(** ** What is settled before the images are looked at *)
Definition planet_is (a : args) (f : frame) (s : string) : Prop := a_planet a = Some s \/ a_planet a = None /\ f_target f = Some s.
Definition band_is (a : args) (f : frame) (s : string) : Prop := a_band a = Some s \/ a_band a = None /\ f_ext f "CFAMNAME"%string = Some s.
Definition radius_is (a : args) (s : string) (rad : R) : Prop :=
  a_rad a = Some rad \/ a_rad a = None /\ (lower s = "neptune"%string /\ rad = 50 \/ lower s = "uranus"%string /\ rad = 65).
Definition mask_known (a : args) (b : string) : Prop := a_mask a <> None \/ exists t, b = String "1" t \/ b = String "4" t.
Definition size_is (a : args) (f : frame) (n : nat) : Prop := a_size a = Some n \/ a_size a = None /\ n = rows (f_img f).
Definition border_is (a : args) (n p : nat) : Prop := a_pad a = Some p \/ a_pad a = None /\ Z.of_nat p = Z.max 0 (1024 - Z.of_nat n).

(** ** Sky *)
Definition annulus (lo hi : R) (f : img) (p : nat * nat) : Prop := lo <= idist (Z.of_nat (fst p)) (Z.of_nat (snd p)) (cy f) (cx f) < hi.
Definition sky_of (lo hi : R) (f : img) (s : val) : Prop := exists ps, sieve (annulus lo hi f) (places f) ps /\ median_of (map (fun p => pix f (fst p) (snd p)) ps) s.
(** The array [g] that [f] becomes. *)
Definition cleaned (a : args) (rad : R) (f g : img) : Prop :=
  match a_annulus a with
  | None => g = f
  | Some (rin, rout) => rows g = rows f /\ cols g = cols f /\ exists s, sky_of (rin * rad) (rout * rad) f s /\ forall r c, pix g r c = minus (pix f r c) s
  end.

(** ** The pixels a frame contributes to: a disc in a square around the planet *)
Definition disc (rad : R) (i k : nat) : Prop := sqrt ((INR k - rad - 5) ^ 2 + (INR i - rad - 5) ^ 2) < rad.
Definition covers (n : nat) (up : Z) (rad : R) (f : img) (r c : nat) : Prop :=
  within n (cy f - up) (cy f + up) r /\ within n (cx f - up) (cx f + up) c /\ disc rad (r - start n (cy f - up)) (c - start n (cx f - up)).
(** ** What it contributes; frames are given with the arrays they become *)
Definition snippet (up : Z) (q : img * img) (i k : nat) : val := pix (snd q) (start (rows (snd q)) (cy (fst q) - up) + i) (start (cols (snd q)) (cx (fst q) - up) + k).
(** The group of frame [j] among [N] groups of successive frames. *)
Definition mates {A} (N : nat) (l : list A) (j : nat) (m : list A) : Prop :=
  exists x y k, l = x ++ m ++ y /\ List.length l = (N * List.length m)%nat /\ List.length x = (k * List.length m)%nat /\ (List.length x <= j < List.length x + List.length m)%nat.
Definition extents (up : Z) (f : img) : nat * nat := (extent (rows f) (cy f - up) (cy f + up), extent (cols f) (cx f - up) (cx f + up)).
Definition value_at (N : nat) (up : Z) (n : nat) (l : list (img * img)) (j : nat) (q : img * img) (r c : nat) (v : val) : Prop :=
  exists ms M, mates N l j ms /\ (rows M, cols M) = extents up (fst q) /\ (forall i k, median_of (map (fun q' => snippet up q' i k) ms) (pix M i k))
    /\ v = over (snippet up q (r - start n (cy (fst q) - up)) (c - start n (cx (fst q) - up))) (pix (gauss M) (r - start n (cy (fst q) - up)) (c - start n (cx (fst q) - up))).
(** ** How the contributions to a pixel are put together *)
Inductive settled : list val -> val -> Prop :=
| st_none : settled [] (Some 0)
| st_first l x : settled l (Some 0) -> settled (l ++ [x]) x
| st_next l a x : settled l a -> a <> Some 0 -> settled (l ++ [x]) (halfway x a).
Definition pixel_of (N : nat) (up : Z) (n : nat) (rad npix : R) (l : list (img * img)) (r c : nat) (v : val) : Prop :=
  (npix < sqrt ((INR c - INR n / 2) ^ 2 + (INR r - INR n / 2) ^ 2) -> v = Some 1)
  /\ (sqrt ((INR c - INR n / 2) ^ 2 + (INR r - INR n / 2) ^ 2) <= npix ->
      exists ch vs w, sieve (fun jq => covers n up rad (fst (snd jq)) r c) (combine (seq 0 (List.length l)) l) ch
        /\ Forall2 (fun jq x => value_at N up n l (fst jq) (snd jq) r c x) ch vs /\ settled vs w
        /\ (w = Some 0 -> v = None) /\ (w <> Some 0 -> v = w)).
Definition square (f : img) (s : nat) : Prop := rows f = s /\ cols f = s.
Definition inner (pad n k : nat) : Prop := (pad <= k < pad + n)%nat.
(** ** Cards *)
Definition labelled (h h' : string -> option string) : Prop :=
  h "EXPTIME"%string <> None /\ h' "DATATYPE"%string = Some "FlatField"%string /\ h' "BUNIT"%string = Some "None"%string /\ h' "DATALVL"%string = Some "CAL"%string
  /\ forall k, k <> "DATATYPE"%string -> k <> "BUNIT"%string -> k <> "DATALVL"%string -> h' k = h k.
(** The dataset afterwards: the sky is subtracted from its arrays, and its last header is that of the product. *)
Record after (a : args) (rad : R) (l l' : list frame) (h : string -> option string) : Prop := mkafter {
  af_frames : Forall2 (fun f g => cleaned a rad (f_img f) (f_img g) /\ f_target g = f_target f) l l';
  af_last : exists l1 f l1' g, l = l1 ++ [f] /\ l' = l1' ++ [g] /\ map f_ext l1' = map f_ext l1 /\ f_ext g = h /\ labelled (f_ext f) h }.
Definition alike (up : Z) (l : list frame) : Prop := forall f g, In f l -> In g l -> extents up (f_img f) = extents up (f_img g).
Definition fitting (up : Z) (n : nat) (l : list frame) : Prop := forall f, In f l ->
  extents up (f_img f) = (extent n (cy (f_img f) - up) (cy (f_img f) + up), extent n (cx (f_img f) - up) (cx (f_img f) + up)).
Record flat_of (a : args) (l l' : list frame) (p : product) : Prop := mkflatof {
  fo_all : exists f0 planet band rad n pad ims, hd_error l = Some f0 /\ planet_is a f0 planet /\ band_is a f0 band /\ radius_is a planet rad /\ mask_known a band
    /\ size_is a f0 n /\ border_is a n pad /\ after a rad l l' (p_ext p)
    /\ (1 <= a_groups a)%nat /\ (exists k, List.length l = (a_groups a * k)%nat) /\ alike (a_up a) l /\ fitting (a_up a) n l
    /\ ims = combine (map f_img l) (map f_img l')
    /\ square (p_data p) (n + 2 * pad) /\ square (p_err p) (n + 2 * pad) /\ (forall r c, pix (p_err p) r c = Some 0)
    /\ (forall r c, ~ (inner pad n r /\ inner pad n c) -> pix (p_data p) r c = Some 1)
    /\ forall r c, (r < n)%nat -> (c < n)%nat -> pixel_of (a_groups a) (a_up a) n rad (a_npix a) ims r c (pix (p_data p) (pad + r) (pad + c)) }.
(** ** Failures, in the order of the checks *)
Inductive fails (a : args) (l : list frame) : exn -> Prop :=
| fl_none : l = [] -> fails a l IndexError
| fl_planet f0 : hd_error l = Some f0 -> (forall s, ~ planet_is a f0 s) -> fails a l KeyError
| fl_band f0 planet : hd_error l = Some f0 -> planet_is a f0 planet -> (forall s, ~ band_is a f0 s) -> fails a l KeyError
| fl_noband f0 planet : hd_error l = Some f0 -> planet_is a f0 planet -> band_is a f0 ""%string -> a_mask a = None -> fails a l IndexError
| fl_sky f0 planet band : hd_error l = Some f0 -> planet_is a f0 planet -> band_is a f0 band -> (a_mask a = None -> band <> ""%string) ->
    (forall rad, ~ radius_is a planet rad) -> a_annulus a <> None -> fails a l TypeError
| fl_groups f0 planet band : hd_error l = Some f0 -> planet_is a f0 planet -> band_is a f0 band -> (a_mask a = None -> band <> ""%string) ->
    ((forall rad, ~ radius_is a planet rad) -> a_annulus a = None) -> (alike (a_up a) l -> a_groups a <> 0%nat /\ ~ exists k, List.length l = (a_groups a * k)%nat) -> fails a l ValueError
| fl_zero f0 planet band : hd_error l = Some f0 -> planet_is a f0 planet -> band_is a f0 band -> (a_mask a = None -> band <> ""%string) ->
    ((forall rad, ~ radius_is a planet rad) -> a_annulus a = None) -> alike (a_up a) l -> a_groups a = 0%nat -> fails a l PyException
| fl_names f0 planet band : hd_error l = Some f0 -> planet_is a f0 planet -> band_is a f0 band -> (a_mask a = None -> band <> ""%string) ->
    ((forall rad, ~ radius_is a planet rad) -> a_annulus a = None) -> alike (a_up a) l -> a_groups a <> 0%nat -> (exists k, List.length l = (a_groups a * k)%nat) ->
    ((forall rad, ~ radius_is a planet rad) \/ ~ mask_known a band) -> fails a l TypeError
| fl_size f0 planet band rad n : hd_error l = Some f0 -> planet_is a f0 planet -> band_is a f0 band -> radius_is a planet rad -> mask_known a band -> size_is a f0 n ->
    alike (a_up a) l -> a_groups a <> 0%nat -> (exists k, List.length l = (a_groups a * k)%nat) -> ~ fitting (a_up a) n l -> fails a l ValueError
| fl_exptime f0 planet band rad n l1 f : hd_error l = Some f0 -> planet_is a f0 planet -> band_is a f0 band -> radius_is a planet rad -> mask_known a band -> size_is a f0 n ->
    alike (a_up a) l -> a_groups a <> 0%nat -> (exists k, List.length l = (a_groups a * k)%nat) -> fitting (a_up a) n l -> l = l1 ++ [f] -> f_ext f "EXPTIME"%string = None -> fails a l KeyError.
(** The square around the planet lies in the n x n image. *)
Definition inside (n : nat) (up : Z) (f : img) : Prop := (0 <= fst (centre f) - up /\ fst (centre f) + up <= Z.of_nat n /\ 0 <= snd (centre f) - up /\ snd (centre f) + up <= Z.of_nat n /\ 0 <= up)%Z.
End Spec.
(** The weight of value [i] of [k + 1]. *)
Definition weight (k i : nat) : R := match i with O => (1 / 2) ^ k | S _ => (1 / 2) ^ (k - i + 1) end.
