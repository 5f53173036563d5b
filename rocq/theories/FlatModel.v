(** Flat fields: corgidrp/flat.py 17-41 create_flatfield, 43-74 raster_kernel, 76-99 flatfield_residuals,
    101-172 combine_flatfield_rasters, 175-266 create_onsky_flatfield; the header cards of data.py 691-714.

    An array is its shape and its values at the indices; a value is a real number or None: NaN in the
    data, NaN or infinite after a division.  The truncated centre of mass of an image, [centre], and the Gaussian
    filter, [gauss], are arbitrary functions.  Frames do not share arrays.  Of the extension header the text cards are kept;
    not modelled are the history, the parents, the file name, the version and the time. *)
From Coq Require Import List Arith Bool Reals ZArith String Ascii.
From Verif Require Import Base CombineModel FindModel.
Import ListNotations.
Local Open Scope R_scope.

Record img : Type := mkimg { rows : nat; cols : nat; pix : nat -> nat -> val }.
Definition spots (f : img) : list (nat * nat) := list_prod (seq 0 (rows f)) (seq 0 (cols f)).
Definition vsub (a b : val) : val := match a, b with Some x, Some y => Some (x - y) | _, _ => None end.
Definition vdiv (a b : val) : val := match a, b with Some x, Some y => if Req_EM_T y 0 then None else Some (x / y) | _, _ => None end.

(** ** Mean flat, 32-39 *)
Definition nanstd (l : list val) : val :=
  match nanmean l with Some m => option_map sqrt (nanmean (map (fun v => option_map (fun x => (x - m) ^ 2) v) l)) | None => None end.
(** A Dataset is not empty and its frames have one shape. *)
Definition create_flatfield (l : list img) : result (img * img) :=
  match l with
  | [] => Raise IndexError
  | f :: _ => Ok (mkimg (rows f) (cols f) (fun r c => nanmean (map (fun g => pix g r c) l)),
                  mkimg (rows f) (cols f) (fun r c => option_map (fun s => s / sqrt (INR (List.length l))) (nanstd (map (fun g => pix g r c) l))))
  end.

(** ** Kernel, 60-74.  The Gaussian one is not modelled.  The second assignment reads what the first has written. *)
Definition radial (f : nat * nat) (r c : nat) : R := sqrt ((INR c - INR (snd f) / 2 - 1) ^ 2 + (INR r - INR (fst f) / 2 - 1) ^ 2).
Definition raster_kernel (width : R) (f : nat * nat) : img :=
  mkimg (fst f + 1) (snd f + 1) (fun r c =>
    let a := if Rle_dec (radial f r c) (width / 2) then 1 else radial f r c in
    Some (if Rlt_dec (width / 2) a then 0 else a)).

(** ** On-sky flat *)
Record frame : Type := mkframe { f_img : img; f_target : option string; f_ext : string -> option string }.
Definition setcard (k v : string) (h : string -> option string) : string -> option string := fun x => if String.eqb x k then Some v else h x.

(** 214-223: the names that are known *)
Definition planet_radius (given : option R) (planet : string) : option R :=
  match given with
  | Some r => Some r
  | None => if String.eqb (lower planet) "neptune" then Some 50 else if String.eqb (lower planet) "uranus" then Some 65 else None
  end.
Definition band_mask (given : option R) (band : string) : result (option R) :=
  match given with
  | Some r => Ok (Some r)
  | None => match band with
            | EmptyString => Raise IndexError
            | String c _ => Ok (if Ascii.eqb c "1" then Some (5 / 4) else if Ascii.eqb c "4" then Some (7 / 4) else None)
            end
  end.
(** 240-244 *)
Definition in_annulus (lo hi : R) (yc xc : Z) (p : nat * nat) : bool :=
  let d := idist (Z.of_nat (fst p)) (Z.of_nat (snd p)) yc xc in
  if Rle_dec lo d then if Rlt_dec d hi then true else false else false.
Definition sky (lo hi : R) (yc xc : Z) (f : img) : val :=
  nanmedian (map (fun p => pix f (fst p) (snd p)) (filter (in_annulus lo hi yc xc) (spots f))).
Definition subtract (f : img) (s : val) : img := mkimg (rows f) (cols f) (fun r c => vsub (pix f r c) s).
(** A bound of a Python slice. *)
Definition bound (n : nat) (k : Z) : nat := Z.to_nat (Z.max 0 (Z.min (Z.of_nat n) (if (k <? 0)%Z then k + Z.of_nat n else k))).
Record box : Type := mkbox { ymin : Z; ymax : Z; xmin : Z; xmax : Z }.
Definition crop (b : box) (f : img) : img :=
  mkimg (bound (rows f) (ymax b) - bound (rows f) (ymin b)) (bound (cols f) (xmax b) - bound (cols f) (xmin b))
        (fun r c => pix f (bound (rows f) (ymin b) + r) (bound (cols f) (xmin b) + c)).
Definition around (up yc xc : Z) : box := mkbox (yc - up) (yc + up) (xc - up) (xc + up).

Section Onsky.
Variable centre : img -> Z * Z.   (* row, column *)
Variable gauss : img -> img.

(** 91-99.  [N] is the number of groups. *)
Definition same (f g : img) : bool := (Nat.eqb (rows f) (rows g) && Nat.eqb (cols f) (cols g))%bool.
Definition matched (l : list img) (k g : nat) : img :=
  match l with [] => mkimg 0 0 (fun _ _ => None) | f :: _ =>
    mkimg (rows f) (cols f) (fun r c => nanmedian (map (fun i => pix i r c) (firstn k (skipn (g * k) l)))) end.
Definition divide (f g : img) : img := mkimg (rows f) (cols f) (fun r c => vdiv (pix f r c) (pix g r c)).
Definition residuals (l : list img) (N : nat) : result (list img) :=
  match l with
  | [] => Raise ValueError
  | f :: _ =>
    if forallb (same f) l then
      if Nat.eqb N 0 then Raise PyException (* ZeroDivisionError *)
      else if Nat.eqb (List.length l mod N) 0 then
        let k := (List.length l / N)%nat in
        Ok (map (fun p => divide (snd p) (gauss (matched l k (fst p / k)))) (index l))
      else Raise ValueError
    else Raise ValueError
  end.

(** 134-157, one image.  Simplified: shapes that differ raise, also where numpy would stretch a dimension of 1. *)
Definition average (a b : val) : val := match a, b with Some x, Some y => Some ((x + y) / 2) | _, _ => None end.
Definition is_zero (v : val) : bool := match v with Some x => if Req_EM_T x 0 then true else false | None => false end.
Definition in_disc (rad : R) (r c : nat) : bool := if Rlt_dec (sqrt ((INR c - rad - 5) ^ 2 + (INR r - rad - 5) ^ 2)) rad then true else false.
Definition paint (n : nat) (rad : R) (full : nat -> nat -> val) (b : box) (f : img) : result (nat -> nat -> val) :=
  let y0 := bound n (ymin b) in let y1 := bound n (ymax b) in let x0 := bound n (xmin b) in let x1 := bound n (xmax b) in
  if (Nat.eqb (rows f) (y1 - y0) && Nat.eqb (cols f) (x1 - x0))%bool then
    Ok (fun r c => if (Nat.leb y0 r && Nat.ltb r y1 && Nat.leb x0 c && Nat.ltb c x1 && in_disc rad (r - y0) (c - x0))%bool
                   then (if is_zero (full r c) then pix f (r - y0) (c - x0) else average (pix f (r - y0) (c - x0)) (full r c))
                   else full r c)
  else Raise ValueError.
Fixpoint paint_all (n : nat) (rad : R) (full : nat -> nat -> val) (l : list (box * img)) : result (nat -> nat -> val) :=
  match l with [] => Ok full | (b, f) :: t => do full' <- paint n rad full b f; paint_all n rad full' t end.
(** 159-170: the values before the border is put around, then with it *)
Definition finish (n : nat) (npix : R) (full : nat -> nat -> val) (r c : nat) : val :=
  if Rlt_dec npix (sqrt ((INR c - INR n / 2) ^ 2 + (INR r - INR n / 2) ^ 2)) then Some 1
  else if is_zero (full r c) then None else full r c.
Definition padded (n pad : nat) (v : val) (full : nat -> nat -> val) : img :=
  mkimg (pad + n + pad) (pad + n + pad) (fun r c =>
    if (Nat.leb pad r && Nat.ltb r (pad + n) && Nat.leb pad c && Nat.ltb c (pad + n))%bool then full (r - pad)%nat (c - pad)%nat else v).
Definition combine_rasters (rad mask : option R) (n pad : nat) (npix : R) (l : list (box * img)) : result (img * img) :=
  match mask, rad with
  | Some _, Some rad =>
    do full <- paint_all n rad (fun _ _ => Some 0) l;
    match l with
    | [] => Raise UnboundLocalError
    | _ => Ok (padded n pad (Some 1) (finish n npix full), padded n pad (Some 0) (fun _ _ => Some 0))
    end
  | _, _ => Raise TypeError
  end.

(** Arguments of create_onsky_flatfield.  [a_annulus] is None if one of the radii is. *)
Record args : Type := mkargs { a_planet : option string; a_band : option string; a_up : Z; a_size : option nat; a_groups : nat;
  a_mask : option R; a_rad : option R; a_npix : R; a_pad : option nat; a_annulus : option (R * R) }.
Definition pad_of (a : args) (n : nat) : nat := match a_pad a with Some p => p | None => Z.to_nat (1024 - Z.of_nat n) end.
(** 227-252, one frame: subtracting the sky changes the array of the frame *)
Definition prepared (a : args) (rad : option R) (f : frame) : result (frame * box) :=
  let '(yc, xc) := centre (f_img f) in
  match a_annulus a with
  | None => Ok (f, around (a_up a) yc xc)
  | Some (rin, rout) =>
    match rad with
    | None => Raise TypeError
    | Some rad => Ok (mkframe (subtract (f_img f) (sky (rin * rad) (rout * rad) yc xc (f_img f))) (f_target f) (f_ext f), around (a_up a) yc xc)
    end
  end.
Fixpoint prepare (a : args) (rad : option R) (l : list frame) : list frame * result (list (frame * box)) :=
  match l with
  | [] => ([], Ok [])
  | f :: t => match prepared a rad f with
              | Raise e => (l, Raise e)
              | Ok (f', b) => let '(t', r) := prepare a rad t in (f' :: t', do bs <- r; Ok ((f', b) :: bs))
              end
  end.
(** data.py 701-714 *)
Definition flat_cards (h : string -> option string) : result (string -> option string) :=
  do _ <- getkey (h "EXPTIME"%string);
  Ok (setcard "DATALVL" "CAL" (setcard "BUNIT" "None" (setcard "DATATYPE" "FlatField" h))).
Record product : Type := mkproduct { p_data : img; p_err : img; p_ext : string -> option string }.
(** The header of the last frame is that of the product, not a copy (263). *)
Fixpoint relabel (l : list frame) (h : string -> option string) : list frame :=
  match l with [] => [] | [f] => [mkframe (f_img f) (f_target f) h] | f :: t => f :: relabel t h end.
(** The dataset afterwards and the product. *)
Definition onsky (a : args) (l : list frame) : list frame * result product :=
  match l with
  | [] => (l, Raise IndexError)
  | f0 :: _ =>
    let n := match a_size a with Some n => n | None => rows (f_img f0) end in
    let pad := pad_of a n in
    match (do planet <- match a_planet a with Some p => Ok p | None => getkey (f_target f0) end;
           do band <- match a_band a with Some b => Ok b | None => getkey (f_ext f0 "CFAMNAME"%string) end;
           do mask <- band_mask (a_mask a) band;
           Ok (planet_radius (a_rad a) planet, mask)) with
    | Raise e => (l, Raise e)
    | Ok (rad, mask) =>
      let '(l', r) := prepare a rad l in
      match (do bs <- r;
             do rs <- residuals (map (fun p => crop (snd p) (f_img (fst p))) bs) (a_groups a);
             combine_rasters rad mask n pad (a_npix a) (combine (map snd bs) rs)) with
      | Raise e => (l', Raise e)
      | Ok (d, e) =>
        match rev l' with
        | [] => (l', Raise UnboundLocalError) (* not reached *)
        | g :: _ =>
          (* the first two cards are set before EXPTIME is read *)
          match flat_cards (f_ext g) with
          | Raise ex => (relabel l' (setcard "BUNIT" "None" (setcard "DATATYPE" "FlatField" (f_ext g))), Raise ex)
          | Ok h => (relabel l' h, Ok (mkproduct d e h))
          end
        end
      end
    end
  end.
End Onsky.
