(** Input of the PSF subtraction: corgidrp/data.py PyKLIPDataset.readdata 2140-2324, savedata 2326-2408.

    Images are of an arbitrary type with [align], pyklip.klip.align_and_scale, an arbitrary function
    of the image, the new and the old centre.  Header numbers are integers or rationals (floats);
    the pixels are floats.  The wavelengths are kept exact (2240: astype(float32)). *)
From Coq Require Import List Arith Bool QArith ZArith String Reals DecimalString DecimalNat Qreals.
From Verif Require Import Base LevelModel.
Import ListNotations.
Local Open Scope Q_scope.
Local Open Scope string_scope.

(** The exceptions of this code; UserWarning is raised as one. *)
Inductive kexn : Type := UserWarning | KeyErr | ValueErr.
Inductive res (A : Type) : Type := Got (a : A) | Fails (e : kexn).
Arguments Got {A} a.
Arguments Fails {A} e.
Definition rbind {A B} (m : res A) (k : A -> res B) : res B := match m with Got a => k a | Fails e => Fails e end.
Notation "'let!' x := m 'in' k" := (rbind m (fun x => k)) (at level 200, x name, m at level 100, k at level 200).
Definition key {A} (o : option A) : res A := match o with Some a => Got a | None => Fails KeyErr end.

Inductive num : Type := NInt (z : Z) | NFloat (q : Q).
Definition val (n : num) : Q := match n with NInt z => inject_Z z | NFloat q => q end.
Definition is_int (n : num) : bool := match n with NInt _ => true | NFloat _ => false end.
Notation shape2 := (nat * nat)%type.

Section Klip.
Variable img : Type.
Variable align : img -> Q * Q -> Q * Q -> img.
Variable wcs : Type.
(** Arrays of two, three and any other number of dimensions; the shape is that of one image. *)
Inductive arr : Type := D2 (sh : shape2) (i : img) | D3 (sh : shape2) (l : list img) | Dother.
Record frame : Type := mkframe {
  f_tel : option string; f_ins : option string; f_cfam : option string; f_data : arr; f_scale : option num;
  f_x : option num; f_y : option num; f_roll : option num; f_name : string; f_wcs : wcs }.
(** 2197-2201 *)
Definition cube (a : arr) : res (shape2 * list img) := match a with D2 sh i => Got (sh, [i]) | D3 sh l => Got (sh, l) | Dother => Fails UserWarning end.
(** 2210: '_INT%.0f' % (j + 1) *)
Definition int_name (f : frame) (j : nat) : string := basename (f_name f) ++ "_INT" ++ NilEmpty.string_of_uint (Nat.to_uint (j + 1)).
(** 2047, 2214-2217 *)
Definition wave (c : string) : res Q := if String.eqb c "1F" then Got (575 # 1000000000) else Fails UserWarning.
(** [..] * n of a list *)
Fixpoint times {A} (n : nat) (l : list A) : list A := match n with O => [] | S m => (l ++ times m l)%list end.

(** The lists built up in the loop, 2166-2178 *)
Record acc : Type := mkacc {
  a_input : list (shape2 * list img); a_centers : list (list num); a_names : list string; a_pas : list num; a_wvs : list Q; a_wcs : list wcs; a_scale : list Q }.
(** 2180-2231, one frame.  Simplified: wcs.WCS of the header does not fail. *)
Definition add_frame (a : acc) (f : frame) : res acc :=
  let! _ := match f_tel f with Some t => if String.eqb t "ROMAN" then Got tt else Fails UserWarning | None => Got tt end in
  let! ins := key (f_ins f) in
  let! _ := if String.eqb ins "CGI" then Got tt else Fails UserWarning in
  let! cfam := key (f_cfam f) in
  let! d := cube (f_data f) in
  let n := List.length (snd d) in
  let! sc := key (f_scale f) in
  let! x := key (f_x f) in
  let! y := key (f_y f) in
  let! roll := key (f_roll f) in
  let! w := wave cfam in
  Got (mkacc (a_input a ++ [d]) (a_centers a ++ [times n [x; y]]) (a_names a ++ map (int_name f) (seq 0 n)) (a_pas a ++ times n [roll])
             (a_wvs a ++ times n [w]) (a_wcs a ++ times n [f_wcs f]) (a_scale a ++ [val sc * 1000]))%list.
Fixpoint add_frames (a : acc) (l : list frame) : res acc := match l with [] => Got a | f :: t => let! a' := add_frame a f in add_frames a' t end.

Definition same_shape (s t : shape2) : bool := (Nat.eqb (fst s) (fst t) && Nat.eqb (snd s) (snd t))%bool.
(** np.concatenate along the first axis; None: ValueError *)
Definition concat3 (l : list (shape2 * list img)) : option (list img) :=
  match l with [] => None | (s, _) :: _ => if forallb (fun p => same_shape s (fst p)) l then Some (flat_map snd l) else None end.
(** reshape(-1, 2) *)
Fixpoint pairs {A} (l : list A) : list (A * A) := match l with x :: y :: t => (x, y) :: pairs t | _ => [] end.
(** np.unique *)
Fixpoint uniq (l : list Q) : list Q := match l with [] => [] | x :: t => let r := uniq t in if existsb (Qeq_bool x) r then r else x :: r end.
Fixpoint qmin (l : list Q) : option Q := match l with [] => None | x :: t => match qmin t with None => Some x | Some m => Some (if Qle_bool x m then x else m) end end.
(** 2255-2256, 2300-2301 *)
Definition middle (s : shape2) : Q * Q := ((inject_Z (Z.of_nat (snd s)) - 1) / 2, (inject_Z (Z.of_nat (fst s)) - 1) / 2).
(** Conversion of a float to an integer, toward zero. *)
Definition trunc (q : Q) : Z := Z.quot (Qnum q) (Zpos (Qden q)).
(** np.array of numbers is one of integers if they all are and there are any; so is the concatenation of such. *)
Definition int_array (l : list num) : bool := match l with [] => false | _ => forallb is_int l end.
(** centers[i] = new_center: in an array of integers or of floats *)
Definition store (ints : bool) (c : Q * Q) : Q * Q := if ints then (inject_Z (trunc (fst c)), inject_Z (trunc (snd c))) else c.
Definition recenter (new : Q * Q) (ims : list img) (old : list (num * num)) : list img :=
  map (fun p => align (fst p) new (val (fst (snd p)), val (snd (snd p)))) (combine ims old).

Record product : Type := mkproduct {
  o_input : list img; o_centers : list (Q * Q); o_names : list string; o_nums : list nat; o_pas : list num; o_wvs : list Q; o_wcs : list wcs; o_iwa : R; o_owa : Q }.
(** 2233-2272 *)
Definition read_science (l : list frame) : res product :=
  match l with
  | [] => Fails UserWarning
  | _ =>
    let! a := add_frames (mkacc [] [] [] [] [] [] []) l in
    match concat3 (a_input a) with
    | None => Fails UserWarning
    | Some ims =>
      let cs := pairs (List.concat (a_centers a)) in
      match uniq (a_scale a) with
      | [sc] =>
        match qmin (a_wvs a) with
        | None => Fails ValueErr
        | Some w =>
          match rev (a_input a) with
          | [] => Fails ValueErr (* not reached: there is a frame *)
          | (sh, _) :: _ =>
            Got (mkproduct (recenter (middle sh) ims cs) (map (fun _ => store (forallb int_array (a_centers a)) (middle sh)) cs) (a_names a)
                           (seq 0 (List.length (a_names a))) (a_pas a) (a_wvs a) (a_wcs a)
                           (Q2R w / (13 / 2) * 180 / PI * 3600 / Q2R sc)%R (inject_Z (Z.of_nat (fst sh)) / 2 + inject_Z (Z.of_nat (snd sh)) / 2))
          end
        end
      | _ => Fails UserWarning
      end
    end
  end.

(** 2281-2298, one reference frame *)
Definition add_ref (a : list (shape2 * list img) * list (list num) * list string) (f : frame) : res (list (shape2 * list img) * list (list num) * list string) :=
  let '(inp, cs, names) := a in
  let! d := cube (f_data f) in
  let n := List.length (snd d) in
  let! sc := key (f_scale f) in
  let! x := key (f_x f) in
  let! y := key (f_y f) in
  Got (inp ++ [d], cs ++ [times n [x; y]], names ++ map (int_name f) (seq 0 n))%list.
Fixpoint add_refs (a : list (shape2 * list img) * list (list num) * list string) (l : list frame) : res (list (shape2 * list img) * list (list num) * list string) :=
  match l with [] => Got a | f :: t => let! a' := add_ref a f in add_refs a' t end.
(** Arguments of PSFLibrary, with the centres appended to, 2299-2316 *)
Record library : Type := mklib { b_data : list img; b_centers : list (Q * Q); b_names : list string; b_center : Q * Q }.
(** 2274-2320.  [sh] is the shape of the science images; a Dataset is never empty. *)
Definition read_refs (sh : shape2) (p : product) (l : list frame) : res library :=
  let! a := add_refs ([], [], []) l in
  let '(inp, cns, names) := a in
  match concat3 inp with
  | None => Fails ValueErr
  | Some ims =>
    match rev inp with
    | [] => Fails ValueErr (* not reached *)
    | (rs, _) :: _ =>
      let cs := pairs (List.concat cns) in
      if same_shape rs sh then
        Got (mklib (recenter (middle rs) ims cs ++ o_input p) (map (fun _ => store (forallb int_array cns) (middle rs)) cs ++ o_centers p) (names ++ o_names p) (middle rs))%list
      else Fails ValueErr
    end
  end.
(** The shape of the arrays read (2256) *)
Definition shape_of (a : arr) : shape2 := match a with D2 s _ => s | D3 s _ => s | Dother => (0, 0)%nat end.
Definition readdata (l : list frame) (refs : option (list frame)) : res (product * option library) :=
  let! p := read_science l in
  match refs with
  | None => Got (p, None)
  | Some r => let! b := read_refs (match l with f :: _ => shape_of (f_data f) | [] => (0, 0)%nat end) p r in Got (p, Some b)
  end.
End Klip.

(** savedata 2357-2365: the cards of the files used; np.unique sorts *)
Fixpoint insert_s (x : string) (l : list string) : list string := match l with [] => [x] | y :: t => if String.eqb x y then l else if String.leb x y then x :: l else y :: insert_s x t end.
Definition unique_s (l : list string) : list string := fold_right insert_s [] l.
Definition file_cards (names : list string) : nat * list (nat * string) :=
  let u := unique_s names in (List.length u, combine (seq 0 (Z.to_nat 1000)) (map (fun s => s ++ ".fits") u)).
