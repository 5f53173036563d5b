(** The steps from L1 to L3 as programs on the heap of DatasetModel: corgidrp/l1_to_l2a.py 6-366, l2a_to_l2b.py 8-459,
    l2b_to_l3.py 7-148.

    What a step does to arrays, headers and frame objects is modelled in full; what it computes (pixels, values of cards, gains,
    decisions, texts of messages) is an argument, a function of the heap and the dataset at that moment that may raise.  The
    numbers themselves are the matter of C13, C14, C25, C26, C29, C47, C48 and C49.  Left out: file names (C08, C09), extensions beyond
    data, err and dq, and the file that dark_subtraction writes.  If a copy raises, the heap is left as it was. *)
From Coq Require Import List Arith Bool String.
From Verif Require Import Base DatasetModel SplitModel.
Import ListNotations.
Local Open Scope string_scope.
Local Open Scope list_scope.

Section AliasModel.
Variable V : Type.
Variable quad mul : V -> V -> V.
Variable leb : string -> string -> bool.
(** corgidrp.track_individual_errors; the cards of version and time that a copy is given (data.py 512-513) *)
Variable track : bool.
Variable stamps : list (string * string).
Notation heap := (heap V).
Notation block := (block V).
Notation layer := (layer V).

(** The heap after a call, and its result *)
Definition out : Type := (heap * result dataset)%type.
Definition done (r : heap * dataset * option exn) : out := let '(h, d, x) := r in (h, match x with None => Ok d | Some e => Raise e end).
Definition andthen (r : out) (k : heap -> dataset -> out) : out := match r with (h, Ok d) => k h d | (h, Raise e) => (h, Raise e) end.
Definition after (r : heap * option exn) (k : heap -> out) : out := match r with (h, None) => k h | (h, Some e) => (h, Raise e) end.
Definition given {A} (h : heap) (r : result A) (k : A -> out) : out := match r with Ok a => k a | Raise e => (h, Raise e) end.
(** input_dataset.copy() and copy(copy_data=False) *)
Definition copied (deep : bool) (h : heap) (d : dataset) : out := match ds_copy V deep stamps h d with Ok (h', d') => (h', Ok d') | Raise e => (h, Raise e) end.
Definition updated (h : heap) (d : dataset) (hist : string) (nd : option (list block)) (ne : option nat) (nq : option (list block)) (en : list (string * string)) : out := done (update_step V h d hist nd ne nq en).

(** frame.ext_hdr[key] = value for the cards of each frame *)
Fixpoint cards (h : heap) (frames : list nat) (css : list (list (string * string))) : heap * option exn :=
  match frames, css with
  | [], _ => (h, None)
  | k :: t, c :: ct => let a := im_ext (img V h k) in cards (set_hdr V h a (set_keys c (hdr V h a))) t ct
  | _ :: _, [] => (h, Some IndexError)
  end.
(** array[...] = block, in place *)
Definition put (h : heap) (v : view) (b : block) : heap * option exn :=
  match view_block V h v with
  | Some b0 => if list_nat_eqb (shape V b) (shape V b0) then (set_buf V h (fst v) (set_nth (buf V h (fst v)) (snd v) b), None) else (h, Some ValueError)
  | None => (h, Some IndexError)
  end.
Definition seq2 (r : heap * option exn) (k : heap -> heap * option exn) : heap * option exn := match r with (h, None) => k h | _ => r end.
Definition given2 {A} (h : heap) (r : result A) (k : A -> heap * option exn) : heap * option exn := match r with Ok a => k a | Raise e => (h, Some e) end.
(** for i, frame in enumerate(frames) *)
Fixpoint each (body : heap -> nat -> nat -> heap * option exn) (h : heap) (i : nat) (frames : list nat) : heap * option exn :=
  match frames with [] => (h, None) | k :: t => seq2 (body h i k) (fun h => each body h (S i) t) end.
(** A cube written in place, frame by frame *)
Definition filled (f : field) (new : heap -> dataset -> nat -> result block) (h : heap) (d : dataset) : heap * option exn :=
  each (fun h i _ => given2 h (new h d i) (put h (cube f d, i))) h 0 (ds_frames d).
(** np.array([frame.err for frame in dataset.frames]) *)
Definition stacked (f : field) (h : heap) (d : dataset) (k : heap -> nat -> out) : out := given h (collect V h f (ds_frames d)) (fun bs => let '(h1, e) := alloc_buf V h bs in k h1 e).

(** l1_to_l2a.py 6-157: new arrays of another size are put in place of those of a copy that shares its headers with the input; [cut] gives data, err, dq and the error of the bias for a frame; [size] the cards NAXIS1 and NAXIS2 *)
Fixpoint all_cut (cut : nat -> result (block * block * block * layer)) (i n : nat) : result (list (block * block * block * layer)) :=
  match n with O => Ok [] | S n => do c <- cut i; do cs <- all_cut cut (S i) n; Ok (c :: cs) end.
Definition replaced (h : heap) (d : dataset) (bd be bq : list block) : heap * dataset :=
  let '(h1, x) := alloc_buf V h bd in let '(h2, y) := alloc_buf V h1 be in let '(h3, z) := alloc_buf V h2 bq in
  (repoint V (repoint V (repoint V h3 FData x 0 (ds_frames d)) FErr y 0 (ds_frames d)) FDq z 0 (ds_frames d), mkds (ds_frames d) x y z).
Definition prescan_biassub (cut : heap -> dataset -> nat -> result (block * block * block * layer)) (size : block -> list (string * string)) (hist : string) (h : heap) (d : dataset) : out :=
  given h (all_cut (cut h d) 0 (List.length (ds_frames d))) (fun cs =>
  let bd := map (fun c => fst (fst (fst c))) cs in let be := map (fun c => snd (fst (fst c))) cs in let bq := map (fun c => snd (fst c)) cs in
  if homogeneous V bd && homogeneous V be && homogeneous V bq then
    andthen (copied false h d) (fun h d =>
    let '(h, d) := replaced h d bd be bq in
    after (cards h (ds_frames d) (map size bd)) (fun h =>
    andthen (done (ds_add_error V quad track "prescan_bias_sub" h d (EPer V (map snd cs)))) (fun h d =>
    updated h d hist None None None [])))
  else (h, Raise ValueError)).
(** l1_to_l2a.py 160-283: cards of full wells and saturation, then new flags *)
Definition detect_cosmic_rays (wells : heap -> dataset -> result (list (list (string * string)))) (flags : heap -> dataset -> result (list block)) (hist : string) (h : heap) (d : dataset) : out :=
  andthen (copied true h d) (fun h d =>
  given h (wells h d) (fun css =>
  after (cards h (ds_frames d) css) (fun h =>
  given h (flags h d) (fun q => updated h d hist None None (Some q) [])))).
(** l1_to_l2a.py 286-330: flags through the frame, data through the cube; without a correction there is no update *)
Definition correct_nonlinearity (flag linear : heap -> dataset -> nat -> result block) (hist : option string) (h : heap) (d : dataset) : out :=
  andthen (copied true h d) (fun h d =>
  match ds_frames d with
  | [] => (h, Raise IndexError)
  | k0 :: _ =>
    match hget "EMGAIN_C" (hdr V h (im_ext (img V h k0))) with
    | None => (h, Raise ValueError)
    | Some _ =>
      after (each (fun h i k => seq2 (given2 h (flag h d i) (put h (im_dq (img V h k)))) (fun h => given2 h (linear h d i) (put h (ds_data d, i)))) h 0 (ds_frames d)) (fun h =>
      match hist with Some m => updated h d m (Some (buf V h (ds_data d))) None None [] | None => (h, Ok d) end)
    end
  end).
(** l1_to_l2a.py 333-366, l2a_to_l2b.py 427-459, l2b_to_l3.py 112-148: the level, on a copy that shares its headers *)
Fixpoint levels (h : heap) (from : string) (frames : list nat) : result unit :=
  match frames with
  | [] => Ok tt
  | k :: t => match hget "DATALVL" (hdr V h (im_ext (img V h k))) with
              | None => Raise KeyError
              | Some l => if String.eqb l from then levels h from t else Raise ValueError
              end
  end.
Definition update_to (from to hist : string) (h : heap) (d : dataset) : out :=
  given h (levels h from (ds_frames d)) (fun _ =>
  andthen (copied false h d) (fun h d =>
  after (cards h (ds_frames d) (map (fun _ => [("DATALVL", to)]) (ds_frames d))) (fun h => updated h d hist None None None []))).
(** l2a_to_l2b.py 8-42: an error term for each frame, then the cube of them *)
Definition add_photon_noise (noise : heap -> dataset -> nat -> result layer) (hist : string) (h : heap) (d : dataset) : out :=
  andthen (copied true h d) (fun h d =>
  after (each (fun h i k => given2 h (noise h d i) (img_add_error V quad track "photnoise_error" h k)) h 0 (ds_frames d)) (fun h =>
  stacked FErr h d (fun h e => updated h d hist None (Some e) None []))).
(** l2a_to_l2b.py 45-116: the input itself is split by its headers, and with [maps] (a dark made from noise maps) once more by darks.py 806, which happens after the copy and is done before it here: the two touch no common object;
    [dark] gives the new data, the error of the dark and the new flags *)
Definition dark_keys : option (list string) := Some ["EXPTIME"; "EMGAIN_C"; "KGAINPAR"].
Definition again (maps : bool) (h : heap) (d : dataset) : result heap := if maps then do r <- split_dataset V leb h d None dark_keys; Ok (fst (fst r)) else Ok h.
Definition dark_subtraction (maps : bool) (dark : heap -> dataset -> result (list block * layer * list block)) (hist : string) (h : heap) (d : dataset) : out :=
  match split_dataset V leb h d None dark_keys with
  | Raise e => (h, Raise e)
  | Ok (h, _, keys) =>
    if (1 <? List.length keys)%nat then (h, Raise PyException) else
    given h (again maps h d) (fun h =>
    andthen (copied true h d) (fun h d =>
    given h (dark h d) (fun r => let '(bd, e, bq) := r in
    andthen (done (ds_add_error V quad track "dark_error" h d (EShared V e))) (fun h d =>
    updated h d hist (Some bd) None (Some bq) [("BUNIT", "Photoelectrons")]))))
  end.
(** l2a_to_l2b.py 118-155: [flat] gives the new data, the new flags, one over the flat and the error of the flat *)
Definition flat_division (flat : heap -> dataset -> result (list block * list block * layer)) (error : heap -> dataset -> result (list layer)) (hist : string) (h : heap) (d : dataset) : out :=
  andthen (copied true h d) (fun h d =>
  given h (flat h d) (fun r => let '(bd, bq, inv) := r in
  andthen (done (ds_rescale V mul "FlatField" h d (EShared V inv))) (fun h d =>
  given h (error h d) (fun es =>
  andthen (done (ds_add_error V quad track "FlatField_error" h d (EPer V es))) (fun h d =>
  updated h d hist (Some bd) None (Some bq) []))))).
(** l2a_to_l2b.py 157-254: cards for every frame; [choose] tells which frames to reject; the others of the copy make the result, or all *)
Fixpoint goods (i : nat) (bad : list bool) : list nat := match bad with [] => [] | b :: t => if b then goods (S i) t else i :: goods (S i) t end.
Definition frame_select (choose : heap -> dataset -> result (list (list (string * string)) * list bool)) (discard : bool) (hist : string) (h : heap) (d : dataset) : out :=
  andthen (copied true h d) (fun h d =>
  given h (choose h d) (fun r => let '(css, bad) := r in
  after (cards h (ds_frames d) css) (fun h =>
  match goods 0 bad with
  | [] => (h, Raise ValueError)
  | good =>
    if discard then match getitem V h d good with Ok (h, d) => updated h d hist None None None [] | Raise e => (h, Raise e) end
    else updated h d hist None None None []
  end))).
(** l2a_to_l2b.py 256-286: new errors first, data in place, then the update with the copy's own cube *)
Definition convert_to_electrons (error : heap -> dataset -> result (list block)) (electrons : heap -> dataset -> nat -> result block) (hist : string) (en : list (string * string)) (h : heap) (d : dataset) : out :=
  andthen (copied true h d) (fun h d =>
  given h (error h d) (fun be =>
  after (filled FData electrons h d) (fun h =>
  let '(h, e) := alloc_buf V h be in updated h d hist (Some (buf V h (ds_data d))) (Some e) None en))).
(** l2a_to_l2b.py 288-326: data and errors in place; the copy is split by its gains; the update with its own cubes *)
Definition em_gain_division (data error : heap -> dataset -> nat -> result block) (hist : bool -> string) (h : heap) (d : dataset) : out :=
  andthen (copied true h d) (fun h d =>
  after (each (fun h i _ => seq2 (given2 h (data h d i) (put h (ds_data d, i))) (fun h => given2 h (error h d i) (put h (ds_err d, i)))) h 0 (ds_frames d)) (fun h =>
  match split_dataset V leb h d None (Some ["EMGAIN_C"]) with
  | Raise e => (h, Raise e)
  | Ok (h, subs, _) => updated h d (hist (1 <? List.length subs)%nat) (Some (buf V h (ds_data d))) (Some (ds_err d)) None [("BUNIT", "detected electrons")]
  end)).
(** l2a_to_l2b.py 329-344 *)
Definition cti_correction (h : heap) (d : dataset) : out := copied true h d.
(** l2a_to_l2b.py 347-385: data in place, flags new *)
Definition correct_bad_pixels (data : heap -> dataset -> nat -> result block) (flags : heap -> dataset -> result (list block)) (hist : string) (h : heap) (d : dataset) : out :=
  andthen (copied true h d) (fun h d =>
  given h (flags h d) (fun q =>
  after (filled FData data h d) (fun h => updated h d hist (Some (buf V h (ds_data d))) None (Some q) []))).
(** l2a_to_l2b.py 388-424 *)
Definition desmear (data : heap -> dataset -> nat -> result block) (hist : string) (h : heap) (d : dataset) : out :=
  andthen (copied true h d) (fun h d =>
  after (filled FData data h d) (fun h => updated h d hist (Some (buf V h (ds_data d))) None None [("DESMEAR", "True")])).
(** l2b_to_l3.py 7-71 *)
Definition create_wcs (wcs : heap -> dataset -> result (list (list (string * string)))) (hist : string) (h : heap) (d : dataset) : out :=
  andthen (copied true h d) (fun h d =>
  given h (wcs h d) (fun css =>
  after (cards h (ds_frames d) css) (fun h => updated h d hist None None None []))).
(** l2b_to_l3.py 73-109: every frame gets a new array of data and of errors, and a card; then both cubes are updated with copies of them *)
Definition own_data (h : heap) (k : nat) (b : block) : heap := let '(h1, x) := alloc_buf V h [b] in set_img V h1 k (set_view FData (x, 0) (img V h1 k)).
Definition divide_by_exptime (data : heap -> dataset -> nat -> result (block * layer)) (hist : string) (h : heap) (d : dataset) : out :=
  andthen (copied true h d) (fun h d =>
  after (each (fun h i k => given2 h (data h d i) (fun r => let h := own_data h k (fst r) in
    seq2 (img_rescale V mul "normalized by the exposure time" h k (snd r)) (fun h => (set_hdr V h (im_ext (img V h k)) (hset "BUNIT" "photoelectrons/s" (hdr V h (im_ext (img V h k)))), None)))) h 0 (ds_frames d)) (fun h =>
  given h (collect V h FData (ds_frames d)) (fun bd =>
  stacked FErr h d (fun h e => updated h d hist (Some bd) (Some e) None [])))).

(** A step with all it needs *)
Inductive step : Type :=
| Prescan (cut : heap -> dataset -> nat -> result (block * block * block * layer)) (size : block -> list (string * string)) (hist : string)
| Cosmics (wells : heap -> dataset -> result (list (list (string * string)))) (flags : heap -> dataset -> result (list block)) (hist : string)
| Nonlinearity (flag linear : heap -> dataset -> nat -> result block) (hist : option string)
| Level (from to hist : string)
| PhotonNoise (noise : heap -> dataset -> nat -> result layer) (hist : string)
| DarkSub (maps : bool) (dark : heap -> dataset -> result (list block * layer * list block)) (hist : string)
| FlatDiv (flat : heap -> dataset -> result (list block * list block * layer)) (error : heap -> dataset -> result (list layer)) (hist : string)
| Select (choose : heap -> dataset -> result (list (list (string * string)) * list bool)) (discard : bool) (hist : string)
| Electrons (error : heap -> dataset -> result (list block)) (electrons : heap -> dataset -> nat -> result block) (hist : string) (en : list (string * string))
| EmGain (data error : heap -> dataset -> nat -> result block) (hist : bool -> string)
| Cti
| BadPixels (data : heap -> dataset -> nat -> result block) (flags : heap -> dataset -> result (list block)) (hist : string)
| Desmear (data : heap -> dataset -> nat -> result block) (hist : string)
| Wcs (wcs : heap -> dataset -> result (list (list (string * string)))) (hist : string)
| ExpTime (data : heap -> dataset -> nat -> result (block * layer)) (hist : string).
Definition call (s : step) : heap -> dataset -> out :=
  match s with
  | Prescan c z m => prescan_biassub c z m | Cosmics w f m => detect_cosmic_rays w f m | Nonlinearity f l m => correct_nonlinearity f l m
  | Level a b m => update_to a b m | PhotonNoise n m => add_photon_noise n m | DarkSub b k m => dark_subtraction b k m | FlatDiv f e m => flat_division f e m
  | Select c b m => frame_select c b m | Electrons e c m en => convert_to_electrons e c m en | EmGain a b m => em_gain_division a b m | Cti => cti_correction
  | BadPixels a f m => correct_bad_pixels a f m | Desmear a m => desmear a m | Wcs w m => create_wcs w m | ExpTime a m => divide_by_exptime a m
  end.
(** A history: each call is a step and the place of its input among the datasets had so far; what returns is put behind them, what raises leaves the rest to go on *)
Fixpoint history (h : heap) (pool : list dataset) (calls : list (step * nat)) : heap * list dataset :=
  match calls with
  | [] => (h, pool)
  | (s, i) :: t =>
    match nth_error pool i with
    | None => history h pool t
    | Some d => match call s h d with (h', Ok d') => history h' (pool ++ [d']) t | (h', Raise _) => history h' pool t end
    end
  end.
End AliasModel.
