(** Heap model of Dataset and Image objects, corgidrp/data.py 19-246, 492-583.

    numpy arrays are buffers on a heap; an array attribute of a frame is a view
    (buffer, block index).  A buffer is a list of blocks (one per frame), a
    block is a list of layers (one for data and dq, one or more for err), a
    layer is the list of its pixels (flattened).  Pixel values are abstract;
    [quad a b] stands for sqrt(a**2 + b**2) and [mul] for multiplication.
    Only frames with 2-D data are modelled. *)
From Coq Require Import List Arith Bool String Decimal DecimalString.
From Verif Require Import Base.
Import ListNotations.
Local Open Scope string_scope.
Local Open Scope list_scope.

(** [l[i] = x] on a Python list / array; no effect out of range. *)
Fixpoint set_nth {A} (l : list A) (i : nat) (x : A) : list A :=
  match l, i with
  | [], _ => []
  | _ :: t, O => x :: t
  | y :: t, S i' => y :: set_nth t i' x
  end.

Definition upd {A} (m : nat -> A) (i : nat) (x : A) : nat -> A :=
  fun j => if Nat.eqb j i then x else m j.

(** A FITS header as a list of cards; [HISTORY] cards accumulate, any other
    keyword is replaced in place or appended (astropy [Header.__setitem__]). *)
Definition header := list (string * string).

Fixpoint hreplace (k v : string) (h : header) : option header :=
  match h with
  | [] => None
  | (k', v') :: t => if String.eqb k' k then Some ((k', v) :: t)
                     else match hreplace k v t with Some t' => Some ((k', v') :: t') | None => None end
  end.

Definition hset (k v : string) (h : header) : header :=
  if String.eqb k "HISTORY" then h ++ [(k, v)]
  else match hreplace k v h with Some h' => h' | None => h ++ [(k, v)] end.

Definition hget (k : string) (h : header) : option string :=
  match find (fun c => String.eqb (fst c) k) h with Some c => Some (snd c) | None => None end.

Inductive field : Type := FData | FErr | FDq.

Definition view := (nat * nat)%type.

(** data.py 250-275: the attributes of an [Image] that the model tracks. *)
Record image : Type := mkimage {
  im_data : view; im_err : view; im_dq : view;
  im_pri : nat; im_ext : nat; im_errh : nat; im_dqh : nat;
  im_name : string
}.

Definition im_view (f : field) (m : image) : view :=
  match f with FData => im_data m | FErr => im_err m | FDq => im_dq m end.

Definition set_view (f : field) (v : view) (m : image) : image :=
  match f with
  | FData => mkimage v (im_err m) (im_dq m) (im_pri m) (im_ext m) (im_errh m) (im_dqh m) (im_name m)
  | FErr => mkimage (im_data m) v (im_dq m) (im_pri m) (im_ext m) (im_errh m) (im_dqh m) (im_name m)
  | FDq => mkimage (im_data m) (im_err m) v (im_pri m) (im_ext m) (im_errh m) (im_dqh m) (im_name m)
  end.

(** data.py 19-61: a [Dataset]: its frames (image objects) and three cubes. *)
Record dataset : Type := mkds { ds_frames : list nat; ds_data : nat; ds_err : nat; ds_dq : nat }.

Definition cube (f : field) (d : dataset) : nat :=
  match f with FData => ds_data d | FErr => ds_err d | FDq => ds_dq d end.

Section DatasetModel.
Variable V : Type.
Variable quad mul : V -> V -> V.

Definition layer := list V.
Definition block := list layer.

Record heap : Type := mkheap {
  buf : nat -> list block; nbuf : nat;
  hdr : nat -> header; nhdr : nat;
  img : nat -> image; nimg : nat
}.

Definition set_buf (h : heap) (b : nat) (x : list block) : heap :=
  mkheap (upd (buf h) b x) (nbuf h) (hdr h) (nhdr h) (img h) (nimg h).
Definition set_hdr (h : heap) (i : nat) (x : header) : heap :=
  mkheap (buf h) (nbuf h) (upd (hdr h) i x) (nhdr h) (img h) (nimg h).
Definition set_img (h : heap) (i : nat) (x : image) : heap :=
  mkheap (buf h) (nbuf h) (hdr h) (nhdr h) (upd (img h) i x) (nimg h).

Definition alloc_buf (h : heap) (x : list block) : heap * nat :=
  (mkheap (upd (buf h) (nbuf h) x) (S (nbuf h)) (hdr h) (nhdr h) (img h) (nimg h), nbuf h).
Definition alloc_hdr (h : heap) (x : header) : heap * nat :=
  (mkheap (buf h) (nbuf h) (upd (hdr h) (nhdr h) x) (S (nhdr h)) (img h) (nimg h), nhdr h).
Definition alloc_img (h : heap) (x : image) : heap * nat :=
  (mkheap (buf h) (nbuf h) (hdr h) (nhdr h) (upd (img h) (nimg h) x) (S (nimg h)), nimg h).

(** The array a view denotes. *)
Definition view_block (h : heap) (v : view) : option block :=
  nth_error (buf h (fst v)) (snd v).

(** Shape of a block: the lengths of its layers. *)
Definition shape (b : block) : list nat := map (@List.length V) b.

(** [np.array([frame.x for frame in frames])] (data.py 52-54): the blocks in
    frame order; numpy raises [ValueError] when the shapes differ. *)
Fixpoint gather (h : heap) (f : field) (frames : list nat) : result (list block) :=
  match frames with
  | [] => Ok []
  | k :: t => match view_block h (im_view f (img h k)) with
              | None => Raise IndexError
              | Some b => do bs <- gather h f t; Ok (b :: bs)
              end
  end.

Definition list_nat_eqb (a b : list nat) : bool :=
  if list_eq_dec Nat.eq_dec a b then true else false.

Definition homogeneous (bs : list block) : bool :=
  match bs with
  | [] => true
  | b :: t => forallb (fun b' => list_nat_eqb (shape b') (shape b)) t
  end.

Definition collect (h : heap) (f : field) (frames : list nat) : result (list block) :=
  do bs <- gather h f frames;
  if homogeneous bs then Ok bs else Raise ValueError.

(** [for i, frame in enumerate(frames): frame.x = cube[i]] (data.py 57-60). *)
Fixpoint repoint (h : heap) (f : field) (b : nat) (i : nat) (frames : list nat) : heap :=
  match frames with
  | [] => h
  | k :: t => repoint (set_img h k (set_view f (b, i) (img h k))) f b (S i) t
  end.

(** data.py 31-60 [Dataset.__init__] on a list of frames. *)
Definition new_dataset (h : heap) (frames : list nat) : result (heap * dataset) :=
  match frames with
  | [] => Raise ValueError
  | _ :: _ =>
    do bd <- collect h FData frames;
    do be <- collect h FErr frames;
    do bq <- collect h FDq frames;
    let '(h1, d) := alloc_buf h bd in
    let '(h2, e) := alloc_buf h1 be in
    let '(h3, q) := alloc_buf h2 bq in
    let h4 := repoint h3 FData d 0 frames in
    let h5 := repoint h4 FErr e 0 frames in
    let h6 := repoint h5 FDq q 0 frames in
    Ok (h6, mkds frames d e q)
  end.

(** [a[i][l, p] = x] on a buffer. *)
Definition write_block (bs : list block) (i l p : nat) (x : V) : list block :=
  match nth_error bs i with
  | None => bs
  | Some b => match nth_error b l with
              | None => bs
              | Some ly => set_nth bs i (set_nth b l (set_nth ly p x))
              end
  end.

Definition write_at (h : heap) (b i l p : nat) (x : V) : result heap :=
  match nth_error (buf h b) i with
  | None => Raise IndexError
  | Some bl => match nth_error bl l with
    | None => Raise IndexError
    | Some ly => if Nat.ltb p (List.length ly)
                 then Ok (set_buf h b (write_block (buf h b) i l p x))
                 else Raise IndexError
    end
  end.

(** Writing a pixel of [dataset.frames[i].<field>], or of the cube. *)
Definition write_frame (h : heap) (d : dataset) (f : field) (i l p : nat) (x : V) : result heap :=
  match nth_error (ds_frames d) i with
  | None => Raise IndexError
  | Some k => let v := im_view f (img h k) in write_at h (fst v) (snd v) l p x
  end.

Definition write_cube (h : heap) (d : dataset) (f : field) (i l p : nat) (x : V) : result heap :=
  write_at h (cube f d) i l p x.

(** data.py 106-129 [update_after_processing_step].  [ne] is the caller's
    array (a buffer): it is adopted, not copied.  Returns also the exception;
    what was updated before it stays updated. *)
Definition same_shapes (a b : list block) : bool :=
  Nat.eqb (List.length a) (List.length b)
  && forallb (fun p => list_nat_eqb (shape (fst p)) (shape (snd p))) (combine a b).

(** [shape[-2:]] and [shape[0]] agree: same number of frames and all layers of
    the same size (the number of layers may change). *)
Definition err_shapes (new old : list block) : bool :=
  Nat.eqb (List.length new) (List.length old)
  && forallb (fun b => forallb (fun b' =>
        forallb (fun ly => forallb (fun ly' => Nat.eqb (List.length ly) (List.length ly')) b') b)
        old) new.

Definition set_keys (entries : list (string * string)) (hd : header) : header :=
  fold_left (fun hd kv => hset (fst kv) (snd kv) hd) entries hd.

Fixpoint stamp (h : heap) (history : string) (entries : list (string * string)) (frames : list nat) : heap :=
  match frames with
  | [] => h
  | k :: t =>
    let m := img h k in
    let h1 := set_hdr h (im_ext m) (set_keys entries (hset "HISTORY" history (hdr h (im_ext m)))) in
    let h2 := set_hdr h1 (im_errh m) (set_keys entries (hdr h1 (im_errh m))) in
    stamp h2 history entries t
  end.

Definition update_step (h : heap) (d : dataset) (history : string)
    (nd : option (list block)) (ne : option nat) (nq : option (list block))
    (entries : list (string * string)) : heap * dataset * option exn :=
  let '(h1, x1) :=
    match nd with
    | None => (h, None)
    | Some b => if same_shapes b (buf h (ds_data d)) then (set_buf h (ds_data d) b, None)
                else (h, Some ValueError)
    end in
  match x1 with
  | Some x => (h1, d, Some x)
  | None =>
    let '(h2, d2, x2) :=
      match ne with
      | None => (h1, d, None)
      | Some e => if err_shapes (buf h1 e) (buf h1 (ds_err d))
                  then let d' := mkds (ds_frames d) (ds_data d) e (ds_dq d) in
                       (repoint h1 FErr e 0 (ds_frames d), d', None)
                  else (h1, d, Some ValueError)
      end in
    match x2 with
    | Some x => (h2, d2, Some x)
    | None =>
      let '(h3, x3) :=
        match nq with
        | None => (h2, None)
        | Some b => if same_shapes b (buf h2 (ds_dq d2)) then (set_buf h2 (ds_dq d2) b, None)
                    else (h2, Some ValueError)
        end in
      match x3 with
      | Some x => (h3, d2, Some x)
      | None => (stamp h3 history entries (ds_frames d2), d2, None)
      end
    end
  end.

Definition map2 {A B C} (f : A -> B -> C) (a : list A) (b : list B) : list C :=
  map (fun p => f (fst p) (snd p)) (combine a b).

(** "Layer_<n>". *)
Definition layer_key (n : nat) : string := append "Layer_" (NilEmpty.string_of_uint (Nat.to_uint n)).

(** data.py 528-560 [Image.add_error_term] on image object [k]; [e] is the
    layer to add, [name] its name.  The combined layer is written in place
    through the view; with [track] the array is replaced by a new one with one
    more layer. *)
Definition img_add_error (track : bool) (name : string) (h : heap) (k : nat) (e : layer) : heap * option exn :=
  let m := img h k in
  match view_block h (im_data m), view_block h (im_err m) with
  | Some db, Some (l0 :: rest) =>
    if list_nat_eqb (shape db) [List.length e] then
      let l0' := map2 quad l0 e in
      let h1 := set_buf h (fst (im_err m))
                  (set_nth (buf h (fst (im_err m))) (snd (im_err m)) (l0' :: rest)) in
      let h2 := set_hdr h1 (im_errh m) (hset "Layer_1" "combined_error" (hdr h1 (im_errh m))) in
      let h3 := if track then
                  let '(h2', b) := alloc_buf h2 [(l0' :: rest) ++ [e]] in
                  let h3 := set_img h2' k (set_view FErr (b, 0) m) in
                  set_hdr h3 (im_errh m) (hset (layer_key (S (S (List.length rest)))) name (hdr h3 (im_errh m)))
                else h2 in
      (set_hdr h3 (im_errh m) (hset "HISTORY" (append "Added error term: " name) (hdr h3 (im_errh m))), None)
    else (h, Some ValueError)
  | _, _ => (h, Some IndexError)
  end.

(** data.py 562-583 [Image.rescale_error]: [self.err = self.err * input]. *)
Definition img_rescale (name : string) (h : heap) (k : nat) (e : layer) : heap * option exn :=
  let m := img h k in
  match view_block h (im_data m), view_block h (im_err m) with
  | Some db, Some be =>
    if list_nat_eqb (shape db) [List.length e] then
      let '(h1, b) := alloc_buf h [map (fun ly => map2 mul ly e) be] in
      let h2 := set_img h1 k (set_view FErr (b, 0) m) in
      (set_hdr h2 (im_errh m) (hset "HISTORY" (append "Errors rescaled by: " name)
                                (hset "Layer_1" "combined_error" (hdr h2 (im_errh m)))), None)
    else (h, Some ValueError)
  | _, _ => (h, Some IndexError)
  end.

(** The error argument of the dataset methods: one layer for all frames
    (ndim - 1) or one per frame (ndim); anything else raises. *)
Inductive errarg : Type := EShared (e : layer) | EPer (es : list layer) | EBad.

(** The loops of data.py 159-165, 186-192. *)
Fixpoint loop_err (step : heap -> nat -> layer -> heap * option exn)
    (h : heap) (i : nat) (frames : list nat) (a : errarg) : heap * option exn :=
  match frames with
  | [] => (h, None)
  | k :: t =>
    match (match a with EShared e => Some e | EPer es => nth_error es i | EBad => None end) with
    | None => (h, Some IndexError)
    | Some e => match step h k e with
                | (h', None) => loop_err step h' (S i) t a
                | (h', Some x) => (h', Some x)
                end
    end
  end.

(** data.py 171-174, 197-199: rebuild the error cube and re-link. *)
Definition relink_err (h : heap) (d : dataset) : heap * dataset * option exn :=
  match collect h FErr (ds_frames d) with
  | Raise x => (h, d, Some x)
  | Ok bs => let '(h1, e) := alloc_buf h bs in
             (repoint h1 FErr e 0 (ds_frames d), mkds (ds_frames d) (ds_data d) e (ds_dq d), None)
  end.

Definition err_method (step : heap -> nat -> layer -> heap * option exn)
    (h : heap) (d : dataset) (a : errarg) : heap * dataset * option exn :=
  match a with
  | EBad => (h, d, Some ValueError)
  | _ => match loop_err step h 0 (ds_frames d) a with
         | (h1, Some x) => (h1, d, Some x)
         | (h1, None) => relink_err h1 d
         end
  end.

(** data.py 150-174 and 176-199. *)
Definition ds_add_error (track : bool) (name : string) := err_method (img_add_error track name).
Definition ds_rescale (name : string) := err_method (img_rescale name).

(** data.py 65-71 [__getitem__] with a list of (non-negative) indices; slices
    and boolean masks denote such lists. *)
Fixpoint pick_frames (frames : list nat) (idx : list nat) : result (list nat) :=
  match idx with
  | [] => Ok []
  | i :: t => match nth_error frames i with
              | None => Raise IndexError
              | Some k => do ks <- pick_frames frames t; Ok (k :: ks)
              end
  end.

Definition getitem (h : heap) (d : dataset) (idx : list nat) : result (heap * dataset) :=
  do ks <- pick_frames (ds_frames d) idx; new_dataset h ks.

(** data.py 492-516 [Image.copy].  [stamps] are the DRPVERSN / DRPCTIME cards
    written to the new object's ext_hdr (which is the original's own header
    object when [deep] is false). *)
Definition copy_block (h : heap) (v : view) : heap * view :=
  match view_block h v with
  | Some b => let '(h1, i) := alloc_buf h [b] in (h1, (i, 0))
  | None => (h, v)
  end.

Definition img_copy (deep : bool) (stamps : list (string * string)) (h : heap) (k : nat) : heap * nat :=
  let m := img h k in
  let '(h1, m') :=
    if deep then
      let '(h1, vd) := copy_block h (im_data m) in
      let '(h2, ve) := copy_block h1 (im_err m) in
      let '(h3, vq) := copy_block h2 (im_dq m) in
      let '(h4, p) := alloc_hdr h3 (hdr h (im_pri m)) in
      let '(h5, x) := alloc_hdr h4 (hdr h (im_ext m)) in
      let '(h6, eh) := alloc_hdr h5 (hdr h (im_errh m)) in
      let '(h7, qh) := alloc_hdr h6 (hdr h (im_dqh m)) in
      (h7, mkimage vd ve vq p x eh qh (im_name m))
    else (h, m) in
  let '(h8, k') := alloc_img h1 m' in
  (set_hdr h8 (im_ext m') (set_keys stamps (hdr h8 (im_ext m'))), k').

Fixpoint copy_frames (deep : bool) (stamps : list (string * string)) (h : heap) (frames : list nat)
  : heap * list nat :=
  match frames with
  | [] => (h, [])
  | k :: t => let '(h1, k') := img_copy deep stamps h k in
              let '(h2, t') := copy_frames deep stamps h1 t in
              (h2, k' :: t')
  end.

(** data.py 132-148 [Dataset.copy]. *)
Definition ds_copy (deep : bool) (stamps : list (string * string)) (h : heap) (d : dataset)
  : result (heap * dataset) :=
  let '(h1, frames) := copy_frames deep stamps h (ds_frames d) in new_dataset h1 frames.

(** Setting a header keyword of a frame, and a step that uses the dataset. *)
Inductive hfield : Type := HPri | HExt | HErr | HDq.
Definition im_hdr (f : hfield) (m : image) : nat :=
  match f with HPri => im_pri m | HExt => im_ext m | HErr => im_errh m | HDq => im_dqh m end.

Definition set_key (h : heap) (d : dataset) (f : hfield) (i : nat) (k v : string) : result heap :=
  match nth_error (ds_frames d) i with
  | None => Raise IndexError
  | Some n => let a := im_hdr f (img h n) in Ok (set_hdr h a (hset k v (hdr h a)))
  end.

(** The operations a user can apply to a dataset.  [OUpdate]'s error argument
    is a freshly made array of the given contents. *)
Inductive dop : Type :=
| OWriteFrame (f : field) (i l p : nat) (x : V)
| OWriteCube (f : field) (i l p : nat) (x : V)
| OUpdate (history : string) (nd : option (list block)) (ne : option (list block))
          (nq : option (list block)) (entries : list (string * string))
| OAddError (track : bool) (name : string) (a : errarg)
| ORescale (name : string) (a : errarg)
| OSetKey (f : hfield) (i : nat) (k v : string).

Definition lift (h : heap) (d : dataset) (r : result heap) : heap * dataset * option exn :=
  match r with Ok h' => (h', d, None) | Raise x => (h, d, Some x) end.

Definition dstep (h : heap) (d : dataset) (o : dop) : heap * dataset * option exn :=
  match o with
  | OWriteFrame f i l p x => lift h d (write_frame h d f i l p x)
  | OWriteCube f i l p x => lift h d (write_cube h d f i l p x)
  | OUpdate hist nd ne nq en =>
    match ne with
    | None => update_step h d hist nd None nq en
    | Some bs => let '(h1, e) := alloc_buf h bs in update_step h1 d hist nd (Some e) nq en
    end
  | OAddError t n a => ds_add_error t n h d a
  | ORescale n a => ds_rescale n h d a
  | OSetKey f i k v => lift h d (set_key h d f i k v)
  end.

Definition drun (h : heap) (d : dataset) (os : list dop) : heap * dataset :=
  fold_left (fun s o => fst (dstep (fst s) (snd s) o)) os (h, d).

End DatasetModel.
