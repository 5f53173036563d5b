(** What a user can observe of a dataset, and the relations between datasets
    used to state C04, C05 and C06. *)
From Coq Require Import List Arith Bool String Reals.
From Verif Require Import Base DatasetModel.
Import ListNotations.

Definition field_eqb (a b : field) : bool :=
  match a, b with FData, FData => true | FErr, FErr => true | FDq, FDq => true | _, _ => false end.


Section DatasetSpec.
Variable V : Type.
Variable quad mul : V -> V -> V.
Notation heap := (heap V).

(** Pixel (l, p) of frame [i], read from the cube or from the frame. *)
Definition cube_pixel (h : heap) (d : dataset) (f : field) (i l p : nat) : option V :=
  match nth_error (buf V h (cube f d)) i with
  | Some b => match nth_error b l with Some ly => nth_error ly p | None => None end
  | None => None
  end.

Definition frame_pixel (h : heap) (d : dataset) (f : field) (i l p : nat) : option V :=
  match nth_error (ds_frames d) i with
  | Some k =>
    let v := im_view f (img V h k) in
    match nth_error (buf V h (fst v)) (snd v) with
    | Some b => match nth_error b l with Some ly => nth_error ly p | None => None end
    | None => None
    end
  | None => None
  end.

(** Header of frame [i]. *)
Definition frame_header (h : heap) (d : dataset) (f : hfield) (i : nat) : option header :=
  match nth_error (ds_frames d) i with
  | Some k => Some (hdr V h (im_hdr f (img V h k)))
  | None => None
  end.

(** Everything a user can read of a dataset is the same in two states. *)
Definition same_observations (h1 : heap) (d1 : dataset) (h2 : heap) (d2 : dataset) : Prop :=
  (forall f i l p, cube_pixel h2 d2 f i l p = cube_pixel h1 d1 f i l p)
  /\ (forall f i l p, frame_pixel h2 d2 f i l p = frame_pixel h1 d1 f i l p)
  /\ (forall f i, frame_header h2 d2 f i = frame_header h1 d1 f i).

(** Each frame is a view of its row of each cube, the cubes are three
    different arrays with one block per frame. *)
Definition Linked (h : heap) (d : dataset) : Prop :=
  NoDup (ds_frames d) /\
  (forall f, List.length (buf V h (cube f d)) = List.length (ds_frames d)) /\
  (forall f, (cube f d < nbuf V h)%nat) /\
  (forall f f', cube f d = cube f' d -> f = f') /\
  (forall i k, nth_error (ds_frames d) i = Some k ->
     forall f, im_view f (img V h k) = (cube f d, i)).

(** Frames allocated on the heap, with allocated arrays and headers. *)
Definition Allocated (h : heap) (frames : list nat) : Prop :=
  forall k, In k frames ->
    (k < nimg V h)%nat /\
    (forall f, (fst (im_view f (img V h k)) < nbuf V h)%nat) /\
    (forall f, (im_hdr f (img V h k) < nhdr V h)%nat).

(** The buffers a dataset can reach. *)
Definition Reaches (h : heap) (d : dataset) (b : nat) : Prop :=
  (exists f, b = cube f d)
  \/ (exists k f, In k (ds_frames d) /\ b = fst (im_view f (img V h k))).

(** Two datasets share nothing: no image object, no array, no header. *)
Definition Separate (h : heap) (d1 d2 : dataset) : Prop :=
  (forall k, In k (ds_frames d1) -> ~ In k (ds_frames d2)) /\
  (forall b, Reaches h d1 b -> ~ Reaches h d2 b) /\
  (forall k1 k2 f1 f2, In k1 (ds_frames d1) -> In k2 (ds_frames d2) ->
     im_hdr f1 (img V h k1) <> im_hdr f2 (img V h k2)).

(** No array in common (headers may be shared). *)
Definition PixelSeparate (h : heap) (d1 d2 : dataset) : Prop :=
  (forall k, In k (ds_frames d1) -> ~ In k (ds_frames d2)) /\
  (forall b, Reaches h d1 b -> ~ Reaches h d2 b).

Definition WellFormed (h : heap) (d : dataset) : Prop :=
  Allocated h (ds_frames d) /\ (forall f, (cube f d < nbuf V h)%nat).

(** An operation keeps the link if it does not raise, or is not one of the two
    error methods. *)
Definition link_safe (o : dop V) (x : option exn) : Prop :=
  match o with
  | OAddError _ _ _ _ | ORescale _ _ _ => x = None
  | _ => True
  end.

Fixpoint all_safe (h : heap) (d : dataset) (os : list (dop V)) : Prop :=
  match os with
  | [] => True
  | o :: t => let '(h', d', x) := dstep V quad mul h d o in link_safe o x /\ all_safe h' d' t
  end.

(** Interleaved histories on two datasets: [true] operates on the first. *)
Definition both_step (s : heap * dataset * dataset) (bo : bool * dop V) : heap * dataset * dataset :=
  let '(h, d1, d2) := s in
  if fst bo then let '(h', d1', _) := dstep V quad mul h d1 (snd bo) in (h', d1', d2)
  else let '(h', d2', _) := dstep V quad mul h d2 (snd bo) in (h', d1, d2').

Definition both_run (s : heap * dataset * dataset) (os : list (bool * dop V)) : heap * dataset * dataset :=
  fold_left both_step os s.

(** The argument for frame [i]. *)
Definition err_for (a : errarg V) (i : nat) : option (layer V) :=
  match a with EShared _ e => Some e | EPer _ es => nth_error es i | EBad _ => None end.

(** Distinct frames have distinct error headers. *)
Definition OwnHeaders (h : heap) (d : dataset) : Prop :=
  forall k k', In k (ds_frames d) -> In k' (ds_frames d) -> im_errh (img V h k) = im_errh (img V h k') -> k = k'.

(** No header object is shared between frames or roles. *)
Definition OwnAll (h : heap) (d : dataset) : Prop :=
  forall k k' f f', In k (ds_frames d) -> In k' (ds_frames d) ->
    im_hdr f (img V h k) = im_hdr f' (img V h k') -> k = k' /\ f = f'.

(** A caller's sequence of [dataset.add_error_term(array, name)]; stops at the
    first exception. *)
Fixpoint add_run (track : bool) (h : heap) (d : dataset) (ts : list (string * errarg V)) : heap * dataset * option exn :=
  match ts with
  | [] => (h, d, None)
  | (n, a) :: t => match ds_add_error V quad track n h d a with
                   | (h1, d1, None) => add_run track h1 d1 t
                   | r => r
                   end
  end.

End DatasetSpec.

(** Real errors. *)
Definition quadR (a b : R) : R := sqrt (a ^ 2 + b ^ 2).

Definition sumsq (xs : list R) : R := fold_right (fun x s => (x ^ 2 + s)%R) 0%R xs.


