(** Property theorem C07. *)
From Coq Require Import List Arith Bool Lia NArith String Ascii Sorted Permutation.
From Verif Require Import Base DatasetModel DatasetSpec DatasetProofs DatasetCopyProofs DatasetSliceProofs
  SplitModel SplitSpec SplitProofs.
Import ListNotations.
Local Open Scope nat_scope.
Local Open Scope string_scope.
Local Open Scope list_scope.

(** Python's order of strings is a total order. *)
Lemma ascii_compare_lt_trans a b c : Ascii.compare a b = Lt -> Ascii.compare b c = Lt -> Ascii.compare a c = Lt.
Proof. unfold Ascii.compare. rewrite !N.compare_lt_iff. apply N.lt_trans. Qed.
Lemma string_compare_lt_trans : forall a b c, String.compare a b = Lt -> String.compare b c = Lt -> String.compare a c = Lt.
Proof.
  induction a as [|x a IH]; intros [|y b] [|z c] H1 H2; cbn in *; try discriminate; try reflexivity.
  destruct (Ascii.compare x y) eqn:E1; try discriminate; destruct (Ascii.compare y z) eqn:E2; try discriminate.
  - apply Ascii.compare_eq_iff in E1, E2. subst. assert (Ascii.compare z z = Eq) as -> by apply N.compare_refl. eapply IH; eassumption.
  - apply Ascii.compare_eq_iff in E1. subst. rewrite E2. reflexivity.
  - apply Ascii.compare_eq_iff in E2. subst. rewrite E1. reflexivity.
  - rewrite (ascii_compare_lt_trans _ _ _ E1 E2). reflexivity.
Qed.
Lemma string_leb_total_order : total_order String.leb.
Proof.
  split; [|split].
  - intros a b. apply String.leb_total.
  - intros a b. apply String.leb_antisym.
  - intros a b c. unfold String.leb. intros H1 H2.
    destruct (String.compare a b) eqn:E1; try discriminate; destruct (String.compare b c) eqn:E2; try discriminate.
    + apply String.compare_eq_iff in E1, E2. subst. destruct (String.leb_total c c) as [Q|Q]; exact Q.
    + apply String.compare_eq_iff in E1. subst. rewrite E2. reflexivity.
    + apply String.compare_eq_iff in E2. subst. rewrite E1. reflexivity.
    + rewrite (string_compare_lt_trans _ _ _ E1 E2). reflexivity.
Qed.

(** Three frames with exposure times 2, 1, 2. *)
Definition sp_heap : heap nat :=
  mkheap nat (fun b => [[[b; b]]]) 9
    (fun i => match i with 2 => [("EXPTIME", "2")] | 7 => [("EXPTIME", "1")] | 12 => [("EXPTIME", "2")] | _ => [] end) 15
    (fun k => mkimage (3 * k, 0) (3 * k + 1, 0) (3 * k + 2, 0) (5 * k + 1) (5 * k + 2) (5 * k + 3) (5 * k + 4) "f") 3.
Definition sp_pair : heap nat * dataset :=
  match new_dataset nat sp_heap [0; 1; 2] with Ok s => s | Raise _ => (sp_heap, mkds [] 0 0 0) end.
Definition sph := fst sp_pair.
Definition spd := snd sp_pair.

(** * C07 *)
Theorem C07_groups : forall V leb (h : heap V) d pri ext h' subs keys,
  total_order leb -> Linked V h d ->
  split_dataset V leb h d pri ext = Ok (h', subs, keys) ->
  let p := match pri with Some l => l | None => [] end in
  let e := match ext with Some l => l | None => [] end in
  List.length subs = List.length keys
  /\ StronglySorted (key_lt leb) keys /\ NoDup keys
  /\ (forall key, In key keys <-> exists k, In k (ds_frames d) /\ has_key V h p e k key)
  /\ (forall j s key, nth_error subs j = Some s -> nth_error keys j = Some key ->
        Linked V h' s
        /\ ds_frames s <> []
        /\ (forall k, In k (ds_frames s) <-> In k (ds_frames d) /\ has_key V h p e k key)
        /\ (exists idx, StronglySorted lt idx /\ List.length idx = List.length (ds_frames s)
              /\ forall a i, nth_error idx a = Some i -> nth_error (ds_frames s) a = nth_error (ds_frames d) i
                   /\ forall f l px, cube_pixel V h' s f a l px = cube_pixel V h d f i l px))
  /\ (forall f i l px, cube_pixel V h' d f i l px = cube_pixel V h d f i l px)
  /\ hdr V h' = hdr V h.
Proof. exact split_dataset_spec. Qed.
Print Assumptions C07_groups.

(** Every frame is in exactly one group, groups hold only frames of the
    dataset, and two frames share a group iff they agree on all keywords. *)
Theorem C07_partition : forall V leb (h : heap V) d pri ext h' subs keys,
  total_order leb -> Linked V h d ->
  split_dataset V leb h d pri ext = Ok (h', subs, keys) ->
  let p := match pri with Some l => l | None => [] end in
  let e := match ext with Some l => l | None => [] end in
  (forall k, In k (ds_frames d) -> exists! j, exists s, nth_error subs j = Some s /\ In k (ds_frames s))
  /\ (forall s k, In s subs -> In k (ds_frames s) -> In k (ds_frames d))
  /\ (forall j j' s s' k k', nth_error subs j = Some s -> nth_error subs j' = Some s' ->
        In k (ds_frames s) -> In k' (ds_frames s') -> (j = j' <-> agree V h p e k k')).
Proof. exact split_partition. Qed.
Print Assumptions C07_partition.

(** It succeeds exactly when a keyword is given and every frame has them all. *)
Theorem C07_outcome : forall V leb (h : heap V) d pri ext,
  Linked V h d -> Uniform V h d ->
  let p := match pri with Some l => l | None => [] end in
  let e := match ext with Some l => l | None => [] end in
  match split_dataset V leb h d pri ext with
  | Ok _ => p ++ e <> [] /\ forall k, In k (ds_frames d) -> has_keywords V h p e k
  | Raise x => (x = ValueError /\ p ++ e = []) \/
               (x = KeyError /\ exists k, In k (ds_frames d) /\ ~ has_keywords V h p e k)
  end.
Proof. exact split_outcome. Qed.
Print Assumptions C07_outcome.

Example C07_example_linked : Linked nat sph spd.
Proof.
  apply (new_dataset_linked nat sp_heap [0; 1; 2] sph spd); [|reflexivity].
  repeat constructor; cbn; intuition congruence.
Qed.
Example C07_example_split :
  (do r <- split_dataset nat String.leb sph spd None (Some ["EXPTIME"]);
   Ok (map ds_frames (snd (fst r)), snd r)) = Ok ([[1]; [0; 2]], [["1"]; ["2"]]).
Proof. vm_compute. reflexivity. Qed.
Example C07_example_uniform : Uniform nat sph spd.
Proof.
  intro f. exists [2]. intros k Hk. destruct f; destruct Hk as [<-|[<-|[<-|[]]]]; eexists; (split; [vm_compute; reflexivity|reflexivity]).
Qed.
Example C07_example_missing :
  (do r <- split_dataset nat String.leb sph spd (Some ["VISITID"]) (Some ["EXPTIME"]); Ok tt) = Raise KeyError.
Proof. vm_compute. reflexivity. Qed.
