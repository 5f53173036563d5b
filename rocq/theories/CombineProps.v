(** Property theorems C10, C11, C12. *)
From Coq Require Import List Arith Bool String NArith ZArith Reals Sorted Permutation Lia Lra.
From Verif Require Import Base BaseProofs DatasetModel DatasetSpec SplitModel CombineModel CombineSpec CombineProofs.
Import ListNotations.
Local Open Scope string_scope.
Local Open Scope list_scope.

(** A set iteration order. *)
Definition ex_order : list string -> list string := nodup string_dec.
Lemma ex_order_ok : lists_set ex_order.
Proof. intro l. split; [apply NoDup_nodup|]. intro s. apply nodup_In. Qed.

(** * C10 *)

(** Recording parents succeeds exactly when every input has the FILE cards it
    announces (otherwise KeyError); the record is then complete, repeats no
    name, holds exactly the inputs' names and the names recorded in them, and
    nothing else of the header changes. *)
Theorem C10_record : forall order m imgs, lists_set order ->
  match record_parents order m imgs with
  | Ok m' => (forall x, In x imgs -> complete x)
             /\ complete m' /\ no_repeat m'
             /\ (forall s, recorded m' s <-> exists x, In x imgs /\ (s = p_name x \/ recorded x s))
             /\ p_name m' = p_name m /\ p_numfr m' = p_numfr m /\ p_pri m' = p_pri m /\ p_ext m' = p_ext m
             /\ p_errh m' = p_errh m /\ p_dqh m' = p_dqh m
  | Raise x => x = KeyError /\ exists y, In y imgs /\ ~ complete y
  end.
Proof. exact record_parents_spec. Qed.
Print Assumptions C10_record.

(** Over any combination tree the root records exactly the images below it. *)
Theorem C10_tree : forall order, lists_set order -> forall t m, make order t = Ok m ->
  (forall s, recorded m s <-> below t s)
  /\ (match t with Raw _ => True | Product _ _ => complete m /\ no_repeat m end).
Proof. exact make_records. Qed.
Print Assumptions C10_tree.

Theorem C10_tree_total : forall order, lists_set order -> forall t, raw_complete t ->
  exists m, make order t = Ok m /\ complete m.
Proof. exact make_total. Qed.
Print Assumptions C10_tree_total.

Definition ex_raw (s : string) : himg := mkhimg s None (fun _ => None) None [] [] [] [].
Definition ex_tree : tree :=
  Product (ex_raw "top") [Product (ex_raw "mid") [Raw (ex_raw "a"); Raw (ex_raw "b")]; Raw (ex_raw "b"); Raw (ex_raw "c")].
Example C10_example : raw_complete ex_tree
  /\ match make ex_order ex_tree with
     | Ok m => p_nfile m = Some 4%nat /\ map (p_file m) [0; 1; 2; 3]%nat = map Some ["mid"; "a"; "b"; "c"]
     | Raise _ => False end.
Proof.
  split; [|vm_compute; auto].
  cbn. unfold complete. repeat split; intros; discriminate.
Qed.

(** * C12 *)
Local Open Scope R_scope.

(** With finite values at the good samples. *)
Theorem C12_good_samples : forall n data err dq md sc p,
  (forall i, (i < n)%nat -> dq i p = 0%N -> data i p <> None /\ forall l, err i l p <> None) ->
  match good_idx n dq p with
  | [] => data_collapse n data dq md sc p = None
          /\ (forall l, err_collapse n err dq md sc l p = None)
          /\ dq_collapse n data dq md sc p = dq_or n dq p
          /\ ((0 < n)%nat -> dq_collapse n data dq md sc p <> 0%N)
  | _ :: _ =>
      (exists vs m, map Some vs = map (fun i => data i p) (good_idx n dq p)
          /\ collapsed md vs m /\ data_collapse n data dq md sc p = Some (m * scale_factor sc n))
      /\ (forall l, exists es e, map Some es = map (fun i => err i l p) (good_idx n dq p)
          /\ err_collapse n err dq md sc l p = Some e /\ 0 <= e
          /\ e * e = rsum (map (fun r => r * r) es) / (INR (List.length es) * INR (List.length es)) * median_factor md * (scale_factor sc n * scale_factor sc n))
      /\ dq_collapse n data dq md sc p = 0%N
  end.
Proof. exact combine_pixel. Qed.
Print Assumptions C12_good_samples.

(** The median in the statement is one number. *)
Theorem C12_median_unique : forall l m m', is_median l m -> is_median l m' -> m = m'.
Proof. exact is_median_unique. Qed.
Print Assumptions C12_median_unique.

(** The OR of the flags, bit by bit. *)
Theorem C12_flags : forall n dq p b,
  N.testbit (dq_or n dq p) b = true <-> exists i, (i < n)%nat /\ N.testbit (dq i p) b = true.
Proof.
  intros n dq p b. rewrite dq_or_bits, existsb_exists. split.
  - intros (i & Hi & Q). apply in_seq in Hi. exists i. split; [lia|exact Q].
  - intros (i & Hi & Q). exists i. split; [apply in_seq; lia|exact Q].
Qed.
Print Assumptions C12_flags.

(** Only the good samples matter, whatever the NaN pattern. *)
Theorem C12_depends_on_good_only : forall n data data' err err' dq md sc p,
  (forall i, (i < n)%nat -> dq i p = 0%N -> data i p = data' i p /\ forall l, err i l p = err' i l p) ->
  data_collapse n data dq md sc p = data_collapse n data' dq md sc p
  /\ (forall l, err_collapse n err dq md sc l p = err_collapse n err' dq md sc l p)
  /\ dq_collapse n data dq md sc p = dq_collapse n data' dq md sc p.
Proof. exact collapse_congr. Qed.
Print Assumptions C12_depends_on_good_only.

(** For any NaN pattern: NaN samples that are not flagged are skipped in the
    mean and the median. *)
Theorem C12_with_nans : forall n data dq md sc p,
  match data_collapse n data dq md sc p with
  | Some x => exists m, collapsed md (good_data n data dq p) m /\ x = m * scale_factor sc n
  | None => good_data n data dq p = []
  end.
Proof. exact data_collapse_spec. Qed.
Print Assumptions C12_with_nans.

(** But they are counted in the number of samples by which the error is
    divided. *)
Theorem C12_error_with_nans : forall n err dq md sc l p,
  match err_collapse n err dq md sc l p with
  | Some e => good_err n err dq l p <> [] /\ 0 <= e /\
      e * e * (INR (List.length (good_err n err dq l p)) * INR (List.length (good_idx n dq p)))
      = rsum (map (fun r => r * r) (good_err n err dq l p)) * (median_factor md * (scale_factor sc n * scale_factor sc n))
  | None => good_err n err dq l p = []
  end.
Proof. exact err_collapse_spec. Qed.
Print Assumptions C12_error_with_nans.

(** So with NaNs that carry no flag a NaN pixel can come out with DQ 0. *)
Theorem C12_unflagged_nan_refuted : forall n md sc p, (0 < n)%nat ->
  exists data dq, data_collapse n data dq md sc p = None /\ dq_collapse n data dq md sc p = 0%N.
Proof.
  intros n md sc p Hn. exists (fun _ _ => None), (fun _ _ => 0%N).
  assert (D : data_collapse n (fun _ _ => None) (fun _ _ => 0%N) md sc p = None).
  { pose proof (data_collapse_spec n (fun _ _ => None) (fun _ _ => 0%N) md sc p) as Q.
    destruct (data_collapse n (fun _ _ => None) (fun _ _ => 0%N) md sc p) as [x|]; [|reflexivity].
    destruct Q as (m & C & _).
    assert (E : good_data n (fun _ _ => None) (fun _ _ => 0%N) p = []).
    { unfold good_data. induction (good_idx n (fun _ _ => 0%N) p) as [|i t IH]; [reflexivity|exact IH]. }
    rewrite E in C. exfalso. destruct md.
    - destruct C as [C _]. congruence.
    - destruct C as (s & _ & _ & [(k & a & b & L & _)|(k & L & _)]); cbn in L; lia. }
  split; [exact D|]. rewrite dq_collapse_spec, D. apply dq_or_zero. reflexivity.
Qed.
Print Assumptions C12_unflagged_nan_refuted.

(** Three frames, the second flagged with 32: mean 3, scaled 9; error
    sqrt((16 + 9)/4) scaled by 3. *)
Definition ex_data (i p : nat) : val := match i with 0%nat => Some 2 | 1%nat => Some 100 | _ => Some 4 end.
Definition ex_err (i l p : nat) : val := match i with 0%nat => Some 4 | 1%nat => Some 7 | _ => Some 3 end.
Definition ex_dq (i p : nat) : N := match i with 1%nat => 32%N | _ => 0%N end.
Example C12_example :
  (forall i, (i < 3)%nat -> ex_dq i 0%nat = 0%N -> ex_data i 0%nat <> None /\ forall l, ex_err i l 0%nat <> None)
  /\ good_idx 3 ex_dq 0%nat = [0; 2]%nat
  /\ data_collapse 3 ex_data ex_dq Mean true 0%nat = Some 9
  /\ (exists e, err_collapse 3 ex_err ex_dq Mean true 0%nat 0%nat = Some e /\ e * e = 225 / 4)
  /\ dq_collapse 3 ex_data ex_dq Mean true 0%nat = 0%N.
Proof.
  assert (F : forall i, (i < 3)%nat -> ex_dq i 0%nat = 0%N -> ex_data i 0%nat <> None /\ forall l, ex_err i l 0%nat <> None)
    by (intros [|[|i]] _ _; split; intros; discriminate).
  split; [exact F|]. split; [reflexivity|].
  pose proof (combine_pixel 3 ex_data ex_err ex_dq Mean true 0%nat F) as Q.
  change (good_idx 3 ex_dq 0%nat) with [0; 2]%nat in Q. cbv iota in Q.
  destruct Q as ((vs & m & A & B & C) & E & D). split; [|split; [|exact D]].
  - rewrite C. cbn in A. destruct vs as [|a [|b [|c vs]]]; try discriminate. injection A as -> ->.
    destruct B as [_ B]. cbn in B. cbn. f_equal. lra.
  - destruct (E 0%nat) as (es & e & A' & B' & _ & C'). exists e. split; [exact B'|].
    cbn in A'. destruct es as [|a [|b [|c es]]]; try discriminate. injection A' as -> ->. rewrite C'. cbn. lra.
Qed.

(** * C11 *)

(** Outcome of the call and, for each result frame, what it is made of. *)
Theorem C11_groups : forall order history frames num collapse sc,
  lists_set order -> frames <> [] ->
  let n := List.length frames in
  let g := match num with None => Z.of_nat n | Some z => z end in
  match combine_subexposures order history frames num collapse sc with
  | Ok r => exists k md, (0 < Z.to_nat g)%nat /\ (0 < g)%Z /\ n = (k * Z.to_nat g)%nat /\ mode_of collapse = Some md
      /\ List.length r = k
      /\ forall j, (j < k)%nat -> exists c, nth_error r j = Some c /\ combined_from order md sc (Z.to_nat g) (group (Z.to_nat g) j frames) c
  | Raise x =>
      (x = PyException /\ g = 0%Z) \/
      (x = ValueError /\ (Z.modulo (Z.of_nat n) g <> 0%Z \/ mode_of collapse = None \/ (g < 0)%Z)) \/
      (x = KeyError /\ exists fr, In fr frames /\ ~ complete (c_hdr fr))
  end.
Proof. exact combine_subexposures_spec. Qed.
Print Assumptions C11_groups.

(** The collapse keyword, in any capitalisation. *)
Theorem C11_collapse_keyword : forall s,
  (mode_of s = Some Mean <-> spells s "mean") /\ (mode_of s = Some Median <-> spells s "median").
Proof. exact mode_of_spells. Qed.
Print Assumptions C11_collapse_keyword.

(** The groups are consecutive runs of g frames. *)
Theorem C11_group_members : forall A g k j (l : list A), (j < g)%nat ->
  nth_error (group g k l) j = nth_error l (g * k + j).
Proof. exact @nth_error_group. Qed.
Print Assumptions C11_group_members.

(** Nothing a user can read of the input changes. *)
Theorem C11_input_unchanged : forall V d g k (h : heap V) h' subs,
  Linked V h d -> take_groups V h d (group_slices g k) = Ok (h', subs) -> same_observations V h d h' d.
Proof. exact combine_input_same. Qed.
Print Assumptions C11_input_unchanged.

Definition ex_frame (s : string) (x : R) (q : N) : cframe :=
  mkcframe (fun _ => Some x) (fun _ _ => Some 1) (fun _ => q) (mkhimg s None (fun _ => None) None [("SRC", s)] [] [] []).
Definition ex_frames : list cframe := [ex_frame "a" 1 0; ex_frame "b" 2 0; ex_frame "c" 3 1; ex_frame "d" 5 0].
Example C11_example :
  match combine_subexposures ex_order "h" ex_frames (Some 2%Z) "Mean" false with
  | Ok [x; y] => p_name (c_hdr x) = "b" /\ p_name (c_hdr y) = "d" /\ p_pri (c_hdr y) = [("SRC", "c")]
                 /\ p_numfr (c_hdr y) = Some 2%Z /\ p_nfile (c_hdr x) = Some 2%nat
                 /\ c_data y 0%nat = Some 5
  | _ => False end
  /\ combine_subexposures ex_order "h" ex_frames (Some 3%Z) "mean" false = Raise ValueError
  /\ combine_subexposures ex_order "h" ex_frames (Some 2%Z) "max" false = Raise ValueError.
Proof.
  split; [|split; reflexivity].
  cbn -[data_collapse err_collapse dq_collapse ex_order]. cbn -[data_collapse err_collapse dq_collapse].
  repeat split.
  set (d := fun i : nat => _). set (q := fun i : nat => _).
  change (data_collapse 2 d q Mean false 0%nat = Some 5).
  pose proof (data_collapse_spec 2 d q Mean false 0%nat) as D. unfold good_data in D. rewrite finite_somes in D.
  change (good_idx 2 q 0%nat) with [1%nat] in D. cbn [map] in D. change (d 1%nat 0%nat) with (Some 5) in D. cbn [somes] in D.
  destruct (data_collapse 2 d q Mean false 0%nat) as [x|]; [|discriminate].
  destruct D as (m & [_ C] & ->). cbn in C. cbn. f_equal. lra.
Qed.
