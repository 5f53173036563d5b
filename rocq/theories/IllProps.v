(** C41: illumination correction. *)
From Coq Require Import List Arith Bool Reals ZArith Lia Lra Permutation Sorted.
From Verif Require Import Base CombineSpec BpmSpec IllModel IllSpec IllProofs.
Import ListNotations.
Local Open Scope R_scope.

(** The bins of an axis not shorter than a bin: every pixel is in one and only one. *)
Theorem C41_bins_cover : forall n b r, (0 < b <= n)%nat -> (r < n)%nat -> exists lo hi, bin n b lo hi /\ (lo <= r < hi)%nat.
Proof. exact bin_covers. Qed.
Print Assumptions C41_bins_cover.
Theorem C41_bins_disjoint : forall n b r lo hi lo' hi', (0 < b)%nat -> bin n b lo hi -> bin n b lo' hi' -> (lo <= r < hi)%nat -> (lo' <= r < hi')%nat -> lo = lo' /\ hi = hi'.
Proof. exact bin_unique. Qed.
Print Assumptions C41_bins_disjoint.
Theorem C41_bins_size : forall n b lo hi, bin n b lo hi -> (lo + b <= hi <= n /\ (0 < b -> hi < lo + 2 * b))%nat.
Proof. exact bin_bounds. Qed.
Print Assumptions C41_bins_size.

(** Local correction: every pixel is reduced by the median of the bin it is in. *)
Theorem C41_local : forall nr nc img z corr loc, rect nr nc img -> (0 < z <= Z.of_nat nr)%Z -> (z <= Z.of_nat nc)%Z -> illumination_correction img (Some z) true = Ok (corr, loc) ->
  rect nr nc corr /\ rect nr nc loc /\ forall r c v, cell img r c v -> exists lo hi lo' hi' vs u, bin nr (Z.to_nat z) lo hi /\ bin nc (Z.to_nat z) lo' hi' /\ (lo <= r < hi)%nat /\ (lo' <= c < hi')%nat
    /\ values img lo hi lo' hi' vs /\ cell corr r c u /\ reduced vs v u.
Proof. exact local. Qed.
Print Assumptions C41_local.
(** Global correction: by the median of all. *)
Theorem C41_global : forall nr nc img binsize ill corr loc, rect nr nc img -> (0 < nr)%nat -> (binsize = None \/ ill = false) -> illumination_correction img binsize ill = Ok (corr, loc) ->
  rect nr nc corr /\ rect nr nc loc /\ exists vs, values img 0 nr 0 nc vs /\ forall r c v, cell img r c v -> exists u, cell corr r c u /\ reduced vs v u.
Proof. exact global. Qed.
Print Assumptions C41_global.
(** There is a median unless a value is NaN. *)
Theorem C41_median : forall l, l <> [] -> ~ In None l -> exists m, median_of l m.
Proof. exact median_exists. Qed.
Print Assumptions C41_median.
(** The two images returned make up the input. *)
Theorem C41_sum : forall nr nc img binsize ill corr loc, rect nr nc img -> (0 < nr)%nat -> illumination_correction img binsize ill = Ok (corr, loc) ->
  forall r c x u, cell img r c (Some x) -> cell corr r c (Some u) -> cell loc r c (Some (x - u)).
Proof. exact sums. Qed.
Print Assumptions C41_sum.
Theorem C41_total : forall nr nc img binsize ill, rect nr nc img -> (0 < nr)%nat -> match binsize with Some z => (0 < z)%Z | None => True end -> exists corr loc, illumination_correction img binsize ill = Ok (corr, loc).
Proof. exact ill_total. Qed.
Print Assumptions C41_total.
Theorem C41_size_error : forall img z ill, (z <= 0)%Z -> illumination_correction img (Some z) ill = Raise TypeError.
Proof. exact bad_size. Qed.
Print Assumptions C41_size_error.
(** Light added everywhere alike does not show in the corrected image. *)
Theorem C41_uniform_light : forall k nr nc img binsize ill corr loc, rect nr nc img -> illumination_correction img binsize ill = Ok (corr, loc) -> exists loc', illumination_correction (raised k img) binsize ill = Ok (corr, loc').
Proof. exact raised_same. Qed.
Print Assumptions C41_uniform_light.
(** An image smaller than a bin along either axis is lost: it comes back as zeros. *)
Theorem C41_small_refuted : forall nr nc img z corr loc, rect nr nc img -> (0 < nr)%nat -> (0 < z)%Z -> (Z.of_nat nr < z \/ Z.of_nat nc < z)%Z -> illumination_correction img (Some z) true = Ok (corr, loc) ->
  rect nr nc corr /\ rect nr nc loc /\ forall r c v, cell img r c v -> cell corr r c (Some 0) /\ cell loc r c v.
Proof. exact small. Qed.
Print Assumptions C41_small_refuted.

(** Cases: five pixels in bins of two, the last having three; the median of a bin. *)
Example C41_bins_case : bins 5 2 = [(0, 2); (2, 5)]%nat /\ bins 6 2 = [(0, 2); (2, 4); (4, 6)]%nat /\ bins 1 2 = [] /\ bin 5 2 2 5.
Proof. split; [reflexivity|]. split; [reflexivity|]. split; [reflexivity|]. exists 1%nat. split; [reflexivity|]. split; [lia|reflexivity]. Qed.
Example C41_median_case : median_of [Some 7; Some 1; Some 2] 2 /\ ~ (exists m, median_of [Some 7; None] m).
Proof.
  split.
  - exists [7; 1; 2]. split; [repeat constructor|]. exists [1; 2; 7]. split; [repeat (constructor; try lra)|]. split; [apply perm_trans with [1; 7; 2]; repeat constructor|]. right. exists 1%nat. auto.
  - intros (m & xs & F & _). inversion F as [|o x l xs' E F']; subst. inversion F' as [|o y l xs'' E' F'']; subst. discriminate E'.
Qed.
Example C41_local_case : exists corr loc, illumination_correction [[Some 7; Some 1; Some 2]] (Some 1%Z) true = Ok (corr, loc) /\ cell corr 0 0 (Some 0) /\ cell loc 0 0 (Some 7).
Proof.
  assert (RI : rect 1 3 [[Some 7; Some 1; Some 2]]) by (split; [reflexivity|intros row [<-|[]]; reflexivity]).
  assert (C7 : cell [[Some 7; Some 1; Some 2]] 0 0 (Some 7)) by (exists [Some 7; Some 1; Some 2]; auto).
  destruct (ill_total 1 3 _ (Some 1%Z) true RI ltac:(lia) ltac:(reflexivity)) as (corr & loc & E). exists corr, loc. split; [exact E|]. destruct (local 1 3 _ 1%Z corr loc RI ltac:(cbn; lia) ltac:(lia) E) as (_ & _ & L).
  destruct (L 0%nat 0%nat (Some 7) C7) as (lo & hi & lo' & hi' & vs & u & B & B' & I & I' & V & CU & RD). change (Z.to_nat 1) with 1%nat in *. apply bin_bounds in B. apply bin_bounds in B'. assert (lo = 0 /\ hi = 1 /\ lo' = 0 /\ hi' = 1)%nat as (-> & -> & -> & ->) by lia.
  assert (V1 : values [[Some 7; Some 1; Some 2]] 0 1 0 1 [Some 7]) by (exists [(0, 0)%nat]; split; [repeat constructor; intros []|]; split; [intros i j; cbn; split; [intros [H|[]]; injection H as <- <-; lia|intros H; left; f_equal; lia]|repeat constructor; exact C7]).
  assert (M : median_of [Some 7] 7) by (exists [7]; split; [repeat constructor|]; exists [7]; split; [repeat constructor|]; split; [apply Permutation_refl|right; exists 0%nat; auto]).
  pose proof (reduced_perm _ _ _ _ (values_perm _ _ _ _ _ _ _ V V1) RD) as (R1 & _). rewrite (R1 7 7 M eq_refl) in CU. assert (C0 : cell corr 0 0 (Some 0)) by (replace 0 with (7 - 7) by ring; exact CU). split; [exact C0|]. pose proof (sums 1 3 _ _ _ _ _ RI ltac:(lia) E 0%nat 0%nat 7 0 C7 C0) as H. rewrite Rminus_0_r in H. exact H.
Qed.
