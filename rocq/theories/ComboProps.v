(** C36: combinations and star matching. *)
From Coq Require Import List Arith Reals ZArith String Sorted Lia Lra.
From Verif Require Import Base AngleModel AngleSpec ComboModel ComboSpec ComboGenProofs ComboProofs ComboFactsProofs.
Import ListNotations.
Local Open Scope list_scope.

(** The generator terminates, and yields exactly the increasing tuples, once
    each, in lexicographic order; there are binomially many. *)
Theorem C36_terminates : forall n r fuel, n ^ r <= fuel -> exists l, compute_combinations n r fuel = Some l /\ all_combos n r l.
Proof. exact combinations_spec. Qed.
Print Assumptions C36_terminates.
Theorem C36_combinations : forall n r fuel l, n ^ r <= fuel -> (compute_combinations n r fuel = Some l <-> all_combos n r l).
Proof. exact combinations_iff. Qed.
Print Assumptions C36_combinations.
Theorem C36_unique : forall n r l m, all_combos n r l -> all_combos n r m -> l = m.
Proof. exact all_combos_unique. Qed.
Print Assumptions C36_unique.
Theorem C36_count : forall n r l, all_combos n r l -> List.length l = binom n r.
Proof. exact combos_count. Qed.
Print Assumptions C36_count.
Example C36_combinations_case : compute_combinations 4 2 16 = Some [[0; 1]; [0; 2]; [0; 3]; [1; 2]; [1; 3]; [2; 3]] /\ binom 4 2 = 6 /\ binom 50 3 = Z.to_nat 19600.
Proof. split; [reflexivity|]. split; [reflexivity|]. apply Nat2Z.inj. rewrite Z2Nat.id by lia. vm_compute. reflexivity. Qed.

Local Open Scope R_scope.
(** The matching: the first best triangle of the brightest stars of the field
    gives a scale and a rotation, and each source gets the coordinates of the
    star predicted nearest to it. *)
Theorem C36_match : forall star ra dec sep pa predict bright fuel cols srcs tra tdec tgt field threshold radius guess tol table, (threshold ^ 3 <= fuel)%nat ->
  (match_sources star ra dec sep pa predict bright fuel cols srcs tra tdec tgt field threshold radius guess tol = Ok table
   <-> matched star ra dec sep pa predict bright cols srcs tra tdec tgt field threshold radius guess tol table).
Proof. exact match_iff. Qed.
Print Assumptions C36_match.
Example C36_match_case :
  match_sources nat INR INR ex_sep INR (fun _ _ => ex_place) (fun l => l) 27 ["RA"; "DEC"; "VMAG"]%string [(10, 10); (13, 10); (10, 14)] 1 1 (0, 0) [0; 1; 2; 7]%nat 3 1 10 (1 / 10)
  = Ok [((10, 10), (INR 0, INR 0)); ((13, 10), (INR 1, INR 1)); ((10, 14), (INR 2, INR 2))].
Proof. exact instance. Qed.

(** A source with no visible star within 1000 pixels raises. *)
Theorem C36_far : forall star (ra dec : star -> R) (sep : star -> star -> R) (pa : star -> R) (predict : R -> R -> star -> R * R) place (sub : list star) src,
  (forall m, In m sub -> visible (place m) -> 1000000 <= off2 src (place m)) ->
  nearest star (filter (in_image star) (map (fun s => (place s, s)) sub)) src = Raise IndexError.
Proof. exact far_raises. Qed.
Print Assumptions C36_far.
Example C36_far_case : nearest nat (filter (in_image nat) (map (fun s => (ex_place s, s)) [0; 1]%nat)) (3000, 0) = Raise IndexError.
Proof. apply (C36_far nat INR INR ex_sep INR (fun _ _ => ex_place)). intros m [<-|[<-|[]]] _; unfold off2; cbn; lra. Qed.

(** A field without RA or DEC is not refused with the documented error. *)
Theorem C36_columns_refuted : forall star ra dec sep pa predict bright fuel cols s1 s2 s3 rest tra tdec tgt field threshold radius guess tol,
  In "VMAG"%string cols -> (~ In "RA"%string cols \/ ~ In "DEC"%string cols) ->
  match_sources star ra dec sep pa predict bright fuel cols (s1 :: s2 :: s3 :: rest) tra tdec tgt field threshold radius guess tol = Raise KeyError.
Proof. exact columns_unchecked. Qed.
Print Assumptions C36_columns_refuted.
(** When no triangle fits the guessed plate scale, the three brightest stars are
    used all the same. *)
Theorem C36_no_fit_refuted : forall star sep guess tol l1 l2 l3 (stars : list star) s, 0 <= l1 -> 0 <= l2 -> 0 <= l3 -> 0 < l1 + l2 + l3 -> (3 <= List.length stars)%nat ->
  (forall t' s', combo (List.length stars) 3 t' -> side_of star sep stars t' s' -> ~ fits guess tol (l1, l2, l3) s') ->
  side_of star sep stars [0; 1; 2]%nat s -> best_triangle star sep guess tol (l1, l2, l3) stars [0; 1; 2]%nat s.
Proof. exact no_fit_first. Qed.
Print Assumptions C36_no_fit_refuted.
Example C36_no_fit_case : best_triangle nat (fun _ _ => 30) 1 (1 / 10) (3, 4, 5) [0; 1; 2; 3]%nat [0; 1; 2]%nat (30, 30, 30).
Proof.
  apply C36_no_fit_refuted; try lra; [cbn; lia| |].
  - intros t' ((x & y) & z) _ (a & b & c & _ & (_ & P)) F. assert (I : In x [30; 30; 30]) by (eapply Permutation.Permutation_in; [apply Permutation.Permutation_sym; exact P|left; reflexivity]).
    assert (x = 30) by (cbn in I; intuition). subst x. specialize (F 3 30 (or_introl eq_refl)). lra.
  - exists 0%nat, 1%nat, 2%nat. split; [exists 0%nat, 1%nat, 2%nat; auto|]. split; [lra|reflexivity].
Qed.
(** Nothing keeps two sources from the same star: a single visible star is
    given to all of them. *)
Theorem C36_shared_refuted : forall star place (sub : list star) m, (forall m', In m' sub -> visible (place m') -> m' = m) -> forall src m', nearest_star star place sub src m' -> m' = m.
Proof. exact one_star_for_all. Qed.
Print Assumptions C36_shared_refuted.
Example C36_shared_case : nearest_star nat ex_place [0]%nat (13, 10) 0%nat /\ nearest_star nat ex_place [0]%nat (10, 14) 0%nat.
Proof.
  split; exists 0%nat; (split; [reflexivity|]; split; [unfold visible; cbn; lra|]; split; [unfold off2; cbn; lra|]; intros [|[|j]] m' J _; cbn in J; try discriminate J; injection J as <-; split; [lra|lia]).
Qed.
