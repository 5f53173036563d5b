(** Least squares can be had: functions that do what is asked of numpy exist. *)
From Coq Require Import List Arith Bool Reals ZArith Lra Lia Psatz.
From Verif Require Import Base DqModel SpotModel SpotSpec SpotProofs SpotFitProofs.
Import ListNotations.
Local Open Scope R_scope.

Section Project.
  Variable m : nat.
  Definition vec := nat -> R.
  Definition inner (u w : vec) : R := sum_to m (fun i => u i * w i).
  Fixpoint comb (cols : list vec) (c : list R) : vec :=
    match cols, c with a :: cols', s :: c' => fun i => s * a i + comb cols' c' i | _, _ => fun _ => 0 end.
  Lemma sum_plus : forall n f g, sum_to n (fun i => f i + g i) = sum_to n f + sum_to n g.
  Proof using. induction n as [|n IH]; intros f g; cbn; [lra|]. rewrite IH. lra. Qed.
  Lemma sum_scale : forall n k f, sum_to n (fun i => k * f i) = k * sum_to n f.
  Proof using. induction n as [|n IH]; intros k f; cbn; [lra|]. rewrite IH. lra. Qed.
  Lemma inner_lin : forall u a b s w, (forall i, w i = s * a i + b i) -> inner u w = s * inner u a + inner u b.
  Proof using. intros u a b s w H. unfold inner. rewrite <- sum_scale, <- sum_plus. apply sum_to_ext. intros i _. rewrite H. ring. Qed.
  Lemma inner_linl : forall u a b s w, (forall i, w i = s * a i + b i) -> inner w u = s * inner a u + inner b u.
  Proof using. intros u a b s w H. unfold inner. rewrite <- sum_scale, <- sum_plus. apply sum_to_ext. intros i _. rewrite H. ring. Qed.
  Lemma inner_zero : forall u, inner u (fun _ => 0) = 0.
  Proof using. intros u. unfold inner. induction m as [|n IH]; cbn; [reflexivity|]. rewrite IH. ring. Qed.
  Lemma inner_comb : forall u cols c, (forall a, In a cols -> inner u a = 0) -> inner u (comb cols c) = 0.
  Proof using.
    intros u. induction cols as [|a cols IH]; intros c H; [apply inner_zero|]. destruct c as [|s c]; [apply inner_zero|]. cbn [comb].
    rewrite (inner_lin u a (comb cols c) s) by reflexivity. rewrite (H a (or_introl eq_refl)), IH by (intros; apply H; right; assumption). ring.
  Qed.
  Lemma sum_nonneg : forall n f, (forall i, 0 <= f i) -> 0 <= sum_to n f.
  Proof using. induction n as [|n IH]; intros f H; cbn; [lra|]. specialize (IH f H). specialize (H n). lra. Qed.
  Lemma sum_null : forall n f, (forall i, 0 <= f i) -> sum_to n f = 0 -> forall i, (i < n)%nat -> f i = 0.
  Proof using.
    induction n as [|n IH]; intros f H E i I; [lia|]. cbn in E. pose proof (sum_nonneg n f H). pose proof (H n). destruct (Nat.eq_dec i n) as [->|N]; [lra|]. apply IH; [assumption|lra|lia].
  Qed.
  Lemma null_inner : forall u a, inner a a = 0 -> inner u a = 0.
  Proof using.
    intros u a H. unfold inner in *. rewrite (sum_to_ext m _ (fun _ => 0 * 0)).
    - rewrite sum_scale. ring.
    - intros i I. assert (Z := sum_null m _ (fun i => Rle_0_sqr (a i)) H i I). apply Rsqr_0_uniq in Z. rewrite Z. ring.
  Qed.
  Lemma comb_minus : forall cols c d t, length c = length cols -> length d = length cols -> forall i, comb cols (map (fun p => fst p - t * snd p) (combine c d)) i = comb cols c i - t * comb cols d i.
  Proof using.
    induction cols as [|a cols IH]; intros [|x c] [|y d] t L1 L2 i; try discriminate; cbn [comb map combine fst snd]; [ring|]. rewrite IH by (try (injection L1; auto); injection L2; auto). ring.
  Qed.
  Definition project : forall (cols : list vec) (y : vec), {c : list R | length c = length cols /\ forall a, In a cols -> inner (fun i => y i - comb cols c i) a = 0}.
  Proof using.
    induction cols as [|a cols IH]; intros y; [exists []; split; [reflexivity|intros a []]|].
    destruct (IH a) as (d & D1 & D2). destruct (IH y) as (c & C1 & C2).
    set (a' := fun i => a i - comb cols d i) in *. set (r := fun i => y i - comb cols c i) in *.
    assert (A : forall u, (forall b, In b cols -> inner u b = 0) -> inner u a = inner u a').
    { intros u U. rewrite (inner_lin u a' (comb cols d) 1 a) by (intros i; unfold a'; ring). rewrite (inner_comb u cols d U). ring. }
    destruct (Req_EM_T (inner a' a') 0) as [Z|NZ].
    - exists (0 :: c). split; [cbn; f_equal; assumption|]. assert (E : forall b, inner (fun i => y i - comb (a :: cols) (0 :: c) i) b = inner r b) by (intros b; unfold inner; apply sum_to_ext; intros i _; unfold r; cbn [comb]; ring).
      intros b [<-|I]; rewrite E; [rewrite (A r C2); apply null_inner; assumption|apply C2; assumption].
    - set (t := inner r a' / inner a' a'). exists (t :: map (fun p => fst p - t * snd p) (combine c d)). split; [cbn; f_equal; rewrite map_length, combine_length, C1, D1; lia|].
      assert (E : forall b, inner (fun i => y i - comb (a :: cols) (t :: map (fun p => fst p - t * snd p) (combine c d)) i) b = - t * inner a' b + inner r b).
      { intros b. apply inner_linl. intros i. cbn [comb]. rewrite comb_minus by assumption. unfold a', r. ring. }
      assert (G : forall b, In b cols -> inner (fun i => y i - comb (a :: cols) (t :: map (fun p => fst p - t * snd p) (combine c d)) i) b = 0).
      { intros b I. rewrite E, (D2 b I), (C2 b I). ring. }
      intros b [<-|I]; [|apply G; assumption]. rewrite (A _ G), E. unfold t. field. assumption.
  Defined.
  Lemma project_best : forall cols y c', length c' = length cols ->
    sum_to m (fun i => Rsqr (y i - comb cols (proj1_sig (project cols y)) i)) <= sum_to m (fun i => Rsqr (y i - comb cols c' i)).
  Proof using.
    intros cols y c' L. destruct (project cols y) as (c & C1 & C2). cbn [proj1_sig].
    set (e := map (fun p => fst p - 1 * snd p) (combine c c')).
    assert (E : forall i, y i - comb cols c' i = (y i - comb cols c i) + comb cols e i) by (intros i; unfold e; rewrite comb_minus by assumption; ring).
    assert (O : inner (fun i => y i - comb cols c i) (comb cols e) = 0) by (apply inner_comb; assumption).
    assert (S0 : sum_to m (fun i => Rsqr (y i - comb cols c' i)) = sum_to m (fun i => Rsqr (y i - comb cols c i)) + (2 * inner (fun i => y i - comb cols c i) (comb cols e) + sum_to m (fun i => Rsqr (comb cols e i)))).
    { unfold inner. rewrite <- sum_scale, <- !sum_plus. apply sum_to_ext. intros i _. rewrite E. unfold Rsqr. ring. }
    rewrite S0, O. pose proof (sum_nonneg m (fun i => Rsqr (comb cols e i)) (fun i => Rle_0_sqr _)). lra.
  Qed.
End Project.

Fixpoint unsome (l : list num) : option (list R) :=
  match l with [] => Some [] | Some x :: t => option_map (cons x) (unsome t) | None :: _ => None end.
Lemma unsome_some : forall l, unsome (map Some l) = Some l.
Proof. induction l as [|x l IH]; [reflexivity|]. cbn [map unsome]. rewrite IH. reflexivity. Qed.
Lemma unsome_none : forall l, In None l -> unsome l = None.
Proof. induction l as [|[x|] l IH]; intros H; [destruct H| |reflexivity]. cbn [unsome]. destruct H as [H|H]; [discriminate|]. rewrite (IH H). reflexivity. Qed.
Fixpoint unsomes (l : list (list num)) : option (list (list R)) :=
  match l with [] => Some [] | r :: t => match unsome r, unsomes t with Some a, Some b => Some (a :: b) | _, _ => None end end.
Lemma unsomes_some : forall l, unsomes (map (map Some) l) = Some l.
Proof. induction l as [|x l IH]; [reflexivity|]. cbn [map unsomes]. rewrite unsome_some, IH. reflexivity. Qed.

(** Solving by projection; anything that is not a number is refused. *)
Definition solve (rows : list (list R)) (ys : list R) : list R :=
  proj1_sig (project (length ys) (map (fun k i => nth k (nth i rows []) 0) (seq 0 6)) (fun i => nth i ys 0)).
Definition solver (rows : list (list num)) (ys : list num) : result (list num) :=
  match unsomes rows, unsome ys with Some rows, Some ys => Ok (map Some (solve rows ys)) | _, _ => Raise ValueError end.
Definition parabolas (xs ys : list num) : result (num * num * num) :=
  match unsome xs, unsome ys with
  | Some xs, Some ys => match proj1_sig (project (length ys) [(fun i => nth i xs 0 * nth i xs 0); (fun i => nth i xs 0); (fun _ => 1)] (fun i => nth i ys 0)) with [a; b; c] => Ok (Some a, Some b, Some c) | _ => Raise ValueError end
  | _, _ => Raise ValueError
  end.
Lemma total_nth : forall {A} (f : A -> R) d l, total (map f l) = sum_to (length l) (fun i => f (nth i l d)).
Proof.
  intros A f d l. rewrite sum_to_total. f_equal. rewrite <- (map_map (fun i => nth i l d) f). f_equal. clear f. induction l as [|a l IH]; [reflexivity|]. cbn [length seq map nth]. f_equal. rewrite <- seq_shift, map_map. exact IH.
Qed.
Lemma solver_least : least_squares solver.
Proof.
  intros rows ys L F. unfold solver. rewrite unsomes_some, unsome_some. exists (solve rows ys). split; [reflexivity|]. unfold solve. set (cols := map (fun k i => nth k (nth i rows []) 0) (seq 0 6)).
  assert (E : forall c, length c = 6%nat -> residue rows ys c = sum_to (length ys) (fun i => Rsqr (nth i ys 0 - comb cols c i))).
  { intros c C. unfold residue. rewrite (total_nth _ ([], 0)). rewrite combine_length, L, Nat.min_id. apply sum_to_ext. intros i I. rewrite combine_nth by assumption. cbn [fst snd]. f_equal. f_equal.
    assert (R6 : length (nth i rows []) = 6%nat) by (rewrite Forall_forall in F; apply F; apply nth_In; lia). unfold cols.
    set (row := nth i rows []) in *. assert (RC : comb (map (fun k i => nth k (nth i rows []) 0) (seq 0 6)) c i = comb (map (fun k _ => nth k row 0) (seq 0 6)) c i) by (unfold row; destruct c as [|c0 [|c1 [|c2 [|c3 [|c4 [|c5 [|]]]]]]]; try discriminate; reflexivity). rewrite RC. clear RC. clearbody row.
    revert R6 C. clear. revert row c. intros row c.
    destruct row as [|r0 [|r1 [|r2 [|r3 [|r4 [|r5 [|r6 row]]]]]]]; intros R6; try discriminate R6. destruct c as [|c0 [|c1 [|c2 [|c3 [|c4 [|c5 [|c6 c]]]]]]]; intros C; try discriminate C. unfold dot, total. cbn. ring. }
  split; [destruct (project _ cols _) as (c & C & C0); exact C|]. intros c' C'. rewrite !E; [|assumption|destruct (project _ cols _) as (c & C & C0); exact C]. apply project_best. rewrite C'. reflexivity.
Qed.
Lemma solver_spoilt : lstsq_spoilt solver.
Proof. intros rows ys c H. unfold solver. rewrite (unsome_none ys H). destruct (unsomes rows); discriminate. Qed.
Lemma parabolas_least : least_parabola parabolas.
Proof.
  intros xs ys L _. unfold parabolas. rewrite !unsome_some. set (cols := [(fun i => nth i xs 0 * nth i xs 0); (fun i => nth i xs 0); (fun _ => 1)]).
  pose proof (project_best (length ys) cols (fun i => nth i ys 0)) as B. destruct (project (length ys) cols (fun i => nth i ys 0)) as (c & C1 & C2). cbn [proj1_sig] in *.
  destruct c as [|a [|b [|c [|]]]]; try discriminate. exists a, b, c. split; [reflexivity|]. intros ((a', b'), c').
  assert (E : forall a b c, misfit1 (combine xs ys) (a, b, c) = sum_to (length ys) (fun i => Rsqr (nth i ys 0 - comb cols [a; b; c] i))).
  { intros a0 b0 c0. unfold misfit1. rewrite (total_nth _ (0, 0)). rewrite combine_length, L, Nat.min_id. apply sum_to_ext. intros i I. rewrite combine_nth by assumption. cbn [fst snd parabola]. f_equal. f_equal. unfold cols. cbn [comb]. ring. }
  rewrite !E. apply B. reflexivity.
Qed.
Lemma parabolas_spoilt : polyfit_spoilt parabolas.
Proof. intros xs ys p H. unfold parabolas. rewrite (unsome_none ys H). destruct (unsome xs); discriminate. Qed.
Theorem numpy_exists : exists lstsq polyfit, least_squares lstsq /\ lstsq_spoilt lstsq /\ least_parabola polyfit /\ polyfit_spoilt polyfit.
Proof. exists solver, parabolas. auto using solver_least, solver_spoilt, parabolas_least, parabolas_spoilt. Qed.
