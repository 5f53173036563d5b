(** Proofs on the source search. *)
From Coq Require Import List Arith Bool Reals ZArith String Lia Lra.
From Verif Require Import Base NearModel NearProofs BpmSpec BpmProofs FindModel FindSpec.
Import ListNotations.
Local Open Scope R_scope.

(** ** Grids *)
Lemma index_nth : forall A (l : list A) i x, nth_error (index l) i = Some x <-> exists a, nth_error l i = Some a /\ x = (i, a).
Proof.
  assert (G : forall A (l : list A) s i, nth_error (combine (seq s (List.length l)) l) i = option_map (fun a => (s + i, a)%nat) (nth_error l i)).
  { intros A. induction l as [|a l IH]; intros s i; cbn [List.length seq combine]; [destruct i; reflexivity|]. destruct i as [|i]; cbn [nth_error option_map]; [rewrite Nat.add_0_r; reflexivity|]. rewrite IH. replace (S s + i)%nat with (s + S i)%nat by lia. reflexivity. }
  intros A l i x. unfold index. rewrite G. cbn [Nat.add]. destruct (nth_error l i) as [a|]; cbn [option_map]; split.
  - intros H. injection H as <-. exists a. auto.
  - intros (a' & E & ->). injection E as <-. reflexivity.
  - discriminate.
  - intros (a & E & _). discriminate E.
Qed.
Lemma index_len : forall A (l : list A), List.length (index l) = List.length l.
Proof. intros A l. unfold index. rewrite combine_length, seq_length. lia. Qed.
Lemma cell_grid : forall A B (f : nat -> nat -> A -> B) img i j v, cell (grid_map f img) i j v <-> exists x, cell img i j x /\ v = f i j x.
Proof.
  intros A B f img i j v. unfold cell, grid_map. split.
  - intros (row & R0 & V). rewrite nth_error_map in R0. destruct (nth_error (index img) i) as [ir|] eqn:E; [|discriminate R0]. injection R0 as <-. apply index_nth in E. destruct E as (r & E & ->). cbn [fst snd] in V.
    rewrite nth_error_map in V. destruct (nth_error (index r) j) as [jv|] eqn:F; [|discriminate V]. injection V as <-. apply index_nth in F. destruct F as (x & F & ->). exists x. split; [exists r; auto|reflexivity].
  - intros (x & (r & E & F) & ->). exists (map (fun jv => f i (fst jv) (snd jv)) (index r)). split.
    + rewrite nth_error_map. rewrite (proj2 (index_nth _ img i (i, r))) by (exists r; auto). reflexivity.
    + rewrite nth_error_map. rewrite (proj2 (index_nth _ r j (j, x))) by (exists x; auto). reflexivity.
Qed.
Lemma grid_rect : forall A B (f : nat -> nat -> A -> B) img nr nc, rect nr nc img -> rect nr nc (grid_map f img).
Proof.
  intros A B f img nr nc (L & W). split; [unfold grid_map; rewrite map_length, index_len; exact L|]. intros row I. unfold grid_map in I. apply in_map_iff in I. destruct I as ((i & r) & <- & I). rewrite map_length, index_len. cbn [snd]. apply W. apply in_combine_r in I. exact I.
Qed.
Lemma ncol_rect : forall A nr nc (img : list (list A)), (0 < nr)%nat -> rect nr nc img -> ncol img = nc.
Proof. intros A nr nc [|r img] P (L & W); [cbn in L; lia|]. cbn. apply W. left. reflexivity. Qed.
Lemma hd_rect : forall A nr nc (img : list (list A)), (0 < nr)%nat -> rect nr nc img -> List.length (hd [] img) = nc.
Proof. intros A nr nc [|r img] P (L & W); [cbn in L; lia|]. cbn. apply W. left. reflexivity. Qed.

Lemma finite_valued : forall nr nc img, rect nr nc img -> valued img (finite_pixels img).
Proof.
  intros nr nc img RI. unfold valued, finite_pixels. split; [apply NoDup_filter; apply nodup_prod; apply seq_NoDup|]. intros r c. rewrite filter_In, in_prod_iff, !in_seq. cbn [fst snd]. split.
  - intros (_ & H). destruct (nth_error img r) as [row|] eqn:R0; [|discriminate H]. destruct (nth_error row c) as [[v|]|] eqn:V; try discriminate H. exists v, row. auto.
  - intros (v & row & R0 & V). rewrite R0, V. split; [|reflexivity]. assert (r < List.length img)%nat by (apply nth_error_Some; congruence). assert (P : (0 < nr)%nat) by (destruct RI; lia). rewrite (ncol_rect _ nr nc img P RI). rewrite <- (proj2 RI row (nth_error_In _ _ R0)). assert (c < List.length row)%nat by (apply nth_error_Some; congruence). lia.
Qed.

(** ** The largest value *)
Definition peak (l : list (option R)) (k : nat) (v : R) : Prop := nth_error l k = Some (Some v) /\ forall k' v', nth_error l k' = Some (Some v') -> v' <= v /\ ((k' < k)%nat -> v' < v).
Lemma max_from_spec : forall l pre best, match best with Some (k, v) => peak pre k v | None => forall k v, nth_error pre k <> Some (Some v) end ->
  match max_from best (List.length pre) l with Some (k, v) => peak (pre ++ l) k v | None => forall k v, nth_error (pre ++ l) k <> Some (Some v) end.
Proof.
  induction l as [|o l IH]; intros pre best H; cbn [max_from]; [rewrite app_nil_r; exact H|].
  assert (E : pre ++ o :: l = (pre ++ [o]) ++ l) by (rewrite <- app_assoc; reflexivity). rewrite E. assert (LN : S (List.length pre) = List.length (pre ++ [o])) by (rewrite app_length; cbn; lia).
  assert (NT : forall k x, nth_error (pre ++ [o]) k = Some x <-> nth_error pre k = Some x \/ (k = List.length pre /\ x = o)).
  { intros k x. destruct (lt_dec k (List.length pre)) as [L|L].
    - rewrite nth_error_app1 by exact L. split; [auto|intros [A|(A & _)]; [exact A|lia]].
    - rewrite nth_error_app2 by lia. destruct (Nat.eq_dec k (List.length pre)) as [->|N]; [rewrite Nat.sub_diag; cbn|].
      + split; [intros A; injection A as <-; auto|intros [A|(_ & ->)]; [|reflexivity]]. assert (Q : nth_error pre (List.length pre) <> None) by congruence. apply nth_error_Some in Q. lia.
      + split; [intros A|intros [A|(A & _)]]; [assert (Q : nth_error [o] (k - List.length pre) <> None) by congruence; apply nth_error_Some in Q; cbn in Q; lia|assert (Q : nth_error pre k <> None) by congruence; apply nth_error_Some in Q; lia|lia]. }
  destruct o as [x|]; rewrite LN; apply IH.
  - destruct best as [[k v]|].
    + destruct H as (HK & HM). assert (LK : (k < List.length pre)%nat) by (apply nth_error_Some; congruence). destruct (Rlt_dec v x) as [LT|LT].
      * split; [apply NT; right; auto|]. intros k' v' N. apply NT in N. destruct N as [N|(-> & N)]; [destruct (HM k' v' N) as (A & _); split; [lra|intros _; lra]|injection N as <-; split; [lra|lia]].
      * split; [apply NT; left; exact HK|]. intros k' v' N. apply NT in N. destruct N as [N|(-> & N)]; [exact (HM k' v' N)|injection N as ->; split; [lra|lia]].
    + split; [apply NT; right; auto|]. intros k' v' N. apply NT in N. destruct N as [N|(-> & N)]; [destruct (H k' v' N)|injection N as <-; split; [lra|lia]].
  - destruct best as [[k v]|].
    + destruct H as (HK & HM). split; [apply NT; left; exact HK|]. intros k' v' N. apply NT in N. destruct N as [N|(_ & N)]; [exact (HM k' v' N)|discriminate N].
    + intros k v N. apply NT in N. destruct N as [N|(_ & N)]; [exact (H k v N)|discriminate N].
Qed.
Lemma peak_fun : forall l k v k' v', peak l k v -> peak l k' v' -> k = k' /\ v = v'.
Proof. intros l k v k' v' (A & AM) (B & BM). destruct (AM k' v' B) as (L1 & S1). destruct (BM k v A) as (L2 & S2). destruct (Nat.lt_trichotomy k k') as [H|[H|H]]; [specialize (S2 H); lra| |specialize (S1 H); lra]. split; [exact H|lra]. Qed.
Lemma nanmax_some : forall l k v, nanmax l = Ok (Some (k, v)) <-> peak l k v.
Proof.
  intros l k v. pose proof (max_from_spec l [] None ltac:(intros k' v'; destruct k'; discriminate)) as M. cbn [List.length app] in M. unfold nanmax. destruct l as [|o l]; [split; [discriminate|intros (H & _); destruct k; discriminate H]|].
  destruct (max_from None 0 (o :: l)) as [[k' v']|].
  - split; [intros H; injection H as <- <-; exact M|]. intros H. destruct (peak_fun _ _ _ _ _ M H) as (-> & ->). reflexivity.
  - split; [discriminate|]. intros (H & _). destruct (M k v H).
Qed.
Lemma nanmax_none : forall l, nanmax l = Ok None <-> l <> [] /\ forall k v, nth_error l k <> Some (Some v).
Proof.
  intros l. pose proof (max_from_spec l [] None ltac:(intros k' v'; destruct k'; discriminate)) as M. cbn [List.length app] in M. unfold nanmax. destruct l as [|o l]; [split; [discriminate|intros (H & _); congruence]|].
  destruct (max_from None 0 (o :: l)) as [[k' v']|].
  - split; [discriminate|]. intros (_ & H). destruct (H k' v' (proj1 M)).
  - split; [intros _; split; [discriminate|exact M]|reflexivity].
Qed.
Lemma nanmax_raise : forall l e, nanmax l = Raise e <-> l = [] /\ e = ValueError.
Proof. intros [|o l] e; cbn; split; [intros H; injection H as <-; auto|intros (_ & ->); reflexivity|discriminate|intros (H & _); discriminate H]. Qed.

Lemma peak_brightest : forall nr nc m k v, rect nr nc m -> (0 < nc)%nat -> (peak (List.concat m) k v <-> brightest m (k / nc) (k mod nc) v).
Proof.
  intros nr nc m k v RM P. assert (K : k = (k / nc * nc + k mod nc)%nat) by (rewrite Nat.mul_comm; apply Nat.div_mod; lia). pose proof (Nat.mod_upper_bound k nc ltac:(lia)) as MU.
  assert (CE : forall x, nth_error (List.concat m) k = Some x <-> cell m (k / nc) (k mod nc) x). { intros x. rewrite (concat_cell _ nc m nr _ _ x RM MU). rewrite <- K. reflexivity. }
  unfold peak, brightest. rewrite CE. split; intros (H & M); (split; [exact H|]).
  - intros r' c' v' C'. assert (IN : (r' < nr /\ c' < nc)%nat) by (apply (cell_in _ nr nc m); [exact RM|eauto]). apply (concat_cell _ nc m nr r' c' _ RM (proj2 IN)) in C'. destruct (M _ _ C') as (A & B). split; [exact A|]. intros O. apply B. rewrite K. destruct O as [O|(-> & O)]; [nia|lia].
  - intros k' v' N'. pose proof (Nat.mod_upper_bound k' nc ltac:(lia)) as MU'. assert (K' : k' = (k' / nc * nc + k' mod nc)%nat) by (rewrite Nat.mul_comm; apply Nat.div_mod; lia). rewrite K' in N'. apply (concat_cell _ nc m nr _ _ _ RM MU') in N'. destruct (M _ _ _ N') as (A & B). split; [exact A|]. intros L. apply B. destruct (Nat.lt_trichotomy (k' / nc) (k / nc)) as [X|[X|X]]; [left; exact X|right; split; [exact X|]; rewrite X in K'; lia|]. nia.
Qed.
Lemma brightest_fun : forall m r c v r' c' v', brightest m r c v -> brightest m r' c' v' -> r = r' /\ c = c' /\ v = v'.
Proof.
  intros m r c v r' c' v' (A & AM) (B & BM). destruct (AM _ _ _ B) as (L1 & S1). destruct (BM _ _ _ A) as (L2 & S2).
  destruct (Nat.lt_trichotomy r r') as [H|[H|H]]; [specialize (S2 (or_introl H)); lra| |specialize (S1 (or_introl H)); lra]. destruct (Nat.lt_trichotomy c c') as [J|[J|J]]; [assert (v < v') by (apply S2; right; auto); lra| |assert (v' < v) by (apply S1; right; auto); lra]. split; [exact H|split; [exact J|lra]].
Qed.

(** ** The mask radius *)
Lemma ceil_iff : forall x z, ceil x = z <-> IZR z - 1 < x <= IZR z.
Proof.
  intros x z. unfold ceil. destruct (base_Int_part (- x)) as (A & B). assert (U : forall a b : Z, IZR a - 1 < x <= IZR a -> IZR b - 1 < x <= IZR b -> a = b).
  { intros a b H K. assert (IZR a < IZR (b + 1)) by (rewrite plus_IZR; lra). assert (IZR b < IZR (a + 1)) by (rewrite plus_IZR; lra). apply lt_IZR in H0, H1. lia. }
  assert (C0 : IZR (- Int_part (- x)) - 1 < x <= IZR (- Int_part (- x))) by (rewrite opp_IZR; lra). split; [intros <-; exact C0|intros H; exact (U _ _ C0 H)].
Qed.
Lemma idist_apart : forall r c r' c', idist (Z.of_nat r') (Z.of_nat c') (Z.of_nat r) (Z.of_nat c) = pixels_apart r c r' c'.
Proof. intros. unfold idist, pixels_apart. rewrite !minus_IZR, <- !INR_IZR_INZ. f_equal. ring. Qed.
Theorem radius_iff : forall nr nc img z, rect nr nc img -> (mask_radius img = Ok z <->
  (exists r c v, cell img r c (Some v) /\ IZR z - 1 < pixels_apart (nr / 2) (nc / 2) r c <= IZR z /\ forall r' c' v', cell img r' c' (Some v') -> pixels_apart (nr / 2) (nc / 2) r c <= pixels_apart (nr / 2) (nc / 2) r' c')).
Proof.
  intros nr nc img z RI. pose proof (finite_valued nr nc img RI) as (_ & FV). unfold mask_radius. rewrite (proj1 RI). set (d := fun p : nat * nat => idist _ _ _ _).
  assert (D : forall r c, (0 < nr)%nat -> d (r, c) = pixels_apart (nr / 2) (nc / 2) r c). { intros r c P. unfold d. cbn [fst snd]. rewrite (ncol_rect _ nr nc img P RI). apply idist_apart. }
  assert (POS : forall r c v, cell img r c (Some v) -> (0 < nr)%nat). { intros r c v CE. assert (r < nr /\ c < nc)%nat by (apply (cell_in _ nr nc img); [exact RI|eauto]). lia. }
  destruct (rmin (map d (finite_pixels img))) as [m|e] eqn:E; cbn [bind].
  - apply rmin_spec in E. destruct E as (I & M). apply in_map_iff in I. destruct I as ((r & c) & <- & I). apply FV in I. destruct I as (v & CE). pose proof (POS _ _ _ CE) as P. rewrite (D r c P) in *.
    assert (ML : forall r' c' v', cell img r' c' (Some v') -> pixels_apart (nr / 2) (nc / 2) r c <= pixels_apart (nr / 2) (nc / 2) r' c'). { intros r' c' v' C'. rewrite <- (D r' c' P). apply M. apply in_map. apply FV. eauto. }
    split.
    + intros H. injection H as H. apply ceil_iff in H. exists r, c, v. auto.
    + intros (r2 & c2 & v2 & C2 & Z & M2). assert (EQ : pixels_apart (nr / 2) (nc / 2) r c = pixels_apart (nr / 2) (nc / 2) r2 c2) by (apply Rle_antisym; [exact (ML _ _ _ C2)|exact (M2 _ _ _ CE)]). f_equal. apply ceil_iff. rewrite EQ. exact Z.
  - split; [discriminate|]. intros (r & c & v & CE & _). assert (I : In (r, c) (finite_pixels img)) by (apply FV; eauto). destruct (finite_pixels img); [destruct I|discriminate E].
Qed.
Theorem radius_raise : forall nr nc img e, rect nr nc img -> (mask_radius img = Raise e <-> e = ValueError /\ forall r c v, ~ cell img r c (Some v)).
Proof.
  intros nr nc img e RI. pose proof (finite_valued nr nc img RI) as (_ & FV). unfold mask_radius. destruct (finite_pixels img) as [|p l] eqn:F; cbn [map rmin bind].
  - split; [intros H; injection H as <-; split; [reflexivity|]|intros (-> & _); reflexivity]. intros r c v CE. apply (proj2 (FV r c)). eauto.
  - split; [discriminate|]. intros (_ & H). destruct p as (r & c). destruct (proj1 (FV r c) (or_introl eq_refl)) as (v & CE). destruct (H r c v CE).
Qed.
