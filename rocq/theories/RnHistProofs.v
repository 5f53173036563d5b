(** Proofs for the histogram of the prescan. *)
From Coq Require Import List Arith Bool Reals ZArith Lia Lra Permutation Sorted.
From Verif Require Import Base CombineModel FlatModel RnHistModel RnHistSpec.
Import ListNotations.
Local Open Scope R_scope.

Definition cnt {A} (q : A -> bool) (l : list A) : Z := Z.of_nat (List.length (filter q l)).
Lemma cnt_nil : forall A (q : A -> bool), cnt q [] = 0%Z. Proof. reflexivity. Qed.
Lemma cnt_cons : forall A (q : A -> bool) x l, cnt q (x :: l) = ((if q x then 1 else 0) + cnt q l)%Z.
Proof. intros A q x l; unfold cnt; simpl; destruct (q x); simpl List.length; lia. Qed.
Lemma cnt_app : forall A (q : A -> bool) l m, cnt q (l ++ m) = (cnt q l + cnt q m)%Z.
Proof. intros A q l m; unfold cnt; rewrite filter_app, app_length; lia. Qed.
Lemma cnt_perm : forall A (q : A -> bool) l m, Permutation l m -> cnt q l = cnt q m.
Proof. intros A q l m H; induction H; rewrite ?cnt_cons; lia. Qed.

Lemma tally_fun : forall A (P : A -> Prop) l n m, Tally P l n -> Tally P l m -> n = m.
Proof.
  intros A P l n m H; revert m; induction H; intros m Hm; inversion Hm; subst; auto; try contradiction.
  f_equal; auto.
Qed.
Lemma tally_cnt : forall A (P : A -> Prop) q l, (forall x, In x l -> (q x = true <-> P x)) -> Tally P l (cnt q l).
Proof.
  intros A P q l; induction l as [|x l IH]; intros H; [constructor|].
  rewrite cnt_cons. assert (T : Tally P l (cnt q l)) by (apply IH; intros; apply H; now right).
  specialize (H x (or_introl eq_refl)). destruct (q x).
  - rewrite Z.add_comm. constructor; tauto.
  - simpl. constructor; auto. intros C. apply H in C. discriminate.
Qed.
Lemma tally_iff : forall A (P Q : A -> Prop) l n, (forall x, In x l -> (P x <-> Q x)) -> Tally P l n -> Tally Q l n.
Proof.
  intros A P Q l n H T; induction T; constructor; auto; try (apply IHT; intros; apply H; now right).
  - apply H; simpl; auto.
  - intros C; apply H0, H; simpl; auto.
Qed.

(** ** Sorting and searching *)
Lemma vle_trans : forall a b c, vle a b = true -> vle b c = true -> vle a c = true.
Proof.
  intros [a|] [b|] [c|]; simpl; auto; try discriminate.
  destruct (Rle_dec a b), (Rle_dec b c); try discriminate. intros _ _. destruct (Rle_dec a c); auto; lra.
Qed.
Lemma vle_total : forall a b, vle a b = false -> vle b a = true.
Proof. intros [a|] [b|]; simpl; auto; try discriminate. destruct (Rle_dec a b), (Rle_dec b a); auto; try discriminate; lra. Qed.
Lemma insert_perm : forall x l, Permutation (insert x l) (x :: l).
Proof.
  intros x l; induction l as [|y t IH]; simpl; [reflexivity|]. destruct (vle x y); [reflexivity|].
  rewrite IH. apply perm_swap.
Qed.
Lemma sort_perm : forall l, Permutation (sort l) l.
Proof. induction l as [|x t IH]; simpl; [reflexivity|]. rewrite insert_perm. now constructor. Qed.
Definition Asc := StronglySorted (fun a b : val => vle a b = true).
Lemma insert_sorted : forall x l, Asc l -> Asc (insert x l).
Proof.
  intros x l; induction l as [|y t IH]; simpl; intros H; [repeat constructor|].
  inversion H as [|u v Ht Hy]; subst. destruct (vle x y) eqn:E.
  - constructor; auto. constructor; auto. eapply Forall_impl; [|exact Hy]. intros z Hz. eapply vle_trans; eauto.
  - constructor; [now apply IH|]. apply Forall_forall. intros z Hz.
    apply (Permutation_in _ (insert_perm x t)) in Hz. destruct Hz as [<-|Hz]; [now apply vle_total|].
    rewrite Forall_forall in Hy. auto.
Qed.
Lemma sort_sorted : forall l, Asc (sort l).
Proof. induction l; simpl; [constructor|now apply insert_sorted]. Qed.
Lemma place_cnt : forall q l, (forall a b, vle a b = true -> q b = true -> q a = true) -> Asc l -> Z.of_nat (place q l) = cnt q l.
Proof.
  intros q l D; induction l as [|x t IH]; intros H; [reflexivity|]. inversion H as [|u v Ht Hx]; subst.
  rewrite cnt_cons. simpl. destruct (q x) eqn:E; [rewrite <- IH by auto; lia|].
  assert (Z0 : cnt q t = 0%Z).
  { clear -Hx D E. induction t as [|y t IH]; [reflexivity|]. inversion Hx; subst. rewrite cnt_cons, IH by auto.
    destruct (q y) eqn:F; [|reflexivity]. rewrite (D x y) in E; auto. discriminate. }
  lia.
Qed.
Lemma below_down : forall e a b, vle a b = true -> below_edge e b = true -> below_edge e a = true.
Proof.
  intros e [a|] [b|]; simpl; auto; try discriminate. destruct (Rle_dec a b), (Rlt_dec b (IZR e)), (Rlt_dec a (IZR e)); auto; try discriminate; lra.
Qed.
Lemma upto_down : forall e a b, vle a b = true -> upto_edge e b = true -> upto_edge e a = true.
Proof.
  intros e [a|] [b|]; simpl; auto; try discriminate. destruct (Rle_dec a b), (Rle_dec b (IZR e)), (Rle_dec a (IZR e)); auto; try discriminate; lra.
Qed.

(** ** Cumulated counts *)
Fixpoint cumul (edges : list Z) (l : list val) : list Z :=
  match edges with
  | [] => []
  | e :: t => match t with [] => [cnt (upto_edge e) l] | _ => cnt (below_edge e) l :: cumul t l end
  end.
Lemma inclusive_cumul : forall e l, inclusive e (sort l) = cumul e l.
Proof.
  induction e as [|x e IH]; intros l; [reflexivity|]. simpl. destruct e as [|y e].
  - rewrite (place_cnt _ _ (upto_down x) (sort_sorted l)). now rewrite (cnt_perm _ _ _ _ (sort_perm l)).
  - rewrite (place_cnt _ _ (below_down x) (sort_sorted l)). rewrite (cnt_perm _ _ _ _ (sort_perm l)). f_equal. apply IH.
Qed.
Lemma cumul_app : forall e l m, plus (cumul e l) (cumul e m) = cumul e (l ++ m).
Proof.
  induction e as [|x e IH]; intros l m; [reflexivity|]. simpl. destruct e as [|y e]; simpl; rewrite cnt_app; [reflexivity|].
  f_equal. apply IH.
Qed.
Lemma cumul_nil : forall e, cumul e [] = map (fun _ => 0%Z) e.
Proof. induction e as [|x e IH]; [reflexivity|]. simpl. destruct e; [reflexivity|]. rewrite IH. reflexivity. Qed.
Lemma blocks_concat : forall n fuel l, (1 <= n)%nat -> (List.length l <= fuel)%nat -> List.concat (blocks fuel n l) = l.
Proof.
  intros n fuel; induction fuel as [|k IH]; intros l Hn Hl; destruct l as [|x t]; auto; [simpl in Hl; lia|].
  change (firstn n (x :: t) ++ List.concat (blocks k n (skipn n (x :: t))) = x :: t).
  rewrite IH; auto; [apply firstn_skipn|]. rewrite skipn_length. cbn [List.length] in *. lia.
Qed.
Lemma fold_cumul : forall e bs l, fold_left (fun c b => plus c (inclusive e (sort b))) bs (cumul e l) = cumul e (l ++ List.concat bs).
Proof.
  intros e bs; induction bs as [|b bs IH]; intros l; simpl; [now rewrite app_nil_r|].
  rewrite inclusive_cumul, cumul_app, IH. now rewrite app_assoc.
Qed.
Lemma block_pos : (1 <= block)%nat.
Proof. unfold block. lia. Qed.
Opaque block.
Lemma histogram_cumul : forall l e, falls e = false -> histogram l e = Ok (diff (cumul e l)).
Proof.
  intros l e H; unfold histogram; rewrite H. f_equal. f_equal. rewrite <- cumul_nil, fold_cumul. simpl.
  rewrite blocks_concat; [reflexivity|exact block_pos|apply le_n].
Qed.

Lemma diff_length : forall l, List.length (diff l) = (List.length l - 1)%nat.
Proof. induction l as [|x [|y t] IH]; auto. simpl in *. lia. Qed.
Lemma diff_nth : forall l k x y, nth_error l k = Some x -> nth_error l (S k) = Some y -> nth_error (diff l) k = Some (y - x)%Z.
Proof.
  induction l as [|u l IH]; intros [|k] x y H1 H2; try discriminate.
  - destruct l as [|v l]; [discriminate|]. simpl in *. congruence.
  - destruct l as [|v l]; [destruct k; discriminate|]. change (nth_error (diff (v :: l)) k = Some (y - x)%Z). apply IH; auto.
Qed.
Lemma cumul_length : forall e l, List.length (cumul e l) = List.length e.
Proof. induction e as [|x e IH]; intros l; [reflexivity|]. simpl. destruct e; [reflexivity|]. simpl. f_equal. apply IH. Qed.
Lemma cumul_nth : forall e l k x, nth_error e k = Some x ->
  nth_error (cumul e l) k = Some (if Nat.eqb (S k) (List.length e) then cnt (upto_edge x) l else cnt (below_edge x) l).
Proof.
  induction e as [|u e IH]; intros l k x H; [destruct k; discriminate|]. destruct e as [|v e].
  - destruct k as [|[|k]]; try discriminate. simpl in *. congruence.
  - destruct k as [|k]; [simpl in *; congruence|].
    change (nth_error (cumul (v :: e) l) k = Some (if Nat.eqb (S k) (List.length (v :: e)) then cnt (upto_edge x) l else cnt (below_edge x) l)).
    apply IH. exact H.
Qed.

(** ** The edges *)
Lemma rn_length : forall a b, List.length (rn_bins a b) = Z.to_nat (b - a).
Proof. intros; unfold rn_bins; now rewrite map_length, seq_length. Qed.
Lemma rn_nth : forall a b k, (k < Z.to_nat (b - a))%nat -> nth_error (rn_bins a b) k = Some (a + Z.of_nat k)%Z.
Proof.
  intros a b k H; unfold rn_bins. rewrite nth_error_map. 
  rewrite (nth_error_nth' (seq 0 (Z.to_nat (b - a))) 0%nat) by now rewrite seq_length.
  simpl. rewrite seq_nth by auto. reflexivity.
Qed.
Lemma falls_map : forall a n s, falls (map (fun k => (a + Z.of_nat k)%Z) (seq s n)) = false.
Proof.
  intros a n; induction n as [|n IH]; intros s; [reflexivity|]. specialize (IH (S s)).
  destruct n as [|n]; [reflexivity|].
  change (((a + Z.of_nat (S s) <? a + Z.of_nat s)%Z || falls (map (fun k => (a + Z.of_nat k)%Z) (seq (S s) (S n))))%bool = false).
  rewrite IH, orb_false_r. apply Z.ltb_ge. lia.
Qed.
Lemma rn_hist : forall l a b, histc_roi l (rn_bins a b) = Ok (diff (cumul (rn_bins a b) l)).
Proof. intros; apply histogram_cumul. apply falls_map. Qed.

Definition inb (a b : Z) (k : nat) (v : val) : bool :=
  (negb (below_edge (a + Z.of_nat k) v) && (if (a + Z.of_nat k + 2 =? b)%Z then upto_edge (a + Z.of_nat k + 1) v else below_edge (a + Z.of_nat k + 1) v))%bool.
Lemma inb_ok : forall a b k v, inb a b k v = true <-> InBin a b k v.
Proof.
  intros a b k v; unfold inb, InBin. destruct v as [x|]; simpl.
  2:{ split; [destruct (a + Z.of_nat k + 2 =? b)%Z; discriminate|]. intros (x & E & _); discriminate. }
  rewrite andb_true_iff, negb_true_iff. destruct (Z.eqb_spec (a + Z.of_nat k + 2) b) as [E|E].
  - assert (Hb : (a + Z.of_nat k + 1 = b - 1)%Z) by lia. rewrite Hb.
    destruct (Rlt_dec x (IZR (a + Z.of_nat k))), (Rle_dec x (IZR (b - 1))); split; intros H; try (destruct H; discriminate).
    + destruct H as (y & Y & H1 & H2). injection Y as <-. lra.
    + destruct H as (y & Y & H1 & H2). injection Y as <-. lra.
    + exists x; split; auto. split; [lra|]. destruct (Req_dec x (IZR (b - 1))); [right; auto|left; lra].
    + auto.
    + destruct H as (y & Y & H1 & H2). injection Y as <-. destruct H2 as [H2|[_ H2]]; lra.
  - destruct (Rlt_dec x (IZR (a + Z.of_nat k))), (Rlt_dec x (IZR (a + Z.of_nat k + 1))); split; intros H; try (destruct H; discriminate).
    + destruct H as (y & Y & H1 & H2). injection Y as <-. lra.
    + destruct H as (y & Y & H1 & H2). injection Y as <-. lra.
    + exists x; split; auto. split; [lra|]. left; lra.
    + auto.
    + destruct H as (y & Y & H1 & H2). injection Y as <-. destruct H2 as [H2|[H2 _]]; [lra|contradiction].
Qed.
Lemma cnt_sub : forall (p q r : val -> bool) l, (forall v, p v = true -> q v = true) -> (forall v, r v = (negb (p v) && q v)%bool) ->
  (cnt q l - cnt p l)%Z = cnt r l.
Proof.
  intros p q r l H1 H2; induction l as [|v l IH]; [reflexivity|]. rewrite !cnt_cons, H2. specialize (H1 v).
  destruct (p v), (q v); cbv [andb negb]; try (specialize (H1 eq_refl); discriminate); lia.
Qed.
Lemma below_mono : forall e e' v, (e <= e')%Z -> below_edge e v = true -> below_edge e' v = true.
Proof. intros e e' [x|] H; simpl; auto. apply IZR_le in H. destruct (Rlt_dec x (IZR e)), (Rlt_dec x (IZR e')); auto; lra. Qed.
Lemma below_upto : forall e e' v, (e <= e')%Z -> below_edge e v = true -> upto_edge e' v = true.
Proof. intros e e' [x|] H; simpl; auto. apply IZR_le in H. destruct (Rlt_dec x (IZR e)), (Rle_dec x (IZR e')); auto; lra. Qed.
Lemma hist_nth : forall l a b k, (k < Z.to_nat (b - a - 1))%nat -> nth_error (diff (cumul (rn_bins a b) l)) k = Some (cnt (inb a b k) l).
Proof.
  intros l a b k H.
  assert (E1 := cumul_nth (rn_bins a b) l k _ (rn_nth a b k ltac:(lia))).
  assert (E2 := cumul_nth (rn_bins a b) l (S k) _ (rn_nth a b (S k) ltac:(lia))).
  rewrite rn_length in E1, E2. rewrite (proj2 (Nat.eqb_neq _ _)) in E1 by lia.
  rewrite (diff_nth _ _ _ _ E1 E2). f_equal.
  replace (a + Z.of_nat (S k))%Z with (a + Z.of_nat k + 1)%Z by lia.
  destruct (Nat.eqb_spec (S (S k)) (Z.to_nat (b - a))) as [E|E].
  - apply cnt_sub; [intros v; apply below_upto; lia|]. intros v; unfold inb. rewrite (proj2 (Z.eqb_eq _ _)) by lia. reflexivity.
  - apply cnt_sub; [intros v; apply below_mono; lia|]. intros v; unfold inb. rewrite (proj2 (Z.eqb_neq _ _)) by lia. reflexivity.
Qed.
Lemma hist_length : forall l a b, List.length (diff (cumul (rn_bins a b) l)) = Z.to_nat (b - a - 1).
Proof. intros; rewrite diff_length, cumul_length, rn_length; lia. Qed.
Lemma hist_ok : forall l a b, Histogram a b l (diff (cumul (rn_bins a b) l)).
Proof.
  intros l a b; split; [apply hist_length|]. intros k n H.
  assert (L : (k < Z.to_nat (b - a - 1))%nat). { rewrite <- (hist_length l a b). apply nth_error_Some. congruence. }
  rewrite hist_nth in H by auto. injection H as <-. apply tally_cnt. intros; apply inb_ok.
Qed.
Lemma nth_error_ext : forall A (l m : list A), List.length l = List.length m -> (forall k x y, nth_error l k = Some x -> nth_error m k = Some y -> x = y) -> l = m.
Proof.
  intros A l; induction l as [|x l IH]; intros [|y m] L H; auto; try discriminate. f_equal.
  - apply (H 0%nat); reflexivity.
  - apply IH; [simpl in L; lia|]. intros k u v Hu Hv. apply (H (S k)); auto.
Qed.
Lemma histogram_fun : forall a b l c c', Histogram a b l c -> Histogram a b l c' -> c = c'.
Proof.
  intros a b l c c' [L H] [L' H']. apply nth_error_ext; [congruence|]. intros k x y Hx Hy. eapply tally_fun; eauto.
Qed.
Lemma counts : forall a b l c, histc_roi l (rn_bins a b) = Ok c <-> Histogram a b l c.
Proof.
  intros a b l c; rewrite rn_hist. split; [intros E; injection E as <-; apply hist_ok|].
  intros H. f_equal. eapply histogram_fun; [apply hist_ok|exact H].
Qed.
