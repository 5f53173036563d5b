(** Proofs for the fit of the histogram and its use in the calibration. *)
From Coq Require Import List Arith Bool Reals ZArith Lia Lra Permutation String.
From Verif Require Import Base CombineModel CombineSpec FlatModel KgainModel KgainSpec RnHistModel RnHistSpec RnHistProofs.
Import ListNotations.
Local Open Scope R_scope.

Lemma nth_firstn : forall A (l : list A) n k, (k < n)%nat -> nth_error (firstn n l) k = nth_error l k.
Proof. intros A l; induction l as [|x l IH]; intros [|n] [|k] H; auto; try lia. simpl. apply IH. lia. Qed.
Lemma locs_ok : forall a b, LeftEdges a b (bin_locs (rn_bins a b)).
Proof.
  intros a b; unfold bin_locs. rewrite removelast_firstn_len, rn_length. split.
  - rewrite firstn_length, rn_length. lia.
  - intros k z H. assert (L : (k < Init.Nat.pred (Z.to_nat (b - a)))%nat).
    { assert (nth_error (firstn (Init.Nat.pred (Z.to_nat (b - a))) (rn_bins a b)) k <> None) by congruence.
      apply nth_error_Some in H0. rewrite firstn_length, rn_length in H0. lia. }
    rewrite nth_firstn in H by auto. rewrite rn_nth in H by lia. congruence.
Qed.
Lemma locs_fun : forall a b x y, LeftEdges a b x -> LeftEdges a b y -> x = y.
Proof.
  intros a b x y [L H] [L' H']. apply nth_error_ext; [congruence|]. intros k u v Hu Hv. rewrite (H _ _ Hu), (H' _ _ Hv). reflexivity.
Qed.
Lemma best_ok : forall l pre v i n k, FirstFullest pre i v -> best_from v i (List.length pre) l = (n, k) -> FirstFullest (pre ++ l) k n.
Proof.
  induction l as [|y l IH]; intros pre v i n k F E; simpl in E.
  - injection E as <- <-. now rewrite app_nil_r.
  - replace (pre ++ y :: l) with ((pre ++ [y]) ++ l) by (rewrite <- app_assoc; reflexivity).
    assert (L : S (List.length pre) = List.length (pre ++ [y])) by (rewrite app_length; simpl; lia).
    rewrite L in E. destruct F as (F1 & F2 & F3).
    assert (I : (i < List.length pre)%nat) by (apply nth_error_Some; congruence).
    destruct (Z.ltb_spec v y) as [V|V]; eapply IH; try exact E.
    + split; [rewrite nth_error_app2, Nat.sub_diag by lia; reflexivity|]. split.
      * intros j m Hm. destruct (Nat.lt_ge_cases j (List.length pre)).
        -- rewrite nth_error_app1 in Hm by auto. specialize (F2 _ _ Hm). lia.
        -- rewrite nth_error_app2 in Hm by auto. destruct (j - List.length pre)%nat as [|[|z]]; try discriminate. injection Hm as <-. lia.
      * intros j m J Hm. rewrite nth_error_app1 in Hm by auto. specialize (F2 _ _ Hm). lia.
    + split; [now rewrite nth_error_app1|]. split.
      * intros j m Hm. destruct (Nat.lt_ge_cases j (List.length pre)).
        -- rewrite nth_error_app1 in Hm by auto. eauto.
        -- rewrite nth_error_app2 in Hm by auto. destruct (j - List.length pre)%nat as [|[|z]]; try discriminate. injection Hm as <-. lia.
      * intros j m J Hm. rewrite nth_error_app1 in Hm by lia. eauto.
Qed.
Lemma fullest_fun : forall c k n k' n', FirstFullest c k n -> FirstFullest c k' n' -> k = k' /\ n = n'.
Proof.
  intros c k n k' n' (A1 & A2 & A3) (B1 & B2 & B3). assert (n = n') by (apply A2 in B1; apply B2 in A1; lia). subst n'. split; auto.
  destruct (Nat.lt_trichotomy k k') as [H|[H|H]]; auto; [apply (B3 _ _ H) in A1|apply (A3 _ _ H) in B1]; lia.
Qed.
Lemma start_fun : forall a b l x c p x' c' p', Start a b l x c p -> Start a b l x' c' p' -> x = x' /\ c = c' /\ p = p'.
Proof.
  intros a b l x c p x' c' p' (X & C & k & n & F & P) (X' & C' & k' & n' & F' & P').
  assert (x = x') by (eapply locs_fun; eauto). assert (c = c') by (eapply histogram_fun; eauto). subst.
  destruct (fullest_fun _ _ _ _ _ F F'); subst. auto.
Qed.
Lemma start_bins : forall a b l x c p, Start a b l x c p -> (a + 2 <= b)%Z.
Proof.
  intros a b l x c p (X & C & k & n & (F & _) & P). destruct C as [L _].
  assert (k < List.length c)%nat by (apply nth_error_Some; congruence). lia.
Qed.
Lemma width_start : forall fit a b l, (a + 2 <= b)%Z -> exists x c p, Start a b l x c p
  /\ rn_width fit l (a, b) = (do est <- fit x c p; let '(_, _, sigma) := est in Ok sigma).
Proof.
  intros fit a b l H. unfold rn_width. cbn [fst snd]. rewrite rn_hist. cbn [bind].
  pose proof (hist_ok l a b) as C. set (c := diff (cumul (rn_bins a b) l)) in *. pose proof (locs_ok a b) as X.
  set (x := bin_locs (rn_bins a b)) in *. unfold single_peakfit.
  destruct c as [|y t] eqn:Ec; [destruct C as [L _]; simpl in L; lia|].
  destruct (best_from y 0 1 t) as [n k] eqn:B.
  assert (F : FirstFullest (y :: t) k n).
  { apply (best_ok t [y] y 0%nat n k); auto. split; [reflexivity|]. split.
    - intros [|[|j]] m Hm; try discriminate. injection Hm as <-. lia.
    - intros j m J; lia. }
  assert (K : (k < List.length x)%nat).
  { destruct X as [LX _]. destruct C as [LC _]. rewrite LX, <- LC. apply nth_error_Some. destruct F as [F _]. congruence. }
  destruct (nth_error x k) as [z|] eqn:Z; [|apply nth_error_None in Z; lia].
  exists x, (y :: t), (IZR n, IZR z, 10). split; [|reflexivity].
  split; [exact X|]. split; [exact C|]. exists k, n. split; auto. destruct X as [_ X]. rewrite (X _ _ Z). reflexivity.
Qed.
Lemma width_none : forall fit a b l, (b <= a + 1)%Z -> rn_width fit l (a, b) = Raise ValueError.
Proof.
  intros fit a b l H. unfold rn_width. cbn [fst snd]. rewrite rn_hist. cbn [bind].
  pose proof (hist_length l a b) as L. destruct (diff (cumul (rn_bins a b) l)); [reflexivity|]. simpl in L. lia.
Qed.
Lemma width_ok : forall fit a b l s, rn_width fit l (a, b) = Ok s <-> exists x c p A m, Start a b l x c p /\ fit x c p = Ok (A, m, s).
Proof.
  intros fit a b l s. split.
  - intros E. destruct (Z.le_gt_cases b (a + 1)) as [H|H]; [rewrite width_none in E by auto; discriminate|].
    destruct (width_start fit a b l ltac:(lia)) as (x & c & p & S & W). rewrite W in E.
    destruct (fit x c p) as [[[A m] s']|] eqn:F; [|discriminate]. injection E as ->. exists x, c, p, A, m. auto.
  - intros (x & c & p & A & m & S & F). destruct (width_start fit a b l (start_bins _ _ _ _ _ _ S)) as (x' & c' & p' & S' & W).
    destruct (start_fun _ _ _ _ _ _ _ _ _ S S') as (<- & <- & <-). rewrite W, F. reflexivity.
Qed.
Lemma width_raise : forall fit a b l e, rn_width fit l (a, b) = Raise e <->
  (b <= a + 1)%Z /\ e = ValueError \/ exists x c p, Start a b l x c p /\ fit x c p = Raise e.
Proof.
  intros fit a b l e. split.
  - intros E. destruct (Z.le_gt_cases b (a + 1)) as [H|H]; [rewrite width_none in E by auto; injection E as <-; auto|].
    destruct (width_start fit a b l ltac:(lia)) as (x & c & p & S & W). rewrite W in E. right. exists x, c, p. split; auto.
    destruct (fit x c p) as [[[A m] s']|e'] eqn:F; [discriminate|]. injection E as ->. reflexivity.
  - intros [[H ->]|(x & c & p & S & F)]; [now apply width_none|].
    destruct (width_start fit a b l (start_bins _ _ _ _ _ _ S)) as (x' & c' & p' & S' & W).
    destruct (start_fun _ _ _ _ _ _ _ _ _ S S') as (<- & <- & <-). rewrite W, F. reflexivity.
Qed.

(** ** Laws *)
Lemma hist_agree : forall l m a b, (forall k, cnt (inb a b k) l = cnt (inb a b k) m) -> histc_roi l (rn_bins a b) = histc_roi m (rn_bins a b).
Proof.
  intros l m a b H. rewrite !rn_hist. f_equal. apply nth_error_ext; [now rewrite !hist_length|]. intros k x y Hx Hy.
  assert (L : (k < Z.to_nat (b - a - 1))%nat). { rewrite <- (hist_length l a b). apply nth_error_Some. congruence. }
  rewrite hist_nth in Hx, Hy by auto. specialize (H k). congruence.
Qed.
Lemma width_order : forall fit l m ab, Permutation l m -> rn_width fit l ab = rn_width fit m ab.
Proof.
  intros fit l m [a b] P. unfold rn_width. cbn [fst snd].
  rewrite (hist_agree l m a b) by (intros; now apply cnt_perm). reflexivity.
Qed.
Lemma in_range : forall a b k v, (k < Z.to_nat (b - a - 1))%nat -> InBin a b k v -> InRange a b v.
Proof.
  intros a b k v K (x & -> & H1 & H2). exists x. split; auto.
  assert (IZR a <= IZR (a + Z.of_nat k)) by (apply IZR_le; lia). assert (IZR (a + Z.of_nat k + 1) <= IZR (b - 1)) by (apply IZR_le; lia).
  destruct H2 as [H2|[_ H2]]; split; lra.
Qed.
Lemma cnt_none : forall A (q : A -> bool) l, (forall x, In x l -> q x = false) -> cnt q l = 0%Z.
Proof. intros A q l; induction l as [|x l IH]; intros H; [reflexivity|]. rewrite cnt_cons, (H x (or_introl eq_refl)), IH; [reflexivity|]. intros; apply H; now right. Qed.
Lemma width_outside : forall fit l m a b, (forall v, In v m -> ~ InRange a b v) -> rn_width fit (l ++ m) (a, b) = rn_width fit l (a, b).
Proof.
  intros fit l m a b H. unfold rn_width. cbn [fst snd].
  replace (histc_roi (l ++ m) (rn_bins a b)) with (histc_roi l (rn_bins a b)); [reflexivity|].
  rewrite !rn_hist. f_equal. apply nth_error_ext; [now rewrite !hist_length|]. intros k x y Hx Hy.
  assert (L : (k < Z.to_nat (b - a - 1))%nat). { rewrite <- (hist_length l a b). apply nth_error_Some. congruence. }
  rewrite hist_nth in Hx, Hy by auto. rewrite cnt_app, (cnt_none _ (inb a b k) m) in Hy.
  - injection Hx as <-. injection Hy as <-. lia.
  - intros v V. destruct (inb a b k v) eqn:E; [|reflexivity]. apply inb_ok in E. destruct (H v V). eapply in_range; eauto.
Qed.
Lemma below_moved : forall d e v, below_edge (e + d) (moved d v) = below_edge e v.
Proof. intros d e [x|]; simpl; auto. rewrite plus_IZR. destruct (Rlt_dec (x + IZR d) (IZR e + IZR d)), (Rlt_dec x (IZR e)); auto; lra. Qed.
Lemma upto_moved : forall d e v, upto_edge (e + d) (moved d v) = upto_edge e v.
Proof. intros d e [x|]; simpl; auto. rewrite plus_IZR. destruct (Rle_dec (x + IZR d) (IZR e + IZR d)), (Rle_dec x (IZR e)); auto; lra. Qed.
Lemma cnt_map : forall (q r : val -> bool) f l, (forall v, q (f v) = r v) -> cnt q (map f l) = cnt r l.
Proof. intros q r f l H; induction l as [|v l IH]; [reflexivity|]. simpl map. now rewrite !cnt_cons, H, IH. Qed.
Lemma hist_moved : forall d l a b, histc_roi (map (moved d) l) (rn_bins (a + d) (b + d)) = histc_roi l (rn_bins a b).
Proof.
  intros d l a b. rewrite !rn_hist. f_equal. apply nth_error_ext; [rewrite !hist_length; f_equal; lia|]. intros k x y Hx Hy.
  assert (L : (k < Z.to_nat (b - a - 1))%nat). { rewrite <- (hist_length l a b). apply nth_error_Some. congruence. }
  rewrite hist_nth in Hx by lia. rewrite hist_nth in Hy by auto. injection Hx as <-. injection Hy as <-. apply cnt_map. intros v. unfold inb.
  replace (a + d + Z.of_nat k)%Z with (a + Z.of_nat k + d)%Z by lia. rewrite below_moved.
  replace (a + Z.of_nat k + d + 1)%Z with (a + Z.of_nat k + 1 + d)%Z by lia. rewrite below_moved, upto_moved.
  destruct (Z.eqb_spec (a + Z.of_nat k + d + 2) (b + d)), (Z.eqb_spec (a + Z.of_nat k + 2) b); auto; lia.
Qed.
Lemma hist_total : forall l a b c, (a + 2 <= b)%Z -> histc_roi l (rn_bins a b) = Ok c -> Tally (InRange a b) l (total c).
Proof.
  intros l a b c H E. rewrite rn_hist in E. injection E as <-.
  assert (D : forall u x y, nth_error u 0 = Some x -> nth_error u (List.length u - 1) = Some y -> total (diff u) = (y - x)%Z).
  { clear. induction u as [|p [|q u] IH]; intros x y Hx Hy; [discriminate| |].
    - simpl in *. injection Hx as <-. injection Hy as <-. lia.
    - assert (Q : nth_error (q :: u) (List.length (q :: u) - 1) = Some y).
      { rewrite <- Hy. simpl. now rewrite Nat.sub_0_r. }
      specialize (IH q y eq_refl Q). simpl in Hx. injection Hx as <-.
      change (total (diff (p :: q :: u))) with (q - p + total (diff (q :: u)))%Z. rewrite IH. lia. }
  assert (E1 := cumul_nth (rn_bins a b) l 0 _ (rn_nth a b 0 ltac:(lia))).
  assert (E2 := cumul_nth (rn_bins a b) l (Z.to_nat (b - a) - 1) _ (rn_nth a b (Z.to_nat (b - a) - 1) ltac:(lia))).
  rewrite rn_length in E1, E2. rewrite (proj2 (Nat.eqb_neq _ _)) in E1 by lia. rewrite (proj2 (Nat.eqb_eq _ _)) in E2 by lia.
  rewrite (D _ _ (cnt (upto_edge (b - 1)) l) E1).
  2:{ rewrite cumul_length, rn_length, E2. do 3 f_equal. lia. }
  rewrite Z.add_0_r.
  rewrite (cnt_sub _ _ (fun v => negb (below_edge a v) && upto_edge (b - 1) v)%bool); [|intros v; apply below_upto; lia|reflexivity].
  apply tally_cnt. intros v _. unfold InRange. destruct v as [x|]; simpl.
  2:{ split; [discriminate|]. intros (x & E & _); discriminate. }
  destruct (Rlt_dec x (IZR a)), (Rle_dec x (IZR (b - 1))); simpl; split; intros K; try discriminate; auto;
    try (destruct K as (y & Y & K); injection Y as <-; lra).
  exists x; split; auto; lra.
Qed.
Lemma hist_join : forall l m a b c, histc_roi (l ++ m) (rn_bins a b) = Ok c <->
  exists c1 c2, histc_roi l (rn_bins a b) = Ok c1 /\ histc_roi m (rn_bins a b) = Ok c2 /\ List.length c = List.length c1
  /\ forall k n n1 n2, nth_error c k = Some n -> nth_error c1 k = Some n1 -> nth_error c2 k = Some n2 -> n = (n1 + n2)%Z.
Proof.
  intros l m a b c. rewrite !rn_hist.
  assert (J : forall k n n1 n2, nth_error (diff (cumul (rn_bins a b) (l ++ m))) k = Some n -> nth_error (diff (cumul (rn_bins a b) l)) k = Some n1 ->
    nth_error (diff (cumul (rn_bins a b) m)) k = Some n2 -> n = (n1 + n2)%Z).
  { intros k n n1 n2 H H1 H2. assert (L : (k < Z.to_nat (b - a - 1))%nat). { rewrite <- (hist_length l a b). apply nth_error_Some. congruence. }
    rewrite hist_nth in H, H1, H2 by auto. rewrite cnt_app in H. congruence. }
  split.
  - intros E. injection E as <-. exists (diff (cumul (rn_bins a b) l)), (diff (cumul (rn_bins a b) m)). rewrite !hist_length. auto.
  - intros (c1 & c2 & E1 & E2 & L & H). injection E1 as <-. injection E2 as <-. rewrite hist_length in L. f_equal. apply nth_error_ext; [rewrite hist_length; lia|].
    intros k x y Hx Hy. assert (K : (k < Z.to_nat (b - a - 1))%nat). { rewrite <- L. apply nth_error_Some. congruence. }
    rewrite (H k y _ _ Hy (hist_nth l a b k K) (hist_nth m a b k K)). eapply J; eauto; now apply hist_nth.
Qed.

Lemma width_moved : forall fit d l a b, Equivariant fit -> rn_width fit (map (moved d) l) (a + d, b + d)%Z = rn_width fit l (a, b).
Proof.
  intros fit d l a b Q. destruct (Z.le_gt_cases b (a + 1)) as [H|H]; [rewrite !width_none by lia; reflexivity|].
  destruct (width_start fit a b l ltac:(lia)) as (x & c & p & S & W).
  destruct (width_start fit (a + d) (b + d) (map (moved d) l) ltac:(lia)) as (x' & c' & p' & S' & W'). rewrite W, W'.
  destruct S as (X & C & k & n & F & ->). destruct S' as (X' & C' & k' & n' & F' & ->).
  apply counts in C. apply counts in C'. rewrite hist_moved, C in C'. injection C' as <-. destruct (fullest_fun _ _ _ _ _ F F') as [<- <-].
  assert (x' = map (fun z => (z + d)%Z) x) as ->.
  { destruct X as [L X], X' as [L' X']. apply nth_error_ext; [rewrite map_length, L, L'; f_equal; lia|].
    intros j u v U V. rewrite nth_error_map in V. destruct (nth_error x j) as [z|] eqn:E; [|discriminate]. simpl in V. injection V as <-.
    rewrite (X _ _ E), (X' _ _ U). lia. }
  replace (IZR (a + d + Z.of_nat k)) with (IZR (a + Z.of_nat k) + IZR d) by (rewrite <- plus_IZR; f_equal; lia).
  rewrite Q. destruct (fit x c (IZR n, IZR (a + Z.of_nat k), 10)) as [[[A m] s]|]; reflexivity.
Qed.
