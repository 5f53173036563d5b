(** Proofs on the illumination correction. *)
From Coq Require Import List Arith Bool Reals ZArith Lia Lra Permutation Sorted.
From Verif Require Import Base CombineModel CombineSpec CombineProofs BpmSpec BpmProofs FindModel FindProofs IllModel IllSpec.
Import ListNotations.
Local Open Scope R_scope.

(** ** The bins *)
Lemma removelast_seq : forall (f : nat -> nat) s k, removelast (map f (seq s (S k))) = map f (seq s k).
Proof. intros f s k. rewrite seq_S, map_app. cbn [map]. apply removelast_last. Qed.
Lemma edges_eq : forall n b, (0 < b)%nat -> edges n b = map (fun i => (i * b)%nat) (seq 0 (n / b)) ++ [n].
Proof.
  intros n b P. unfold edges, set_last, arange. pose proof (Nat.div_mod n b ltac:(lia)) as D. pose proof (Nat.mod_upper_bound n b ltac:(lia)) as U. set (q := (n / b)%nat) in *. set (m := (n mod b)%nat) in *. clearbody q m. f_equal. destruct (Nat.eqb_spec m 0) as [->|NZ].
  - replace ((n + 1 + b - 1) / b)%nat with (S q); [apply removelast_seq|]. apply (Nat.div_unique _ b (S q) 0); nia.
  - replace ((n + b - 1) / b)%nat with (S q); [apply removelast_seq|]. apply (Nat.div_unique _ b (S q) (m - 1)); nia.
Qed.
Lemma pair_edges : forall (f : nat -> nat) n k s, combine (map f (seq s k) ++ [n]) (tl (map f (seq s k) ++ [n])) = map (fun i => (f i, if Nat.eqb (S i) (s + k) then n else f (S i))) (seq s k).
Proof.
  intros f n. induction k as [|k IH]; intros s; [reflexivity|]. cbn [seq map app tl combine]. specialize (IH (S s)). destruct k as [|k].
  - cbn. replace (s + 1)%nat with (S s) by lia. rewrite Nat.eqb_refl. reflexivity.
  - cbn [seq map app tl] in *. cbn [combine]. f_equal; [destruct (Nat.eqb_spec (S s) (s + S (S k))); [lia|reflexivity]|]. replace (s + S (S k))%nat with (S s + S k)%nat by lia. exact IH.
Qed.
Lemma bins_eq : forall n b, (0 < b)%nat -> bins n b = map (fun k => (k * b, if Nat.eqb (S k) (n / b) then n else S k * b))%nat (seq 0 (n / b)).
Proof. intros n b P. unfold bins. rewrite (edges_eq n b P), pair_edges. reflexivity. Qed.
Theorem bins_iff : forall n b lo hi, (0 < b)%nat -> (In (lo, hi) (bins n b) <-> bin n b lo hi).
Proof.
  intros n b lo hi P. rewrite (bins_eq n b P), in_map_iff. pose proof (Nat.div_mod n b ltac:(lia)) as D. pose proof (Nat.mod_upper_bound n b ltac:(lia)) as U. set (q := (n / b)%nat) in *. set (m := (n mod b)%nat) in *. clearbody q m. split.
  - intros (k & E & I). apply in_seq in I. assert (E1 : (k * b)%nat = lo) by congruence. assert (E2 : (if Nat.eqb (S k) q then n else S k * b)%nat = hi) by congruence. clear E. subst lo hi. exists k. pose proof (Nat.mul_le_mono_r (S k) q b ltac:(lia)) as M. split; [reflexivity|]. split; [lia|]. destruct (Nat.eqb_spec (S k) q) as [Q|Q], (Nat.ltb_spec n (k * b + 2 * b)); try reflexivity; [subst q; lia|pose proof (Nat.mul_le_mono_r (S (S k)) q b ltac:(lia)); lia|lia].
  - intros (k & -> & L & ->). assert (KQ : (k < q)%nat) by (destruct (le_lt_dec q k) as [H|H]; [exfalso; pose proof (Nat.mul_le_mono_r q k b H); lia|exact H]). exists k. split; [|apply in_seq; lia]. f_equal. destruct (Nat.eqb_spec (S k) q) as [Q|Q], (Nat.ltb_spec n (k * b + 2 * b)); try reflexivity; [subst q; lia|pose proof (Nat.mul_le_mono_r (S (S k)) q b ltac:(lia)); lia|lia].
Qed.
Theorem bin_bounds : forall n b lo hi, bin n b lo hi -> (lo + b <= hi <= n /\ (0 < b -> hi < lo + 2 * b))%nat.
Proof. intros n b lo hi (k & -> & L & ->). destruct (Nat.ltb_spec n (k * b + 2 * b)); lia. Qed.
Theorem bin_covers : forall n b r, (0 < b <= n)%nat -> (r < n)%nat -> exists lo hi, bin n b lo hi /\ (lo <= r < hi)%nat.
Proof.
  intros n b r P L. pose proof (Nat.div_mod r b ltac:(lia)) as D. pose proof (Nat.mod_upper_bound r b ltac:(lia)) as U. set (q := (r / b)%nat) in *. set (m := (r mod b)%nat) in *. clearbody q m. destruct (le_lt_dec (q * b + b) n) as [F|F].
  - exists (q * b)%nat. eexists. split; [exists q; repeat split; exact F|]. destruct (Nat.ltb_spec n (q * b + 2 * b)); nia.
  - destruct q as [|q]; [nia|]. exists (q * b)%nat. eexists. split; [exists q; repeat split; nia|]. destruct (Nat.ltb_spec n (q * b + 2 * b)); nia.
Qed.
Theorem bin_unique : forall n b r lo hi lo' hi', (0 < b)%nat -> bin n b lo hi -> bin n b lo' hi' -> (lo <= r < hi)%nat -> (lo' <= r < hi')%nat -> lo = lo' /\ hi = hi'.
Proof.
  intros n b r lo hi lo' hi' P (k & -> & L & ->) (k' & -> & L' & ->) A B. assert (k = k'); [|subst; auto].
  destruct (Nat.ltb_spec n (k * b + 2 * b)), (Nat.ltb_spec n (k' * b + 2 * b)); destruct (lt_eq_lt_dec k k') as [[K|K]|K]; try exact K; exfalso; nia.
Qed.
Theorem no_bins : forall n b, (n < b)%nat -> bins n b = [].
Proof. intros n b L. rewrite bins_eq by lia. rewrite Nat.div_small by lia. reflexivity. Qed.

(** ** Medians *)
Lemma all_numbers : forall l, forallb (fun v : option R => match v with Some _ => true | None => false end) l = true <-> exists xs, numbers l xs.
Proof.
  induction l as [|v l IH]; [split; [exists []; constructor|reflexivity]|]. cbn [forallb]. destruct v as [x|]; cbn [andb].
  - rewrite IH. split; intros (xs & F); [exists (x :: xs); constructor; auto|inversion F; subst; eauto].
  - split; [discriminate|]. intros (xs & F). inversion F; subst. discriminate.
Qed.
Lemma numbers_somes : forall l xs, numbers l xs -> somes l = xs.
Proof. intros l xs F. induction F as [|o x l xs E F IH]; [reflexivity|]. subst o. cbn. rewrite IH. reflexivity. Qed.
Theorem median_iff : forall l m, median l = Some m <-> median_of l m.
Proof.
  intros l m. unfold median, median_of. destruct (forallb _ l) eqn:E.
  - apply all_numbers in E. destruct E as (xs & F). pose proof (nanmedian_spec l) as H. rewrite (numbers_somes l xs F) in H. split.
    + intros M. rewrite M in H. eauto.
    + intros (ys & G & M). pose proof (numbers_somes l xs F) as E'. rewrite (numbers_somes l ys G) in E'. subst ys. destruct (nanmedian l) as [m'|]; [f_equal; exact (is_median_unique _ _ _ H M)|]. subst xs. destruct M as (s & _ & _ & [(k & a & b & L & _)|(k & L & _)]); cbn in L; lia.
  - split; [discriminate|]. intros (xs & F & _). assert (E' : forallb (fun v : option R => match v with Some _ => true | None => false end) l = true) by (apply all_numbers; eauto). congruence.
Qed.
Theorem median_exists : forall l, l <> [] -> ~ In None l -> exists m, median_of l m.
Proof.
  intros l NE NN. destruct (median l) as [m|] eqn:E; [exists m; apply median_iff; exact E|]. exfalso. unfold median in E. destruct (forallb _ l) eqn:F.
  - pose proof (nanmedian_spec l) as H. rewrite E in H. apply all_numbers in F. destruct F as (xs & F). rewrite (numbers_somes l xs F) in H. subst xs. inversion F; subst. contradiction.
  - assert (T : forallb (fun v : option R => match v with Some _ => true | None => false end) l = true); [|congruence]. apply forallb_forall. intros [x|] I; [reflexivity|contradiction].
Qed.
Lemma median_nan : forall l, In None l -> median l = None.
Proof. intros l I. unfold median. destruct (forallb _ l) eqn:F; [|reflexivity]. rewrite forallb_forall in F. specialize (F _ I). discriminate F. Qed.
Lemma median_of_perm : forall l l' m, Permutation l l' -> median_of l m -> median_of l' m.
Proof.
  intros l l' m P (xs & F & M). destruct (proj1 (all_numbers l')) as (ys & G).
  - rewrite forallb_forall. intros v I. apply (Permutation_in _ (Permutation_sym P)) in I. pose proof (proj2 (all_numbers l) (ex_intro _ xs F)) as A. rewrite forallb_forall in A. exact (A v I).
  - exists ys. split; [exact G|]. rewrite <- (numbers_somes l xs F) in M. rewrite <- (numbers_somes l' ys G). assert (PS : Permutation (somes l) (somes l')). { clear - P. induction P as [|x a b P IH|x y a|a b c P1 IH1 P2 IH2]; [constructor|destruct x; cbn; [constructor|]; exact IH|destruct x, y; cbn; try constructor; apply Permutation_refl|exact (Permutation_trans IH1 IH2)]. }
    destruct M as (s & S0 & PP & D). exists s. split; [exact S0|]. split; [exact (Permutation_trans PP PS)|]. rewrite <- (Permutation_length PS). exact D.
Qed.
Lemma reduced_sub : forall vs v, reduced vs v (sub2 v (median vs)).
Proof.
  intros vs v. split.
  - intros m x M ->. apply median_iff in M. rewrite M. reflexivity.
  - intros [-> | I]; [reflexivity|]. rewrite (median_nan vs I). destruct v; reflexivity.
Qed.

(** ** Sections *)
Lemma line_values : forall A (row : list A) lo n, (lo + n <= List.length row)%nat -> Forall2 (fun j v => nth_error row j = Some v) (seq lo n) (firstn n (skipn lo row)).
Proof.
  intros A row. induction row as [|x row IH]; intros lo n L; cbn [List.length] in L.
  - assert (n = 0%nat) by lia. subst. destruct lo; constructor.
  - destruct lo as [|lo].
    + destruct n as [|n]; [constructor|]. cbn [seq skipn firstn]. constructor; [reflexivity|]. specialize (IH 0%nat n ltac:(lia)). cbn [skipn] in IH. rewrite <- seq_shift. clear L. induction IH as [|j v js vs E F IH']; cbn [map]; constructor; auto.
    + cbn [skipn]. specialize (IH lo n ltac:(lia)). rewrite <- seq_shift. clear L. induction IH as [|j v js vs E F IH']; cbn [map]; constructor; auto.
Qed.
Lemma rows_values : forall (img : list (list (option R))) is rows cs (g : list (option R) -> list (option R)),
  Forall2 (fun i row => nth_error img i = Some row) is rows -> (forall row, In row rows -> Forall2 (fun j v => nth_error row j = Some v) cs (g row)) ->
  Forall2 (fun p v => cell img (fst p) (snd p) v) (list_prod is cs) (List.concat (map g rows)).
Proof.
  intros img is rows cs g F. induction F as [|i row is rows E F IH]; intros H; [constructor|]. cbn [list_prod map List.concat]. apply Forall2_app; [|apply IH; intros; apply H; right; assumption].
  specialize (H row (or_introl eq_refl)). clear IH. induction H as [|j v js vs V H' IH']; [constructor|]. cbn [map]. constructor; [exists row; auto|exact IH'].
Qed.
Lemma section_values : forall nr nc img lo hi lo' hi', rect nr nc img -> (lo <= hi <= nr)%nat -> (lo' <= hi' <= nc)%nat -> values img lo hi lo' hi' (section img (lo, hi) (lo', hi')).
Proof.
  intros nr nc img lo hi lo' hi' (L & W) A B. exists (list_prod (seq lo (hi - lo)) (seq lo' (hi' - lo'))). split; [apply nodup_prod; apply seq_NoDup|]. split; [intros i j; rewrite in_prod_iff, !in_seq; lia|].
  unfold section, cut. cbn [fst snd]. apply rows_values; [apply line_values; lia|]. intros row I. apply line_values. assert (In row img). { rewrite <- (firstn_skipn lo img). apply in_or_app. right. rewrite <- (firstn_skipn (hi - lo) (skipn lo img)). apply in_or_app. left. exact I. } rewrite (W row H). lia.
Qed.
Lemma values_perm : forall img lo hi lo' hi' vs vs', values img lo hi lo' hi' vs -> values img lo hi lo' hi' vs' -> Permutation vs vs'.
Proof.
  intros img lo hi lo' hi' vs vs' (ps & N & I & F) (ps' & N' & I' & F'). refine (forall2_perm_fun _ _ (fun p v => cell img (fst p) (snd p) v) _ ps ps' vs vs' _ F F'); [intros p a b A B; exact (cell_fun _ _ _ _ _ _ A B)|]. apply NoDup_Permutation; [exact N|exact N'|]. intros (i & j). rewrite I, I'. tauto.
Qed.
Lemma reduced_perm : forall vs vs' v u, Permutation vs vs' -> reduced vs v u -> reduced vs' v u.
Proof. intros vs vs' v u P (A & B). split; [intros m x M; apply A; exact (median_of_perm _ _ _ (Permutation_sym P) M)|]. intros [H|H]; apply B; [left; exact H|right; exact (Permutation_in _ (Permutation_sym P) H)]. Qed.

(** ** The loop *)
Lemma zip_cell : forall A B (a : list (list A)) (b : list (list B)) r c p, cell (zipgrid a b) r c p <-> cell a r c (fst p) /\ cell b r c (snd p).
Proof.
  intros A B a b r c p. pose proof (cell_zip A B (A * B) (fun q => q) a b r c p) as H. assert (E : map (fun p0 => map (fun q : A * B => q) (combine (fst p0) (snd p0))) (combine a b) = zipgrid a b) by (unfold zipgrid; apply map_ext; intros q; apply map_id). rewrite E in H. rewrite H. split.
  - intros (x & y & X & Y & ->). auto.
  - intros (X & Y). exists (fst p), (snd p). destruct p; auto.
Qed.
Lemma zip_rect : forall A B nr nc (a : list (list A)) (b : list (list B)), rect nr nc a -> rect nr nc b -> rect nr nc (zipgrid a b).
Proof.
  intros A B nr nc a b (LA & WA) (LB & WB). unfold zipgrid. split; [rewrite map_length, combine_length; lia|]. intros row I. apply in_map_iff in I. destruct I as ((ra & rb) & <- & I). cbn [fst snd]. rewrite combine_length, (WA ra), (WB rb); [lia|exact (in_combine_r _ _ _ _ I)|exact (in_combine_l _ _ _ _ I)].
Qed.
Lemma step_rect : forall nr nc img corr w, rect nr nc img -> rect nr nc corr -> rect nr nc (correct_bin img corr w).
Proof. intros. unfold correct_bin. apply grid_rect. apply zip_rect; assumption. Qed.
Lemma step_cell : forall img corr w i j v old u, cell img i j v -> cell corr i j old -> (cell (correct_bin img corr w) i j u <-> u = if inside (fst w) i && inside (snd w) j then sub2 v (median (section img (fst w) (snd w))) else old).
Proof.
  intros img corr w i j v old u CV CO. unfold correct_bin. rewrite cell_grid. split.
  - intros ((x & y) & CE & ->). apply zip_cell in CE. cbn [fst snd] in *. rewrite (cell_fun _ _ _ _ _ _ (proj1 CE) CV), (cell_fun _ _ _ _ _ _ (proj2 CE) CO). reflexivity.
  - intros ->. exists (v, old). split; [apply zip_cell; auto|reflexivity].
Qed.
Lemma fold_rect : forall nr nc img ws corr, rect nr nc img -> rect nr nc corr -> rect nr nc (fold_left (correct_bin img) ws corr).
Proof. intros nr nc img. induction ws as [|w ws IH]; intros corr RI RC; [exact RC|]. cbn [fold_left]. apply IH; [exact RI|]. apply step_rect; assumption. Qed.
Lemma fold_outside : forall img i j v ws corr old, cell img i j v -> cell corr i j old -> (forall w, In w ws -> inside (fst w) i && inside (snd w) j = false) -> cell (fold_left (correct_bin img) ws corr) i j old.
Proof.
  intros img i j v. induction ws as [|w ws IH]; intros corr old CV CO H; [exact CO|]. cbn [fold_left]. apply IH; [exact CV| |intros; apply H; right; assumption]. apply (step_cell img corr w i j v old old CV CO). rewrite (H w (or_introl eq_refl)). reflexivity.
Qed.
Lemma window_dec : forall a b : (nat * nat) * (nat * nat), {a = b} + {a <> b}. Proof. repeat decide equality. Qed.
Lemma fold_inside : forall img i j v w0 ws corr old, cell img i j v -> cell corr i j old -> In w0 ws -> inside (fst w0) i && inside (snd w0) j = true -> (forall w, In w ws -> inside (fst w) i && inside (snd w) j = true -> w = w0) ->
  cell (fold_left (correct_bin img) ws corr) i j (sub2 v (median (section img (fst w0) (snd w0)))).
Proof.
  intros img i j v w0. induction ws as [|w ws IH]; intros corr old CV CO I IN U; [destruct I|]. cbn [fold_left].
  assert (E : {w = w0} + {w <> w0}) by (repeat decide equality). destruct E as [->|NE].
  - assert (C1 : cell (correct_bin img corr w0) i j (sub2 v (median (section img (fst w0) (snd w0))))) by (apply (step_cell img corr w0 i j v old _ CV CO); rewrite IN; reflexivity).
    destruct (in_dec window_dec w0 ws) as [I'|NI]; [eapply IH; eauto; intros; apply U; [right|]; assumption|]. eapply fold_outside; [exact CV|exact C1|]. intros w I'. destruct (inside (fst w) i && inside (snd w) j) eqn:E; [|reflexivity]. rewrite (U w (or_intror I') E) in I'. contradiction.
  - destruct I as [->|I]; [congruence|]. eapply IH; [exact CV| |exact I|exact IN|intros; apply U; [right|]; assumption]. apply (step_cell img corr w i j v old _ CV CO). reflexivity.
Qed.

(** ** The whole *)
Lemma sub_cell : forall a b i j u, cell (subtract a b) i j u <-> exists x y, cell a i j x /\ cell b i j y /\ u = sub2 x y.
Proof.
  intros a b i j u. unfold subtract. rewrite cell_map. split.
  - intros ((x & y) & CE & ->). apply zip_cell in CE. cbn [fst snd] in *. exists x, y. tauto.
  - intros (x & y & X & Y & ->). exists (x, y). split; [apply zip_cell; auto|reflexivity].
Qed.
Lemma map_rect : forall A B (f : A -> B) nr nc img, rect nr nc img -> rect nr nc (map (map f) img).
Proof. intros A B f nr nc img (L & W). split; [rewrite map_length; exact L|]. intros row I. apply in_map_iff in I. destruct I as (r & <- & I). rewrite map_length. exact (W r I). Qed.
Lemma sub_rect : forall nr nc a b, rect nr nc a -> rect nr nc b -> rect nr nc (subtract a b).
Proof. intros. unfold subtract. apply map_rect, zip_rect; assumption. Qed.
Lemma inside_iff : forall lo hi i, inside (lo, hi) i = true <-> (lo <= i < hi)%nat.
Proof. intros lo hi i. unfold inside. cbn [fst snd]. rewrite andb_true_iff, Nat.leb_le, Nat.ltb_lt. tauto. Qed.
(** Local correction of an image not smaller than a bin *)
Theorem local : forall nr nc img z corr loc, rect nr nc img -> (0 < z <= Z.of_nat nr)%Z -> (z <= Z.of_nat nc)%Z -> illumination_correction img (Some z) true = Ok (corr, loc) ->
  rect nr nc corr /\ rect nr nc loc /\ forall r c v, cell img r c v -> exists lo hi lo' hi' vs u, bin nr (Z.to_nat z) lo hi /\ bin nc (Z.to_nat z) lo' hi' /\ (lo <= r < hi)%nat /\ (lo' <= c < hi')%nat
    /\ values img lo hi lo' hi' vs /\ cell corr r c u /\ reduced vs v u.
Proof.
  intros nr nc img z corr loc RI P P' E. unfold illumination_correction in E. destruct (Z.leb_spec z 0) as [LE|GT]; [lia|]. destruct img as [|row0 rest] eqn:EI; [discriminate E|]. rewrite <- EI in *. clear EI row0 rest. apply (f_equal (fun x => match x with Ok p => p | Raise _ => (corr, loc) end)) in E. injection E as E1 E2.
  set (b := Z.to_nat z) in *. rewrite (proj1 RI), (ncol_rect _ nr nc img ltac:(lia) RI) in *. set (zeros := map _ img) in *. assert (RZ : rect nr nc zeros) by (apply map_rect; exact RI). pose proof (fold_rect nr nc img (list_prod (bins nr b) (bins nc b)) zeros RI RZ) as RC. rewrite E1 in *. split; [exact RC|]. split; [rewrite <- E2; apply sub_rect; assumption|].
  intros r c v CV. destruct (proj1 (cell_in _ nr nc img r c RI) (ex_intro _ v CV)) as (RL & CL). destruct (bin_covers nr b r ltac:(lia) RL) as (lo & hi & B & IN). destruct (bin_covers nc b c ltac:(lia) CL) as (lo' & hi' & B' & IN').
  exists lo, hi, lo', hi', (section img (lo, hi) (lo', hi')), (sub2 v (median (section img (lo, hi) (lo', hi')))). split; [exact B|]. split; [exact B'|]. split; [exact IN|]. split; [exact IN'|]. split; [apply (section_values nr nc); [exact RI|apply bin_bounds in B; lia|apply bin_bounds in B'; lia]|]. split; [|apply reduced_sub].
  destruct (proj2 (cell_in _ nr nc zeros r c RZ) (conj RL CL)) as (old & CO). rewrite <- E1. apply (fold_inside img r c v ((lo, hi), (lo', hi')) _ zeros old CV CO).
  - apply in_prod; apply bins_iff; (lia || assumption).
  - cbn [fst snd]. rewrite (proj2 (inside_iff lo hi r) IN), (proj2 (inside_iff lo' hi' c) IN'). reflexivity.
  - intros ((a & a') & (d & d')) I H. cbn [fst snd] in H. apply andb_true_iff in H. destruct H as (H1 & H2). apply inside_iff in H1, H2. apply in_prod_iff in I. destruct I as (I1 & I2). apply bins_iff in I1; [|lia]. apply bins_iff in I2; [|lia].
    destruct (bin_unique nr b r _ _ _ _ ltac:(lia) I1 B H1 IN) as (-> & ->). destruct (bin_unique nc b c _ _ _ _ ltac:(lia) I2 B' H2 IN') as (-> & ->). reflexivity.
Qed.
(** An image smaller than a bin along either axis *)
Theorem small : forall nr nc img z corr loc, rect nr nc img -> (0 < nr)%nat -> (0 < z)%Z -> (Z.of_nat nr < z \/ Z.of_nat nc < z)%Z -> illumination_correction img (Some z) true = Ok (corr, loc) ->
  rect nr nc corr /\ rect nr nc loc /\ forall r c v, cell img r c v -> cell corr r c (Some 0) /\ cell loc r c v.
Proof.
  intros nr nc img z corr loc RI P Z0 S0 E. unfold illumination_correction in E. destruct (Z.leb_spec z 0) as [LE|GT]; [lia|]. destruct img as [|row0 rest] eqn:EI; [discriminate E|]. rewrite <- EI in *. clear EI row0 rest. apply (f_equal (fun x => match x with Ok p => p | Raise _ => (corr, loc) end)) in E. injection E as E1 E2.
  rewrite (proj1 RI), (ncol_rect _ nr nc img ltac:(lia) RI) in *. assert (N : list_prod (bins nr (Z.to_nat z)) (bins nc (Z.to_nat z)) = []). { destruct S0 as [S0|S0]; [rewrite (no_bins nr) by lia; reflexivity|]. rewrite (no_bins nc) by lia. clear. induction (bins nr (Z.to_nat z)) as [|x l IH]; [reflexivity|exact IH]. }
  rewrite N in *. cbn [fold_left] in *. assert (RC : rect nr nc corr) by (rewrite <- E1; apply map_rect; exact RI). rewrite E1 in E2. split; [exact RC|]. split; [rewrite <- E2; apply sub_rect; assumption|]. intros r c v CV.
  assert (C0 : cell corr r c (Some 0)) by (rewrite <- E1; apply cell_map; exists v; auto). split; [exact C0|]. rewrite <- E2. apply sub_cell. exists v, (Some 0). split; [exact CV|]. split; [exact C0|]. destruct v as [x|]; cbn; [f_equal; ring|reflexivity].
Qed.
Lemma whole_values : forall nr nc img, rect nr nc img -> (0 < nr)%nat -> values img 0 nr 0 nc (List.concat img).
Proof.
  intros nr nc img RI P. pose proof (section_values nr nc img 0 nr 0 nc RI ltac:(lia) ltac:(lia)) as V. unfold section, cut in V. cbn [fst snd skipn] in V. rewrite !Nat.sub_0_r in V. rewrite <- (proj1 RI) in V at 2. rewrite firstn_all in V.
  assert (E : map (fun l => firstn nc l) img = img); [|rewrite E in V; exact V]. destruct RI as (_ & W). clear V P. induction img as [|row img IH]; [reflexivity|]. cbn [map]. rewrite IH by (intros; apply W; right; assumption). rewrite <- (W row (or_introl eq_refl)), firstn_all. reflexivity.
Qed.
Theorem global : forall nr nc img binsize ill corr loc, rect nr nc img -> (0 < nr)%nat -> (binsize = None \/ ill = false) -> illumination_correction img binsize ill = Ok (corr, loc) ->
  rect nr nc corr /\ rect nr nc loc /\ exists vs, values img 0 nr 0 nc vs /\ forall r c v, cell img r c v -> exists u, cell corr r c u /\ reduced vs v u.
Proof.
  intros nr nc img binsize ill corr loc RI P G E. assert (E' : Ok (map (map (fun v => sub2 v (median (List.concat img)))) img, subtract img (map (map (fun v => sub2 v (median (List.concat img)))) img)) = Ok (corr, loc)).
  { unfold illumination_correction in E. destruct binsize as [z|]; [|exact E]. destruct (z <=? 0)%Z; [discriminate E|]. destruct G as [G | ->]; [discriminate G|exact E]. }
  injection E' as E1 E2. assert (RC : rect nr nc corr) by (rewrite <- E1; apply map_rect; exact RI). rewrite E1 in E2. split; [exact RC|]. split; [rewrite <- E2; apply sub_rect; assumption|]. exists (List.concat img). split; [exact (whole_values nr nc img RI P)|]. intros r c v CV. exists (sub2 v (median (List.concat img))). split; [rewrite <- E1; apply cell_map; eauto|apply reduced_sub].
Qed.
(** What was subtracted makes up the input, always. *)
Theorem sums : forall nr nc img binsize ill corr loc, rect nr nc img -> (0 < nr)%nat -> illumination_correction img binsize ill = Ok (corr, loc) ->
  forall r c x u, cell img r c (Some x) -> cell corr r c (Some u) -> cell loc r c (Some (x - u)).
Proof.
  intros nr nc img binsize ill corr loc RI P E r c x u CX CU. assert (L : loc = subtract img corr).
  { unfold illumination_correction in E. destruct binsize as [z|]; [destruct (z <=? 0)%Z; [discriminate E|]; destruct ill; [destruct img; [discriminate E|]|]|]; apply (f_equal (fun x => match x with Ok p => p | Raise _ => (corr, loc) end)) in E; injection E as E1 E2; rewrite <- E1; symmetry; exact E2. }
  subst loc. apply sub_cell. exists (Some x), (Some u). auto.
Qed.
Theorem ill_total : forall nr nc img binsize ill, rect nr nc img -> (0 < nr)%nat -> match binsize with Some z => (0 < z)%Z | None => True end -> exists corr loc, illumination_correction img binsize ill = Ok (corr, loc).
Proof.
  intros nr nc img binsize ill RI P B. unfold illumination_correction. destruct binsize as [z|]; [|eauto]. destruct (Z.leb_spec z 0); [lia|]. destruct ill; [|eauto]. destruct img; [destruct RI as (L & _); cbn in L; lia|eauto].
Qed.
Theorem bad_size : forall img z ill, (z <= 0)%Z -> illumination_correction img (Some z) ill = Raise TypeError.
Proof. intros img z ill L. unfold illumination_correction. destruct (Z.leb_spec z 0); [reflexivity|lia]. Qed.

(** ** Uniform light *)
Lemma is_median_raised : forall k xs m, is_median xs m -> is_median (map (fun x => x + k) xs) (m + k).
Proof.
  intros k xs m (s & S0 & P & D). exists (map (fun x => x + k) s). split.
  - clear P D. induction S0 as [|x s S0 IH F]; [constructor|]. cbn [map]. constructor; [exact IH|]. rewrite Forall_forall in *. intros y I. apply in_map_iff in I. destruct I as (z & <- & I). specialize (F z I). lra.
  - split; [apply Permutation_map; exact P|]. rewrite map_length. destruct D as [(j & a & b & L & A & B & ->)|(j & L & A)].
    + left. exists j, (a + k), (b + k). rewrite !nth_error_map, A, B. split; [exact L|]. split; [reflexivity|]. split; [reflexivity|field].
    + right. exists j. rewrite nth_error_map, A. auto.
Qed.
Lemma median_raised : forall k l, median (map (option_map (fun x => x + k)) l) = option_map (fun x => x + k) (median l).
Proof.
  intros k l. destruct (median l) as [m|] eqn:E; cbn [option_map].
  - apply median_iff in E. apply median_iff. destruct E as (xs & F & M). exists (map (fun x => x + k) xs). split; [apply numbers_map; exact F|apply is_median_raised; exact M].
  - destruct (median (map _ l)) as [m|] eqn:E'; [|reflexivity]. exfalso. apply median_iff in E'. destruct E' as (xs & F & M). assert (G : numbers l (map (fun x => x - k) xs)). { revert xs F M. clear E. induction l as [|v l IH]; intros xs F M; inversion F as [|o x l' xs' E F']; subst; [constructor|]. cbn [map]. constructor; [destruct v as [y|]; [cbn in E; injection E as <-; f_equal; ring|discriminate E]|]. clear M. revert xs' F' F. clear - IH. intros xs' F' _. assert (H : numbers l (map (fun x => x - k) xs')); [|exact H]. clear IH. revert xs' F'. induction l as [|v' l IH']; intros xs' F'; inversion F' as [|o x' l'' xs'' E F'']; subst; [constructor|]. cbn [map]. constructor; [destruct v' as [y|]; [cbn in E; injection E as <-; f_equal; ring|discriminate E]|apply IH'; exact F'']. }
    assert (M' : median_of l (m - k)). { exists (map (fun x => x - k) xs). split; [exact G|]. exact (is_median_raised (- k) xs m M). } apply median_iff in M'. congruence.
Qed.
Lemma cut_map : forall A B (f : A -> B) w l, cut w (map f l) = map f (cut w l).
Proof. intros. unfold cut. rewrite skipn_map, firstn_map. reflexivity. Qed.
Lemma section_raised : forall k img rw cw, section (raised k img) rw cw = map (option_map (fun x => x + k)) (section img rw cw).
Proof. intros. unfold section, raised. rewrite cut_map, concat_map, !map_map. f_equal. apply map_ext. intros row. apply cut_map. Qed.
Lemma sub_raised : forall k v m, sub2 (option_map (fun x => x + k) v) (option_map (fun x => x + k) m) = sub2 v m.
Proof. intros k [x|] [m|]; cbn; try reflexivity. f_equal. ring. Qed.
Lemma raised_rect : forall k nr nc img, rect nr nc img -> rect nr nc (raised k img). Proof. intros. unfold raised. apply map_rect. assumption. Qed.
Lemma step_raised : forall k nr nc img corr w, rect nr nc img -> rect nr nc corr -> correct_bin (raised k img) corr w = correct_bin img corr w.
Proof.
  intros k nr nc img corr w RI RC. pose proof (raised_rect k nr nc img RI) as RR. apply (rect_ext _ nr nc); [apply step_rect; assumption|apply step_rect; assumption|]. intros r c u v U V.
  destruct (proj1 (cell_in _ nr nc _ r c (step_rect nr nc img corr w RI RC)) (ex_intro _ v V)) as (L1 & L2). destruct (proj2 (cell_in _ nr nc img r c RI) (conj L1 L2)) as (x & X). destruct (proj2 (cell_in _ nr nc corr r c RC) (conj L1 L2)) as (o & O').
  apply (step_cell img corr w r c x o v X O') in V. assert (X' : cell (raised k img) r c (option_map (fun x => x + k) x)) by (apply cell_map; eauto). apply (step_cell _ corr w r c _ o u X' O') in U. rewrite section_raised, median_raised, sub_raised in U. congruence.
Qed.
Theorem raised_same : forall k nr nc img binsize ill corr loc, rect nr nc img -> illumination_correction img binsize ill = Ok (corr, loc) -> exists loc', illumination_correction (raised k img) binsize ill = Ok (corr, loc').
Proof.
  intros k nr nc img binsize ill corr loc RI E. pose proof (raised_rect k nr nc img RI) as RR.
  assert (G : map (map (fun v => sub2 v (median (List.concat (raised k img))))) (raised k img) = map (map (fun v => sub2 v (median (List.concat img)))) img).
  { unfold raised at 2. rewrite map_map. apply map_ext. intros row. rewrite map_map. apply map_ext. intros v. unfold raised. rewrite <- concat_map, median_raised, sub_raised. reflexivity. }
  assert (Z0 : map (map (fun _ => Some 0)) (raised k img) = map (map (fun _ : option R => Some 0)) img) by (unfold raised; rewrite map_map; apply map_ext; intros row; rewrite map_map; reflexivity).
  assert (FS : forall ws c0, rect nr nc c0 -> fold_left (correct_bin (raised k img)) ws c0 = fold_left (correct_bin img) ws c0).
  { induction ws as [|w ws IH]; intros c0 R0; [reflexivity|]. cbn [fold_left]. rewrite (step_raised k nr nc img c0 w RI R0). apply IH. apply step_rect; assumption. }
  assert (NL : List.length (raised k img) = List.length img /\ ncol (raised k img) = ncol img) by (unfold raised; split; [apply map_length|destruct img; [reflexivity|cbn; apply map_length]]).
  unfold illumination_correction in *. destruct binsize as [z|]; [destruct (z <=? 0)%Z; [discriminate E|]; destruct ill|].
  - destruct img as [|row rest] eqn:EI; [discriminate E|]. rewrite <- EI in *. destruct (raised k img) as [|row' rest'] eqn:ER; [rewrite EI in ER; discriminate ER|]. rewrite <- ER in *. clear EI ER row rest row' rest'. rewrite (proj1 NL), (proj2 NL), Z0, FS by (apply map_rect; exact RI).
    apply (f_equal (fun x => match x with Ok p => p | Raise _ => (corr, loc) end)) in E. injection E as E1 E2. rewrite E1. eexists. reflexivity.
  - rewrite G. injection E as E1 E2. rewrite E1. eexists. reflexivity.
  - rewrite G. injection E as E1 E2. rewrite E1. eexists. reflexivity.
Qed.
