(** Proofs: positions and throughputs of PSFs. *)
From Coq Require Import List Arith Bool Reals ZArith String Sorting Lia Lra.
From Verif Require Import Base CombineModel ComboSpec ComboProofs DqModel FindModel AngleSpec NearModel NearSpec NearProofs FlatModel FlatSpec FlatProofs FluxModel FluxSpec CtModel CtSpec.
Import ListNotations.
Local Open Scope R_scope.

(** ** Sums *)
Lemma vsum_some : forall xs, vsum (map Some xs) = Some (fold_right Rplus 0 xs).
Proof. induction xs as [|x xs IH]; [reflexivity|]. cbn [map vsum fold_right] in *. unfold vsum in IH. rewrite IH. reflexivity. Qed.
Lemma vsum_none : forall l, In None l -> vsum l = None.
Proof. induction l as [|v l IH]; intros H; [destruct H|]. destruct H as [-> | H]; [reflexivity|]. cbn [vsum fold_right]. unfold vsum in IH. rewrite (IH H). destruct v; reflexivity. Qed.
Lemma vals_split : forall l : list val, In None l \/ exists xs, l = map Some xs.
Proof. induction l as [|[x|] l [H | (xs & ->)]]; [right; exists []; reflexivity|left; right; exact H|right; exists (x :: xs); reflexivity|left; left; reflexivity|left; left; reflexivity]. Qed.
Lemma some_none : forall xs : list R, ~ In None (map Some xs).
Proof. intros xs H. apply in_map_iff in H. destruct H as (x & E & _). discriminate. Qed.
Lemma map_some_inj : forall xs ys : list R, map Some xs = map Some ys -> xs = ys.
Proof. induction xs as [|x xs IH]; intros [|y ys] H; try discriminate; [reflexivity|]. injection H as -> H. f_equal. apply IH. exact H. Qed.
Lemma total_iff : forall l v, total l v <-> v = vsum l.
Proof.
  intros l v. destruct (vals_split l) as [N | (xs & ->)].
  - rewrite (vsum_none l N). destruct v as [s|]; cbn [total]; [|tauto]. split; [intros (xs & -> & _); destruct (some_none xs N)|discriminate].
  - rewrite vsum_some. destruct v as [s|]; cbn [total].
    + split; [intros (ys & E & ->); apply map_some_inj in E; subst; reflexivity|intros H; injection H as ->; exists xs; auto].
    + split; [intros H; destruct (some_none xs H)|discriminate].
Qed.
Lemma quot_vdiv : forall a b, vdiv a b = quot a b.
Proof. reflexivity. Qed.
Lemma prod_vmul : forall a b, vmul a b = prod a b.
Proof. reflexivity. Qed.

(** ** Order of the pixels *)
Lemma spots_in : forall f p, In p (spots f) <-> inside_of f p.
Proof. intros f [i j]. unfold spots, inside_of. rewrite in_prod_iff, !in_seq. cbn. lia. Qed.
Lemma row_sorted : forall i k n, StronglySorted before (map (fun j => (i, j)) (seq k n)).
Proof.
  intros i k n. revert k. induction n as [|n IH]; intros k; cbn; constructor; [apply IH|]. apply Forall_forall. intros p H. apply in_map_iff in H. destruct H as (j & <- & H). apply in_seq in H. right. cbn. lia.
Qed.
Lemma sorted_app : forall l m, StronglySorted before l -> StronglySorted before m -> (forall p q, In p l -> In q m -> before p q) -> StronglySorted before (l ++ m).
Proof.
  induction l as [|p l IH]; intros m L M H; [exact M|]. cbn. inversion L as [|? ? L' F]; subst. constructor; [apply IH; [exact L'|exact M|intros; apply H; [right|]; assumption]|].
  apply Forall_app. split; [exact F|]. apply Forall_forall. intros q Q. apply H; [left; reflexivity|exact Q].
Qed.
Lemma prod_sorted : forall m n k, StronglySorted before (list_prod (seq k m) (seq 0 n)).
Proof.
  induction m as [|m IH]; intros n k; cbn; [constructor|]. apply sorted_app; [apply row_sorted|apply IH|]. intros p q P Q. apply in_map_iff in P. destruct P as (j & <- & _). destruct q as [i j']. apply in_prod_iff in Q. rewrite in_seq in Q. left. cbn. lia.
Qed.
Lemma spots_sorted : forall f, StronglySorted before (spots f).
Proof. intros f. apply prod_sorted. Qed.
Lemma before_not : forall p q, before p q -> before q p -> False.
Proof. unfold before. intros p q H K. lia. Qed.
Lemma before_total : forall p q, p = q \/ before p q \/ before q p.
Proof. intros [i j] [i' j']. unfold before. cbn. destruct (Nat.eq_dec i i') as [->|]; [destruct (Nat.eq_dec j j') as [->|]; [left; reflexivity|]|]; right; lia. Qed.
Lemma sorted_split : forall u p v, StronglySorted before (u ++ p :: v) -> (forall q, In q u -> before q p) /\ forall q, In q v -> before p q.
Proof.
  induction u as [|a u IH]; intros p v S; cbn in S; inversion S as [|? ? S' F]; subst.
  - split; [intros q []|]. apply Forall_forall. exact F.
  - destruct (IH p v S') as (A & B). split; [|exact B]. intros q [<- | Q]; [|apply A; exact Q]. rewrite Forall_forall in F. apply F. apply in_or_app. right. left. reflexivity.
Qed.

(** ** The brightest pixel *)
Definition best_of (f : img) (l : list (nat * nat)) (b : option ((nat * nat) * R)) : Prop :=
  match b with
  | None => forall q, In q l -> value_of f q = None
  | Some (p, v) => value_of f p = Some v /\ exists u w, l = u ++ p :: w /\ (forall q x, In q u -> value_of f q = Some x -> x < v) /\ (forall q x, In q w -> value_of f q = Some x -> x <= v)
  end.
Lemma best_step : forall f l b p, best_of f l b -> best_of f (l ++ [p]) (better f b p).
Proof.
  intros f l b p B. unfold better. change (at_ f p) with (value_of f p). destruct (value_of f p) as [v|] eqn:V; destruct b as [[q w]|]; cbn [best_of] in *.
  - destruct B as (Q & u & t & -> & U & T). destruct (Rlt_dec w v) as [W|W]; cbn [best_of].
    + split; [exact V|]. exists (u ++ q :: t), []. split; [reflexivity|]. split; [|intros z x []]. intros z x Z X. apply in_app_or in Z. destruct Z as [Z | [<- | Z]]; [specialize (U z x Z X); lra|rewrite Q in X; injection X as <-; exact W|specialize (T z x Z X); lra].
    + split; [exact Q|]. exists u, (t ++ [p]). rewrite <- app_assoc. split; [reflexivity|]. split; [exact U|]. intros z x Z X. apply in_app_or in Z. destruct Z as [Z | [<- | []]]; [apply (T z x Z X)|rewrite V in X; injection X as <-; lra].
  - split; [exact V|]. exists l, []. split; [reflexivity|]. split; [|intros z x []]. intros z x Z X. rewrite (B z Z) in X. discriminate.
  - destruct B as (Q & u & t & -> & U & T). split; [exact Q|]. exists u, (t ++ [p]). rewrite <- app_assoc. split; [reflexivity|]. split; [exact U|]. intros z x Z X. apply in_app_or in Z. destruct Z as [Z | [<- | []]]; [apply (T z x Z X)|congruence].
  - intros z Z. apply in_app_or in Z. destruct Z as [Z | [<- | []]]; [apply B; exact Z|exact V].
Qed.
Lemma best_fold : forall f m l b, best_of f l b -> best_of f (l ++ m) (fold_left (better f) m b).
Proof. induction m as [|p m IH]; intros l b B; [rewrite app_nil_r; exact B|]. cbn [fold_left]. replace (l ++ p :: m) with ((l ++ [p]) ++ m) by (rewrite <- app_assoc; reflexivity). apply IH. apply best_step. exact B. Qed.
Lemma brightest_best : forall f, best_of f (spots f) (fold_left (better f) (spots f) None).
Proof. intros f. apply (best_fold f (spots f) [] None). intros q []. Qed.
Lemma peak_one : forall f p q, is_peak f p -> is_peak f q -> p = q.
Proof.
  intros f p q (Ip & v & V & A) (Iq & w & W & B). destruct (A q w Iq W) as (L1 & S1). destruct (B p v Ip V) as (L2 & S2). destruct (before_total p q) as [E | [E | E]]; [exact E|specialize (S2 E); lra|specialize (S1 E); lra].
Qed.
Lemma best_peak : forall f p v, best_of f (spots f) (Some (p, v)) -> is_peak f p.
Proof.
  intros f p v (V & u & w & E & U & W). pose proof (spots_sorted f) as S. rewrite E in S. destruct (sorted_split u p w S) as (A & B). split; [apply spots_in; rewrite E; apply in_or_app; right; left; reflexivity|]. exists v. split; [exact V|].
  intros q x Q X. apply spots_in in Q. rewrite E in Q. apply in_app_or in Q. destruct Q as [Q | [<- | Q]].
  - specialize (U q x Q X). split; [lra|]. intros _. exact U.
  - rewrite V in X. injection X as <-. split; [lra|]. intros K. destruct (before_not p p K K).
  - split; [apply (W q x Q X)|]. intros K. destruct (before_not p q (B q Q) K).
Qed.
Lemma brightest_iff : forall f p, brightest f = Ok p <-> is_peak f p.
Proof.
  intros f p. unfold brightest. pose proof (brightest_best f) as B. destruct (fold_left (better f) (spots f) None) as [[q v]|] eqn:E.
  - pose proof (best_peak f q v B) as Q. split; [intros H; injection H as <-; exact Q|intros P; f_equal; apply (peak_one f); assumption].
  - split; [discriminate|]. intros (I & v & V & _). apply spots_in in I. rewrite (B p I) in V. discriminate.
Qed.
Lemma brightest_fails : forall f e, brightest f = Raise e <-> e = ValueError /\ forall p, inside_of f p -> value_of f p = None.
Proof.
  intros f e. unfold brightest. pose proof (brightest_best f) as B. destruct (fold_left (better f) (spots f) None) as [[q v]|] eqn:E.
  - split; [discriminate|]. intros (_ & N). destruct B as (V & u & w & S & _). rewrite N in V; [discriminate|]. apply spots_in. rewrite S. apply in_or_app. right. left. reflexivity.
  - split; [intros H; injection H as <-; split; [reflexivity|]; intros p I; apply B; apply spots_in; exact I|intros (-> & _); reflexivity].
Qed.

(** ** The square around it *)
Lemma filter_pairs : forall (a b : nat -> bool) l m, filter (fun p => a (fst p) && b (snd p)) (list_prod l m) = list_prod (filter a l) (filter b m).
Proof.
  intros a b l m. induction l as [|x l IH]; [reflexivity|]. cbn [list_prod]. rewrite filter_app, IH. cbn [filter]. destruct (a x) eqn:A.
  - cbn [list_prod]. f_equal. clear IH. induction m as [|y m IH]; [reflexivity|]. cbn [map filter fst snd]. rewrite A. cbn [andb]. destruct (b y); cbn [map]; rewrite IH; reflexivity.
  - replace (filter _ (map (fun y => (x, y)) m)) with (@nil (nat * nat)); [reflexivity|]. clear IH. induction m as [|y m IH]; [reflexivity|]. cbn [map filter fst snd]. rewrite A. exact IH.
Qed.
Lemma filter_seq : forall lo hi n, filter (fun i => Nat.leb lo i && Nat.ltb i hi) (seq 0 n) = seq lo (Nat.min n hi - lo).
Proof.
  intros lo hi n. induction n as [|n IH]; [reflexivity|]. rewrite seq_S, filter_app, IH. cbn [filter plus]. destruct (Nat.leb_spec lo n) as [A|A]; destruct (Nat.ltb_spec n hi) as [B|B]; cbn [andb].
  - replace (Nat.min (S n) hi - lo)%nat with (S (Nat.min n hi - lo)) by lia. rewrite seq_S. do 2 f_equal. lia.
  - rewrite app_nil_r. f_equal. lia.
  - rewrite app_nil_r. f_equal. lia.
  - rewrite app_nil_r. f_equal. lia.
Qed.
Definition square (f : img) (p : nat * nat) (r : nat) : list (nat * nat) := list_prod (span (rows f) (fst p) r) (span (cols f) (snd p) r).
Lemma square_iff : forall f p r ps, sieve (close r p) (places f) ps <-> ps = square f p r.
Proof.
  intros f p r ps. set (a := fun k i => (Nat.leb (k - r) i && Nat.ltb i (k + r + 1))%bool).
  assert (E : square f p r = filter (fun q => a (fst p) (fst q) && a (snd p) (snd q)) (places f)) by (unfold square, places, span; rewrite (filter_pairs (a (fst p)) (a (snd p))); unfold a; rewrite !filter_seq; reflexivity).
  rewrite E. apply sieve_filter. intros q. unfold a, close. rewrite !andb_true_iff, !Nat.leb_le, !Nat.ltb_lt. lia.
Qed.
Lemma position_iff : forall f r x y, centroid_with_roi f r = Ok (x, y) <-> position f r x y.
Proof.
  intros f r x y. unfold centroid_with_roi, position, moment. split.
  - destruct (brightest f) as [p|e] eqn:B; cbn [bind]; [|discriminate]. apply brightest_iff in B. fold (square f p r). intros H. do 5 eexists. split; [exact B|]. split; [apply square_iff; reflexivity|].
    do 3 (split; [apply total_iff; reflexivity|]). assert (S : vsum (map (at_ f) (square f p r)) = vsum (map (fun q => prod (Some 1) (value_of f q)) (square f p r))).
    { f_equal. apply map_ext. intros q. unfold at_, value_of. destruct (pix f (fst q) (snd q)) as [v|]; cbn; [f_equal; ring|reflexivity]. }
    rewrite <- S. destruct (is_zero _) eqn:Z.
    + apply is_zero_iff in Z. rewrite Z. split; [intros _; injection H as <- <-; auto|congruence].
    + split; [intros K; apply is_zero_iff in K; congruence|]. intros _. injection H as <- <-. split; reflexivity.
  - intros (p & ps & s & sx & sy & P & PS & S & SX & SY & A & B). apply brightest_iff in P. rewrite P. cbn [bind]. apply square_iff in PS. apply total_iff in S. apply total_iff in SX. apply total_iff in SY. fold (square f p r). rewrite <- PS.
    assert (E : vsum (map (at_ f) ps) = s). { rewrite S. f_equal. apply map_ext. intros q. unfold at_, value_of. destruct (pix f (fst q) (snd q)) as [v|]; cbn; [f_equal; ring|reflexivity]. }
    rewrite E. destruct (is_zero s) eqn:Z.
    + apply is_zero_iff in Z. destruct (A Z) as (-> & ->). reflexivity.
    + destruct B as (-> & ->); [intros K; apply is_zero_iff in K; congruence|]. rewrite SX, SY. reflexivity.
Qed.
Lemma position_one : forall f r x y x' y', position f r x y -> position f r x' y' -> x = x' /\ y = y'.
Proof. intros f r x y x' y' A B. apply position_iff in A. apply position_iff in B. rewrite A in B. injection B as -> ->. auto. Qed.

(** ** The core *)
Lemma bigger_none : forall l v, (v = None \/ In None l) -> fold_left bigger l v = None.
Proof.
  induction l as [|w l IH]; intros v H; cbn [fold_left]; [destruct H as [-> | []]; reflexivity|]. apply IH. destruct H as [-> | [-> | H]]; [left; reflexivity|left; destruct v; reflexivity|right; exact H].
Qed.
Lemma bigger_max : forall xs x, exists m, fold_left bigger (map Some xs) (Some x) = Some m /\ In m (x :: xs) /\ forall y, In y (x :: xs) -> y <= m.
Proof.
  induction xs as [|z xs IH]; intros x; cbn [map fold_left bigger].
  - exists x. split; [reflexivity|]. split; [left; reflexivity|]. intros y [<- | []]. lra.
  - destruct (Rlt_dec x z) as [H|H]; [destruct (IH z) as (m & E & I & M)|destruct (IH x) as (m & E & I & M)]; exists m; (split; [exact E|]); split.
    + right. exact I.
    + intros y [<- | Y]; [pose proof (M z (or_introl eq_refl)); lra|apply M; exact Y].
    + destruct I as [<- | I]; [left; reflexivity|right; right; exact I].
    + intros y [<- | [<- | Y]]; [apply M; left; reflexivity|pose proof (M x (or_introl eq_refl)); lra|apply M; right; exact Y].
Qed.
Lemma vmax_cases : forall l m, vmax l = Ok m <-> (In None l /\ m = None) \/ exists xs x, l = map Some xs /\ m = Some x /\ most_of xs x.
Proof.
  intros l m. destruct (vals_split l) as [N | (xs & ->)].
  - destruct l as [|v l]; [destruct N|]. cbn [vmax]. rewrite bigger_none by (destruct N as [-> | N]; auto). split; [intros H; injection H as <-; left; auto|]. intros [(_ & ->) | (xs & x & E & _)]; [reflexivity|]. exfalso. rewrite E in N. apply (some_none xs N).
  - destruct xs as [|x xs].
    + cbn. split; [discriminate|]. intros [([] & _) | (ys & y & E & _ & (I & _))]. destruct ys; [destruct I|discriminate].
    + cbn [map vmax]. destruct (bigger_max xs x) as (z & E & I & M). rewrite E. split.
      * intros H. injection H as <-. right. exists (x :: xs), z. split; [reflexivity|]. split; [reflexivity|split; assumption].
      * intros [(N & _) | (ys & y & F & -> & (J & K))]; [destruct (some_none (x :: xs) N)|]. apply (map_some_inj (x :: xs)) in F. subst ys. do 2 f_equal. pose proof (M y J). pose proof (K z I). lra.
Qed.
Lemma core_iff : forall f m v, vmax (values f) = Ok m -> (at_least_half m v = true <-> exists x, v = Some x /\ forall q, inside_of f q -> exists w, value_of f q = Some w /\ w <= 2 * x).
Proof.
  intros f m v H. apply vmax_cases in H. destruct H as [(N & ->) | (xs & x & E & -> & (I & M))].
  - cbn. split; [discriminate|]. intros (x & _ & A). exfalso. unfold values in N. apply in_map_iff in N. destruct N as (q & V & Q). apply spots_in in Q. destruct (A q Q) as (w & W & _). unfold at_ in V. unfold value_of in W. congruence.
  - destruct v as [y|]; cbn; [|split; [discriminate|intros (z & K & _); discriminate]]. destruct (Rle_dec (x / 2) y) as [L|L].
    + split; [intros _|reflexivity]. exists y. split; [reflexivity|]. intros q Q. assert (J : In (value_of f q) (values f)) by (unfold values; apply in_map_iff; exists q; split; [reflexivity|apply spots_in; exact Q]).
      rewrite E in J. apply in_map_iff in J. destruct J as (w & W & J). exists w. split; [symmetry; exact W|]. specialize (M w J). lra.
    + split; [discriminate|]. intros (z & K & A). injection K as <-. exfalso. assert (J : In (Some x) (values f)) by (rewrite E; apply in_map; exact I). unfold values in J. apply in_map_iff in J. destruct J as (q & V & Q). apply spots_in in Q. destruct (A q Q) as (w & W & LE). unfold at_ in V. unfold value_of in W. rewrite V in W. injection W as <-. lra.
Qed.
Lemma spots_empty : forall f, spots f = [] <-> ~ ((0 < rows f)%nat /\ (0 < cols f)%nat).
Proof.
  intros f. split.
  - intros E (A & B). assert (I : In (0, 0)%nat (spots f)) by (apply spots_in; split; assumption). rewrite E in I. destruct I.
  - intros N. destruct (spots f) as [|p l] eqn:E; [reflexivity|]. exfalso. apply N. assert (I : In p (spots f)) by (rewrite E; left; reflexivity). apply spots_in in I. destruct I. lia.
Qed.
Lemma filter_map : forall A B (g : A -> B) h l, filter h (map g l) = map g (filter (fun x => h (g x)) l).
Proof. induction l as [|x l IH]; [reflexivity|]. cbn. destruct (h (g x)); cbn; rewrite IH; reflexivity. Qed.
Lemma throughput_iff : forall norm f v, psf_ct norm f = Ok v <-> throughput norm f v.
Proof.
  intros norm f v. unfold psf_ct, throughput. split.
  - destruct (vmax (values f)) as [m|e] eqn:M; cbn [bind]; [|discriminate]. intros H. injection H as <-.
    assert (NE : (0 < rows f)%nat /\ (0 < cols f)%nat). { destruct (lt_dec 0 (rows f)), (lt_dec 0 (cols f)); auto; exfalso; assert (E : spots f = []) by (apply spots_empty; lia); unfold values in M; rewrite E in M; discriminate. }
    destruct NE as (A & B). split; [exact A|]. split; [exact B|]. set (ps := filter (fun p => at_least_half m (at_ f p)) (spots f)).
    assert (X : exists xs, map (value_of f) ps = map Some xs). { destruct (vals_split (map (value_of f) ps)) as [N|X]; [|exact X]. exfalso. apply in_map_iff in N. destruct N as (p & V & P). apply filter_In in P. destruct P as (_ & P). change (at_ f p) with (value_of f p) in P. rewrite V in P. destruct m; discriminate. }
    destruct X as (xs & X). exists (fold_right Rplus 0 xs). split.
    + exists ps, xs. split; [|split; [exact X|reflexivity]]. apply (proj2 (sieve_filter _ (in_core f) (fun p => at_least_half m (at_ f p)) (fun p => core_iff f m (at_ f p) M) (spots f) ps)). reflexivity.
    + unfold values. rewrite filter_map. fold ps. change (map (at_ f) ps) with (map (value_of f) ps). rewrite X, vsum_some. reflexivity.
  - intros (A & B & s & (ps & xs & S & X & ->) & ->). assert (E : exists m, vmax (values f) = Ok m). { destruct (values f) as [|v l] eqn:E; [|eexists; reflexivity]. exfalso. apply map_eq_nil in E. apply spots_empty in E. apply E. auto. }
    destruct E as (m & M). rewrite M. cbn [bind]. f_equal. apply (proj1 (sieve_filter _ (in_core f) (fun p => at_least_half m (at_ f p)) (fun p => core_iff f m (at_ f p) M) (spots f) ps)) in S. unfold values. rewrite filter_map, <- S. change (map (at_ f) ps) with (map (value_of f) ps). rewrite X, vsum_some. reflexivity.
Qed.
