(** Proofs for the flux ratio noise curve: reading the tables, the half-width, the star. *)
From Coq Require Import List Arith Bool Reals ZArith Sorted Permutation Lia Lra.
From Verif Require Import Base DqModel AngleModel NearModel NearSpec NearProofs CombineModel FindModel FlatModel FlatSpec FlatProofs ThruModel ThruSpec ThruProofs ThruTableProofs FrnModel FrnSpec.
Import ListNotations.
Local Open Scope R_scope.

(** ** Reading *)
Definition pt := (R * val)%type.
Definition plt (p q : R * val) : Prop := fst p < fst q.
Lemma pinsert_perm : forall p l, Permutation (pinsert p l) (p :: l).
Proof. intros p. induction l as [|q t IH]; cbn [pinsert]; [apply Permutation_refl|]. destruct (Rle_dec _ _); [apply Permutation_refl|]. eapply perm_trans; [apply perm_skip, IH|apply perm_swap]. Qed.
Lemma psort_perm : forall l, Permutation (psort l) l.
Proof. induction l as [|p t IH]; [apply perm_nil|]. unfold psort in *. cbn [fold_right]. eapply perm_trans; [apply pinsert_perm|apply perm_skip, IH]. Qed.
Lemma pinsert_sorted : forall p l, StronglySorted plt l -> ~ In (fst p) (map fst l) -> StronglySorted plt (pinsert p l).
Proof.
  intros p. induction l as [|q t IH]; cbn [pinsert]; intros SS N; [repeat constructor|]. inversion SS as [|? ? ST FA]; subst. cbn [map] in N. destruct (Rle_dec (fst p) (fst q)) as [L|L].
  - assert (L' : fst p < fst q) by (destruct L as [L|L]; [exact L|exfalso; apply N; left; congruence]). constructor; [exact SS|]. constructor; [exact L'|]. eapply Forall_impl; [|exact FA]. intros r R0. unfold plt in *. lra.
  - constructor; [apply IH; [exact ST|intros H; apply N; right; exact H]|]. apply Forall_forall. intros r H. apply (Permutation_in r (pinsert_perm p t)) in H. destruct H as [<-|H]; [unfold plt; lra|]. rewrite Forall_forall in FA. exact (FA r H).
Qed.
Lemma psort_sorted : forall l, NoDup (map fst l) -> StronglySorted plt (psort l).
Proof.
  induction l as [|p t IH]; intros N; [constructor|]. cbn [map] in N. inversion N as [|? ? N1 N2]; subst. unfold psort in *. cbn [fold_right]. apply pinsert_sorted; [apply IH, N2|]. intros H. apply N1. apply in_map_iff in H. destruct H as (q & E & H). rewrite <- E. apply in_map. exact (Permutation_in q (psort_perm t) H).
Qed.
Lemma sorted_perm_pt : forall l m, StronglySorted plt l -> StronglySorted plt m -> Permutation l m -> l = m.
Proof.
  induction l as [|p l IH]; intros m SL SM P; [apply Permutation_nil in P; congruence|]. destruct m as [|q m]; [apply Permutation_sym, Permutation_nil in P; discriminate P|].
  inversion SL as [|? ? SL' FL]; subst. inversion SM as [|? ? SM' FM]; subst. rewrite Forall_forall in FL, FM.
  assert (p = q). { assert (A : In p (q :: m)) by (apply (Permutation_in p P); left; reflexivity). assert (B : In q (p :: l)) by (apply (Permutation_in q (Permutation_sym P)); left; reflexivity).
    destruct A as [A|A]; [congruence|]. destruct B as [B|B]; [congruence|]. specialize (FM p A). specialize (FL q B). unfold plt in *. lra. }
  subst q. f_equal. apply IH; [exact SL'|exact SM'|]. exact (Permutation_cons_inv P).
Qed.

Lemma line_iff : forall a b x v, fst a < fst b -> (on_line a b x v <-> v = line a b x).
Proof.
  intros [xa [p|]] [xb [q|]] x v L; unfold on_line, line; cbn [fst snd] in *; [|reflexivity|reflexivity|reflexivity]. destruct (Req_EM_T (xb - xa) 0) as [E|E]; [lra|]. split.
  - intros (y & -> & H). f_equal. apply (Rmult_eq_reg_r (xb - xa)); [|exact E]. transitivity ((q - p) * (x - xa) + p * (xb - xa)); [lra|]. field. exact E.
  - intros ->. eexists. split; [reflexivity|]. field. exact E.
Qed.
Lemma segment_cons : forall p q r t x, segment (p :: q :: r :: t) x = if Rle_dec x (fst q) then line p q x else segment (q :: r :: t) x.
Proof. reflexivity. Qed.
Lemma segment_split : forall pre a b post x, StronglySorted plt (pre ++ a :: b :: post) -> (pre = [] \/ fst a < x) -> (post = [] \/ x <= fst b) -> segment (pre ++ a :: b :: post) x = line a b x.
Proof.
  induction pre as [|p pre IH]; intros a b post x SS A B.
  - cbn [app segment]. destruct post as [|c post]; [reflexivity|]. destruct B as [B|B]; [discriminate B|]. destruct (Rle_dec x (fst b)); [reflexivity|contradiction].
  - destruct A as [A|A]; [discriminate A|]. cbn [app] in SS. inversion SS as [|? ? ST FA]; subst.
    assert (N : segment (p :: pre ++ a :: b :: post) x = segment (pre ++ a :: b :: post) x).
    { destruct pre as [|q pre]; cbn [app].
      - rewrite segment_cons. destruct (Rle_dec x (fst a)); [lra|reflexivity].
      - cbn [app] in ST. inversion ST as [|? ? _ FQ]; subst. rewrite Forall_forall in FQ. assert (Q : plt q a) by (apply FQ, in_or_app; right; left; reflexivity). unfold plt in Q.
        destruct (pre ++ a :: b :: post) as [|r t] eqn:E; [destruct pre; discriminate E|]. rewrite segment_cons. destruct (Rle_dec x (fst q)); [lra|reflexivity]. }
    cbn [app]. rewrite N. apply IH; [exact ST|right; exact A|exact B].
Qed.
Lemma split_exists : forall (l : list (R * val)) x, (2 <= List.length l)%nat -> exists pre a b post, l = pre ++ a :: b :: post /\ (pre = [] \/ fst a < x) /\ (post = [] \/ x <= fst b).
Proof.
  intros l x. induction l as [|p [|q t] IH]; intros H; [cbn in H; lia|cbn in H; lia|]. destruct t as [|r t]; [exists [], p, q, []; auto|].
  destruct (Rle_dec x (fst q)) as [L|L]; [exists [], p, q, (r :: t); auto|]. destruct IH as (pre & a & b & post & E & A & B); [cbn; lia|]. exists (p :: pre), a, b, post. split; [cbn [app]; congruence|]. split; [|exact B]. right. destruct A as [->|A]; [|exact A]. cbn [app] in E. injection E as -> _. lra.
Qed.
Lemma combine_fst : forall A B (l : list A) (m : list B), List.length m = List.length l -> map fst (combine l m) = l.
Proof. intros A B l. induction l as [|a l IH]; intros [|b m] H; try discriminate H; [reflexivity|]. cbn [combine map fst]. f_equal. apply IH. injection H as H. exact H. Qed.
Lemma sorted_pair : forall pre a b post, StronglySorted plt (pre ++ a :: b :: post) -> fst a < fst b.
Proof. induction pre as [|p pre IH]; intros a b post H; cbn [app] in H; inversion H as [|? ? S1 F1]; subst; [inversion F1; subst; assumption|exact (IH _ _ _ S1)]. Qed.
Lemma reads_iff : forall xs ys x v, NoDup xs -> List.length ys = List.length xs -> (2 <= List.length xs)%nat -> (reads xs ys x v <-> v = interp xs ys x).
Proof.
  intros xs ys x v N L G. assert (SS : StronglySorted plt (psort (combine xs ys))) by (apply psort_sorted; rewrite combine_fst by exact L; exact N). pose proof (psort_perm (combine xs ys)) as PP. unfold interp. split.
  - intros (pre & a & b & post & P & SR & A & B & O). assert (E : pre ++ a :: b :: post = psort (combine xs ys)) by (apply sorted_perm_pt; [exact SR|exact SS|eapply perm_trans; [exact P|apply Permutation_sym, PP]]). rewrite <- E, segment_split by assumption. apply line_iff; [exact (sorted_pair _ _ _ _ SR)|exact O].
  - intros ->. destruct (split_exists (psort (combine xs ys)) x) as (pre & a & b & post & E & A & B).
    { rewrite (Permutation_length PP), combine_length, L, Nat.min_id. exact G. }
    rewrite E in SS, PP |- *. exists pre, a, b, post. split; [exact PP|]. split; [exact SS|]. split; [exact A|]. split; [exact B|]. apply line_iff; [exact (sorted_pair _ _ _ _ SS)|apply segment_split; assumption].
Qed.

(** ** The half-width *)
Lemma fold_rmin : forall l x, (fold_left Rmin l x = x \/ In (fold_left Rmin l x) l) /\ fold_left Rmin l x <= x /\ forall y, In y l -> fold_left Rmin l x <= y.
Proof.
  induction l as [|a l IH]; intros x; cbn [fold_left]; [split; [left; reflexivity|split; [lra|intros y []]]|]. destruct (IH (Rmin x a)) as (A & B & C0). pose proof (Rmin_l x a). pose proof (Rmin_r x a). split.
  - destruct A as [A|A]; [|right; right; exact A]. rewrite A. unfold Rmin. destruct (Rle_dec x a); [left; reflexivity|right; left; reflexivity].
  - split; [lra|]. intros y [<-|Y]; [lra|exact (C0 y Y)].
Qed.
Lemma gaps_in : forall l g, In g (gaps l) <-> exists pre a b post, l = pre ++ a :: b :: post /\ g = b - a.
Proof.
  induction l as [|a [|b t] IH]; intros g.
  - split; [intros []|intros ([|] & ? & ? & ? & H & _); discriminate H].
  - split; [intros []|intros ([|? [|]] & ? & ? & ? & H & _); discriminate H].
  - change (gaps (a :: b :: t)) with ((b - a) :: gaps (b :: t)). cbn [In]. rewrite IH. split.
    + intros [<-|(pre & c & d & post & E & ->)]; [exists [], a, b, t; auto|]. exists (a :: pre), c, d, post. cbn [app]. split; congruence.
    + intros ([|p pre] & c & d & post & E & ->); cbn [app] in E; [injection E as <- <- _; left; reflexivity|]. injection E as _ E. right. exists pre, c, d, post. auto.
Qed.
Lemma rmin_gaps : forall l g, rmin (gaps l) = Ok g <-> least_gap l g.
Proof.
  intros l g. unfold least_gap. rewrite <- gaps_in. assert (E : (forall pre a b post, l = pre ++ a :: b :: post -> g <= b - a) <-> forall y, In y (gaps l) -> g <= y).
  { split; [intros H y Y; apply gaps_in in Y; destruct Y as (pre & a & b & post & Y & ->); exact (H _ _ _ _ Y)|intros H pre a b post Y; apply H, gaps_in; exists pre, a, b, post; auto]. }
  rewrite E. clear E. unfold rmin. destruct (gaps l) as [|x t]; [split; [discriminate|intros ([] & _)]|]. destruct (fold_rmin t x) as (A & B & C0). split.
  - intros H. injection H as <-. split; [destruct A as [A|A]; [left; congruence|right; exact A]|]. intros y [<-|Y]; [exact B|exact (C0 y Y)].
  - intros (I & M). f_equal. apply Rle_antisym; [destruct I as [<-|I]; [exact B|exact (C0 g I)]|]. apply M. destruct A as [A|A]; [left; congruence|right; exact A].
Qed.
Lemma gap_length : forall l, (exists g, rmin (gaps l) = Ok g) <-> (2 <= List.length l)%nat.
Proof. intros [|a [|b t]]; cbn; (split; [intros (g & H); try discriminate H; lia|intros H; try lia; eexists; reflexivity]). Qed.

(** ** The star *)
Lemma fold_rmax : forall l x, (fold_left Rmax l x = x \/ In (fold_left Rmax l x) l) /\ x <= fold_left Rmax l x /\ forall y, In y l -> y <= fold_left Rmax l x.
Proof.
  induction l as [|a l IH]; intros x; cbn [fold_left]; [split; [left; reflexivity|split; [lra|intros y []]]|]. destruct (IH (Rmax x a)) as (A & B & C0). pose proof (Rmax_l x a). pose proof (Rmax_r x a). split.
  - destruct A as [A|A]; [|right; right; exact A]. rewrite A. unfold Rmax. destruct (Rle_dec x a); [right; left; reflexivity|left; reflexivity].
  - split; [lra|]. intros y [<-|Y]; [lra|exact (C0 y Y)].
Qed.
Lemma all_some_iff : forall A (l : list (option A)) r, all_some l = Some r <-> l = map Some r.
Proof.
  intros A. induction l as [|o l IH]; intros r; cbn [all_some]; [split; [intros H; injection H as <-; reflexivity|destruct r; [reflexivity|discriminate]]|]. destruct o as [x|]; [|split; [discriminate|destruct r; discriminate]]. destruct (all_some l) as [t|] eqn:E.
  - split; [intros H; injection H as <-; cbn [map]; f_equal; apply IH; reflexivity|]. destruct r as [|y r]; [discriminate|]. cbn [map]. intros H. injection H as -> H. f_equal. f_equal. apply IH in H. congruence.
  - split; [discriminate|]. destruct r as [|y r]; [discriminate|]. cbn [map]. intros H. injection H as -> H. apply IH in H. discriminate H.
Qed.
Lemma filter_first : forall A (lt : A -> A -> Prop) (P : A -> bool) l q, (forall a b, lt a b -> lt b a -> False) -> StronglySorted lt l ->
  ((exists t, filter P l = q :: t) <-> In q l /\ P q = true /\ forall r, In r l -> lt r q -> P r = false).
Proof.
  intros A lt P l q ASYM. assert (IRR : forall a, ~ lt a a) by (intros a H; exact (ASYM a a H H)). induction l as [|a l IH]; intros SS; cbn [filter]; [split; [intros (t & H); discriminate H|intros ([] & _)]|]. inversion SS as [|? ? S1 FA]; subst. rewrite Forall_forall in FA. destruct (P a) eqn:E.
  - split.
    + intros (t & H). injection H as -> _. split; [left; reflexivity|]. split; [exact E|]. intros r [<-|H] L; [destruct (IRR _ L)|destruct (ASYM _ _ L (FA r H))].
    + intros ([->|H] & Q & F); [eexists; reflexivity|]. rewrite (F a (or_introl eq_refl) (FA q H)) in E. discriminate E.
  - rewrite (IH S1). split.
    + intros (H & Q & F). split; [right; exact H|]. split; [exact Q|]. intros r [<-|R0] L; [exact E|exact (F r R0 L)].
    + intros ([->|H] & Q & F); [congruence|]. split; [exact H|]. split; [exact Q|]. intros r R0. apply F. right. exact R0.
Qed.
Lemma seq_sorted : forall n k, StronglySorted lt (seq k n).
Proof. induction n as [|n IH]; intros k; cbn [seq]; constructor; [apply IH|]. apply Forall_forall. intros x H. apply in_seq in H. lia. Qed.
Lemma app_sorted : forall A (lt : A -> A -> Prop) l m, StronglySorted lt l -> StronglySorted lt m -> (forall a b, In a l -> In b m -> lt a b) -> StronglySorted lt (l ++ m).
Proof.
  intros A lt. induction l as [|a l IH]; intros m SL SM H; cbn [app]; [exact SM|]. inversion SL as [|? ? S1 FA]; subst. constructor; [apply IH; [exact S1|exact SM|intros x y X Y; apply H; [right; exact X|exact Y]]|]. apply Forall_app. split; [exact FA|]. apply Forall_forall. intros b B. apply H; [left; reflexivity|exact B].
Qed.
Lemma prod_sorted : forall l m, StronglySorted lt l -> StronglySorted lt m -> StronglySorted before (list_prod l m).
Proof.
  induction l as [|a l IH]; intros m SL SM; cbn [list_prod]; [constructor|]. inversion SL as [|? ? S1 FA]; subst. apply app_sorted; [|apply IH; assumption|].
  - clear - SM. induction m as [|b m IH]; cbn [map]; [constructor|]. inversion SM as [|? ? S1 FA]; subst. constructor; [apply IH, S1|]. apply Forall_forall. intros q Q. apply in_map_iff in Q. destruct Q as (c & <- & Q). rewrite Forall_forall in FA. right. cbn [fst snd]. auto.
  - intros p q P Q. apply in_map_iff in P. destruct P as (c & <- & P). destruct q as [q1 q2]. apply in_prod_iff in Q. rewrite Forall_forall in FA. left. cbn [fst]. apply FA, Q.
Qed.
Lemma spots_in : forall f q, In q (spots f) <-> (fst q < rows f)%nat /\ (snd q < cols f)%nat.
Proof. intros f [a b]. unfold spots. rewrite in_prod_iff, !in_seq. cbn [fst snd]. lia. Qed.
Lemma spots_sorted : forall f, StronglySorted before (spots f).
Proof. intros f. apply prod_sorted; apply seq_sorted. Qed.
Lemma before_asym : forall a b, before a b -> before b a -> False.
Proof. unfold before. intros a b. lia. Qed.
Lemma map_some_in : forall A B (g : A -> option B) l r, map g l = map Some r -> (forall a, In a l -> exists b, g a = Some b /\ In b r) /\ forall b, In b r -> exists a, In a l /\ g a = Some b.
Proof.
  intros A B g. induction l as [|a l IH]; intros [|b r] H; try discriminate H; [split; intros ? []|]. cbn [map] in H. injection H as H1 H2. destruct (IH r H2) as (P & Q). split.
  - intros c [<-|C0]; [exists b; split; [exact H1|left; reflexivity]|]. destruct (P c C0) as (d & E & D). exists d. split; [exact E|right; exact D].
  - intros c [<-|C0]; [exists a; split; [left; reflexivity|exact H1]|]. destruct (Q c C0) as (d & D & E). exists d. split; [right; exact D|exact E].
Qed.
Lemma peak_iff : forall f p, peak f = Ok p <-> brightest f p.
Proof.
  intros f p. pose proof (spots_sorted f) as SS. unfold brightest. rewrite <- and_assoc, <- spots_in. unfold peak.
  set (g := fun q : nat * nat => pix f (fst q) (snd q)). assert (SP : forall q, In q (spots f) <-> (fst q < rows f)%nat /\ (snd q < cols f)%nat) by apply spots_in.
  assert (T : forall q : nat * nat, (fst q < rows f)%nat -> (snd q < cols f)%nat -> In q (spots f)) by (intros q A B; apply SP; auto).
  destruct (all_some (map g (spots f))) as [[|x t]|] eqn:E.
  - apply all_some_iff in E. split; [discriminate|]. intros (IN & _). destruct (spots f); [destruct IN|discriminate E].
  - apply all_some_iff in E. apply map_some_in in E. destruct E as (E1 & E2). destruct (fold_rmax t x) as (A & B & C0). set (m := fold_left Rmax t x) in *.
    set (P := fun q : nat * nat => match pix f (fst q) (snd q) with Some v => reqb v m | None => false end).
    assert (PT : forall q, P q = true <-> g q = Some m) by (intros q; unfold P, g; destruct (pix f (fst q) (snd q)) as [v|]; [unfold reqb; destruct (Req_EM_T v m); split; congruence|split; discriminate]).
    assert (LE : forall q, In q (spots f) -> exists y, g q = Some y /\ y <= m) by (intros q Q; destruct (E1 q Q) as (y & Y & I); exists y; split; [exact Y|destruct I as [<-|I]; [exact B|exact (C0 y I)]]).
    assert (EX : exists q, In q (spots f) /\ g q = Some m) by (apply E2; destruct A as [->|A]; [left; reflexivity|right; exact A]).
    transitivity (exists t, filter P (spots f) = p :: t); [fold P; destruct (filter P (spots f)) as [|q r]; split; [discriminate|intros (? & H); discriminate H|intros H; injection H as ->; eexists; reflexivity|intros (? & H); injection H as -> _; reflexivity]|].
    rewrite (filter_first _ before P (spots f) p before_asym SS). rewrite PT. split.
    + intros (IN & M & F). split; [exact IN|]. intros q Q1 Q2. destruct (LE q (T q Q1 Q2)) as (y & Y & L). exists m, y. split; [exact M|]. split; [exact Y|]. split; [exact L|]. intros BF. specialize (F q (T q Q1 Q2) BF). destruct (Rle_lt_or_eq_dec y m L) as [D|D]; [exact D|]. subst y. apply PT in Y. congruence.
    + intros (IN & H). split; [exact IN|]. destruct EX as (q0 & I0 & G0). assert (G : g p = Some m).
      { destruct (proj1 (SP q0) I0) as (U & V). destruct (H q0 U V) as (a & b & PA & PB & L & _). fold (g p) in PA. fold (g q0) in PB. destruct (LE p IN) as (y & Y & L'). rewrite Y in PA. injection PA as ->. rewrite G0 in PB. injection PB as <-. rewrite Y. f_equal. lra. }
      split; [exact G|]. intros r R0 BF. destruct (proj1 (SP r) R0) as (U & V). destruct (H r U V) as (a & b & PA & PB & L & LT). fold (g p) in PA. fold (g r) in PB. rewrite G in PA. injection PA as <-. destruct (P r) eqn:PR; [|reflexivity]. apply PT in PR. rewrite PB in PR. injection PR as ->. specialize (LT BF). lra.
  - split; [discriminate|]. intros (IN & H). exfalso. assert (X : exists r, map g (spots f) = map Some r).
    { assert (Y : forall q, In q (spots f) -> exists y, g q = Some y) by (intros q Q; destruct (proj1 (SP q) Q) as (U & V); destruct (H q U V) as (a & b & _ & PB & _); exists b; exact PB). clear - Y. induction (spots f) as [|q l IH]; [exists []; reflexivity|]. destruct IH as (r & E); [intros q' Q; apply Y; right; exact Q|]. destruct (Y q (or_introl eq_refl)) as (y & G). exists (y :: r). cbn [map]. rewrite G, E. reflexivity. }
    destruct X as (r & X). apply all_some_iff in X. rewrite X in E. discriminate E.
Qed.
