(** Proofs about the choice of fits at one place. *)
From Coq Require Import List Arith Bool Reals Lra Lia ZArith String Permutation.
From Verif Require Import LocModel LocSpec.
Import ListNotations.
Local Open Scope R_scope.

Lemma Forall2_cons_iff : forall A B (P : A -> B -> Prop) a b l m, Forall2 P (a :: l) (b :: m) <-> P a b /\ Forall2 P l m.
Proof. intros A B P a b l m. split; [intros H; inversion H; auto|intros (H & K); constructor; assumption]. Qed.

(** ** Windows *)
Lemma fold_max : forall t m, (m <= fold_left (fun m f => Rmax m (x_tau f + x_err f)) t m
   /\ (forall f, In f t -> x_tau f + x_err f <= fold_left (fun m f => Rmax m (x_tau f + x_err f)) t m)
   /\ (fold_left (fun m f => Rmax m (x_tau f + x_err f)) t m = m \/ exists f, In f t /\ fold_left (fun m f => Rmax m (x_tau f + x_err f)) t m = x_tau f + x_err f)).
Proof.
  induction t as [|a t IH]; intros m; cbn [fold_left]; [split; [lra|split; [intros f []|left; reflexivity]]|].
  destruct (IH (Rmax m (x_tau a + x_err a))) as (A & B & D). pose proof (Rmax_l m (x_tau a + x_err a)). pose proof (Rmax_r m (x_tau a + x_err a)).
  split; [lra|]. split; [intros f [<-|F]; [lra|exact (B f F)]|].
  destruct D as [D|(f & F & D)]; [|right; exists f; split; [right; exact F|exact D]].
  assert (X : Rmax m (x_tau a + x_err a) = m \/ Rmax m (x_tau a + x_err a) = x_tau a + x_err a) by (unfold Rmax; destruct (Rle_dec m (x_tau a + x_err a)); auto).
  destruct X as [X|X]; [left|right; exists a; split; [left; reflexivity|]]; exact (eq_trans D X).
Qed.
Lemma fold_min : forall t m, (fold_left (fun m f => Rmin m (x_tau f - x_err f)) t m <= m
   /\ (forall f, In f t -> fold_left (fun m f => Rmin m (x_tau f - x_err f)) t m <= x_tau f - x_err f)
   /\ (fold_left (fun m f => Rmin m (x_tau f - x_err f)) t m = m \/ exists f, In f t /\ fold_left (fun m f => Rmin m (x_tau f - x_err f)) t m = x_tau f - x_err f)).
Proof.
  induction t as [|a t IH]; intros m; cbn [fold_left]; [split; [lra|split; [intros f []|left; reflexivity]]|].
  destruct (IH (Rmin m (x_tau a - x_err a))) as (A & B & D). pose proof (Rmin_l m (x_tau a - x_err a)). pose proof (Rmin_r m (x_tau a - x_err a)).
  split; [lra|]. split; [intros f [<-|F]; [lra|exact (B f F)]|].
  destruct D as [D|(f & F & D)]; [|right; exists f; split; [right; exact F|exact D]].
  assert (X : Rmin m (x_tau a - x_err a) = m \/ Rmin m (x_tau a - x_err a) = x_tau a - x_err a) by (unfold Rmin; destruct (Rle_dec m (x_tau a - x_err a)); auto).
  destruct X as [X|X]; [left|right; exists a; split; [left; reflexivity|]]; exact (eq_trans D X).
Qed.
Lemma hull_model : forall c, c <> [] -> hull c (low c) (up c).
Proof.
  intros [|x t] NE; [congruence|]. unfold low, up. destruct (fold_max t (x_tau x + x_err x)) as (A & B & D). destruct (fold_min t (x_tau x - x_err x)) as (A' & B' & D').
  split; [|split].
  - intros f [<-|F]; [split; assumption|split; [exact (B' f F)|exact (B f F)]].
  - destruct D' as [D'|(f & F & D')]; [exists x; split; [left; reflexivity|exact D']|exists f; split; [right; exact F|exact D']].
  - destruct D as [D|(f & F & D)]; [exists x; split; [left; reflexivity|exact D]|exists f; split; [right; exact F|exact D]].
Qed.
Lemma hull_unique : forall c lo hi lo' hi', hull c lo hi -> hull c lo' hi' -> lo = lo' /\ hi = hi'.
Proof.
  intros c lo hi lo' hi' (A & (f & F & ->) & (g & G & ->)) (A' & (f' & F' & ->) & (g' & G' & ->)).
  pose proof (A f' F'). pose proof (A g' G'). pose proof (A' f F). pose proof (A' g G). lra.
Qed.
Lemma hull_width : forall c lo hi, c <> [] -> hull c lo hi -> hi - lo = width c.
Proof. intros c lo hi NE H. destruct (hull_unique _ _ _ _ _ H (hull_model c NE)) as (-> & ->). reflexivity. Qed.

(** ** The first smallest *)
Definition first_min {A} (w : A -> R) (cs : list A) (c : A) : Prop :=
  exists l1 l2, cs = l1 ++ c :: l2 /\ (forall d, In d l1 -> w c < w d) /\ (forall d, In d l2 -> w c <= w d).
Lemma best_spec : forall cs pre b, (pre = [] /\ b = None \/ exists c, b = Some c /\ first_min width pre c) ->
  (pre ++ cs = [] /\ best b cs = None \/ exists c, best b cs = Some c /\ first_min width (pre ++ cs) c).
Proof.
  induction cs as [|d cs IH]; intros pre b H; cbn [best]; [rewrite app_nil_r; exact H|].
  replace (pre ++ d :: cs) with ((pre ++ [d]) ++ cs) by (rewrite <- app_assoc; reflexivity). apply IH. right.
  destruct H as [(-> & ->)|(c & -> & l1 & l2 & -> & L & G)].
  - exists d. split; [reflexivity|]. exists [], []. split; [reflexivity|split; intros ? []].
  - destruct (Rlt_dec (width d) (width c)) as [W|W].
    + exists d. split; [reflexivity|]. exists (l1 ++ c :: l2), []. split; [reflexivity|]. split; [|intros ? []].
      intros e E. apply in_app_or in E. destruct E as [E|[<-|E]]; [pose proof (L e E); lra|exact W|pose proof (G e E); lra].
    + exists c. split; [reflexivity|]. exists l1, (l2 ++ [d]). split; [rewrite <- app_assoc; reflexivity|]. split; [exact L|].
      intros e E. apply in_app_or in E. destruct E as [E|[<-|[]]]; [exact (G e E)|lra].
Qed.
Lemma best_none : forall cs, best None cs = None <-> cs = [].
Proof.
  intros cs. destruct (best_spec cs [] None) as [(A & B)|(c & A & l1 & l2 & B & _)]; [left; auto|tauto|]. cbn in B. rewrite A. split; [discriminate|intros ->; destruct l1; discriminate B].
Qed.
Lemma best_some : forall cs c, best None cs = Some c -> first_min width cs c.
Proof. intros cs c H. destruct (best_spec cs [] None) as [(A & B)|(c' & A & B)]; [left; auto|congruence|]. cbn in B. congruence. Qed.

(** ** One of each list *)
Inductive picks : list (list fit) -> list nat -> list fit -> Prop :=
| picks_nil : picks [] [] []
| picks_cons : forall l ls k ks f c, nth_error l k = Some f -> picks ls ks c -> picks (l :: ls) (k :: ks) (f :: c).
Lemma picks_iff : forall p xs ks c, at_positions p xs ks c <-> picks (map p xs) ks c.
Proof.
  intros p. induction xs as [|x xs IH]; intros ks c; unfold at_positions; split.
  - intros (F & L). inversion F as [E|]. destruct ks, c; try discriminate L; [constructor|discriminate].
  - intros H. inversion H. split; [constructor|reflexivity].
  - intros (F & L). destruct ks as [|k ks], c as [|f c]; try discriminate L; cbn [combine] in F; [inversion F|]. inversion F; subst. cbn [map]. constructor; [assumption|]. apply IH. split; [assumption|cbn in L; lia].
  - intros H. inversion H; subst. apply IH in H5. destruct H5 as (F & L). split; [cbn [combine]; constructor; assumption|cbn; lia].
Qed.
Lemma picks_combos : forall ls ks c, picks ls ks c -> In c (combos ls).
Proof.
  intros ls ks c H. induction H as [|l ls k ks f c N H IH]; cbn [combos]; [left; reflexivity|]. apply in_flat_map. exists f. split; [exact (nth_error_In _ _ N)|]. apply in_map. exact IH.
Qed.
Lemma combos_picks : forall ls c, In c (combos ls) -> exists ks, picks ls ks c.
Proof.
  induction ls as [|l ls IH]; intros c H; cbn [combos] in H; [destruct H as [<-|[]]; exists []; constructor|].
  apply in_flat_map in H. destruct H as (f & F & H). apply in_map_iff in H. destruct H as (c' & <- & H). destruct (IH c' H) as (ks & K). apply In_nth_error in F. destruct F as (k & F). exists (k :: ks). constructor; assumption.
Qed.
Lemma combos_nil : forall ls, combos ls = [] <-> In [] ls.
Proof.
  intros ls. split.
  - intros E. induction ls as [|l ls IH]; cbn [combos] in E; [discriminate E|]. destruct l as [|f l]; [left; reflexivity|right]. apply IH. cbn [flat_map] in E. apply app_eq_nil in E. destruct E as (E & _). destruct (combos ls); [reflexivity|discriminate E].
  - intros I. destruct (combos ls) as [|c t] eqn:E; [reflexivity|exfalso]. destruct (combos_picks ls c) as (ks & K); [rewrite E; left; reflexivity|]. clear E t. induction K as [|l ls k ks f c N K IH]; [destruct I|]. destruct I as [->|I]; [destruct k; discriminate N|exact (IH I)].
Qed.
Lemma flat_map_split : forall A B (f : A -> list B) l l1 c l2, flat_map f l = l1 ++ c :: l2 ->
  exists la x lb m1 m2, l = la ++ x :: lb /\ f x = m1 ++ c :: m2 /\ l1 = flat_map f la ++ m1 /\ l2 = m2 ++ flat_map f lb.
Proof.
  intros A B f. induction l as [|a l IH]; intros l1 c l2 E; cbn [flat_map] in E; [destruct l1; discriminate E|].
  assert (S : (exists m2, f a = l1 ++ c :: m2 /\ l2 = m2 ++ flat_map f l) \/ exists n1, l1 = f a ++ n1 /\ flat_map f l = n1 ++ c :: l2).
  { clear IH. revert l1 E. generalize (f a) as m. induction m as [|b m IH]; intros l1 E; [right; exists l1; auto|]. destruct l1 as [|b' l1].
    - cbn in E. injection E as -> <-. left. exists m. auto.
    - cbn [app] in E. assert (b' = b) by congruence. subst b'. assert (E' : m ++ flat_map f l = l1 ++ c :: l2) by congruence. destruct (IH l1 E') as [(m2 & -> & X)|(n1 & -> & X)]; [left; exists m2; auto|right; exists n1; auto]. }
  destruct S as [(m2 & X & Y)|(n1 & -> & X)].
  - exists [], a, l, l1, m2. auto.
  - destruct (IH _ _ _ X) as (la & x & lb & m1 & m2 & -> & Y & -> & ->). exists (a :: la), x, lb, m1, m2. split; [reflexivity|]. split; [exact Y|]. split; [cbn [flat_map]; rewrite app_assoc; reflexivity|reflexivity].
Qed.
Lemma map_split : forall A B (f : A -> B) l l1 c l2, map f l = l1 ++ c :: l2 -> exists n1 x n2, l = n1 ++ x :: n2 /\ f x = c /\ l1 = map f n1 /\ l2 = map f n2.
Proof.
  intros A B f. induction l as [|a l IH]; intros l1 c l2 E; [destruct l1; discriminate E|]. destruct l1 as [|b l1]; cbn in E.
  - injection E as <- <-. exists [], a, l. auto.
  - injection E as <- E. destruct (IH _ _ _ E) as (n1 & x & n2 & -> & <- & -> & ->). exists (a :: n1), x, n2. auto.
Qed.
Lemma combos_split : forall ls l1 c l2, combos ls = l1 ++ c :: l2 ->
  exists ks, picks ls ks c /\ forall ks' c', picks ls ks' c' -> before ks' ks -> In c' l1.
Proof.
  induction ls as [|l ls IH]; intros l1 c l2 E; cbn [combos] in E.
  - destruct l1 as [|b l1]; [|destruct l1; discriminate E]. injection E as <- _. exists []. split; [constructor|]. intros ks' c' P B. inversion P; subst. destruct B as (pre & a & b & t & t' & _ & B & _). destruct pre; discriminate B.
  - destruct (flat_map_split _ _ _ _ _ _ _ E) as (la & x & lb & m1 & m2 & -> & F & -> & ->). destruct (map_split _ _ _ _ _ _ _ F) as (n1 & c0 & n2 & G & <- & -> & ->).
    destruct (IH _ _ _ G) as (ks & P & M). exists (List.length la :: ks). split; [constructor; [rewrite nth_error_app2, Nat.sub_diag by lia; reflexivity|exact P]|].
    intros ks' c' P' B. inversion P' as [|l' ls' k ks0 f c1 N P1]; subst. apply in_or_app. destruct B as (pre & a & b & t & t' & AB & X & Y). destruct pre as [|q pre]; cbn [app] in X, Y.
    + injection X as -> ->. injection Y as <- <-. left. apply in_flat_map. rewrite nth_error_app1 in N by exact AB. exists f. split; [exact (nth_error_In _ _ N)|]. apply in_map. exact (picks_combos _ _ _ P1).
    + injection X as -> ->. injection Y as <- ->. right. rewrite nth_error_app2, Nat.sub_diag in N by lia. injection N as ->. apply in_map. apply (M _ _ P1). exists pre, a, b, t, t'. auto.
Qed.

(** ** Removal *)
Lemma remove1_split : forall l f l', ~ In f l -> remove1 f (l ++ f :: l') = l ++ l'.
Proof.
  induction l as [|a l IH]; intros f l' N; cbn [remove1 app]; [destruct (fit_eq_dec f f); [reflexivity|congruence]|]. destruct (fit_eq_dec f a) as [<-|]; [destruct N; left; reflexivity|]. f_equal. apply IH. intros H. apply N. right. exact H.
Qed.
Lemma remove1_length : forall f l, In f l -> List.length l = S (List.length (remove1 f l)).
Proof.
  intros f. induction l as [|a l IH]; intros I; [destruct I|]. cbn [remove1]. destruct (fit_eq_dec f a) as [<-|N]; [reflexivity|]. destruct I as [->|I]; [congruence|]. cbn. rewrite <- (IH I). reflexivity.
Qed.
(** What is removed, list by list. *)
Inductive gone : list (list fit) -> list nat -> list fit -> list (list fit) -> Prop :=
| gone_nil : gone [] [] [] []
| gone_cons : forall l l' ls k ks f c ls', List.length l = k -> gone ls ks c ls' -> gone ((l ++ f :: l') :: ls) (k :: ks) (f :: c) ((l ++ l') :: ls').
Lemma removal : forall ls ks c (w : list fit -> Prop), picks ls ks c -> (forall ks', picks ls ks' c -> ~ before ks' ks) ->
  gone ls ks c (map (fun p => remove1 (fst p) (snd p)) (combine c ls)).
Proof.
  intros ls ks c _ P. induction P as [|l ls k ks f c N P IH]; intros M; cbn [combine map fst snd]; [constructor|].
  destruct (nth_error_split _ _ N) as (l1 & l2 & -> & L). rewrite remove1_split.
  - constructor; [exact L|]. apply IH. intros ks' P' B. apply (M (k :: ks')); [constructor; assumption|]. destruct B as (pre & a & b & t & t' & AB & -> & ->). exists (k :: pre), a, b, t, t'. auto.
  - intros I. apply In_nth_error in I. destruct I as (j & J). assert (JL : (j < List.length l1)%nat) by (apply nth_error_Some; congruence).
    apply (M (j :: ks)); [constructor; [rewrite nth_error_app1 by exact JL; exact J|exact P]|]. exists [], j, k, ks, ks. split; [lia|auto].
Qed.
Lemma gone_takes : forall xs ls ks c ls' p p', NoDup xs -> gone ls ks c ls' -> map p xs = ls -> map p' xs = ls' -> (forall x, ~ In x xs -> p' x = p x) -> takes p xs ks c p'.
Proof.
  intros xs ls ks c ls' p p' _ G A B O. split; [|exact O]. clear O. revert xs A B. induction G as [|l l' ls k ks f c ls' L G IH]; intros xs A B.
  - destruct xs; [constructor|discriminate A].
  - destruct xs as [|x xs]; [discriminate A|]. cbn [map] in A, B. cbn [combine]. constructor; [|apply IH; congruence]. exists l, l'. cbn [fst snd]. split; [congruence|]. split; [exact L|congruence].
Qed.
Lemma gone_lengths : forall ls ks c ls', gone ls ks c ls' -> map (@List.length fit) ls = map (fun l => S (List.length l)) ls'.
Proof. intros ls ks c ls' G. induction G as [|l l' ls k ks f c ls' L G IH]; [reflexivity|]. cbn [map]. rewrite IH, !app_length. cbn [List.length]. f_equal. lia. Qed.
Lemma picks_length : forall ls ks c, picks ls ks c -> List.length c = List.length ls /\ List.length ks = List.length ls.
Proof. intros ls ks c P. induction P as [|l ls k ks f c N P (A & B)]; cbn; auto. Qed.
Lemma picks_fun : forall ls ks c c', picks ls ks c -> picks ls ks c' -> c = c'.
Proof. intros ls ks c c' P. revert c'. induction P as [|l ls k ks f c N P IH]; intros c' Q; inversion Q; subst; [reflexivity|]. f_equal; [congruence|apply IH; assumption]. Qed.
Lemma before_total : forall ks ks', List.length ks = List.length ks' -> ks = ks' \/ before ks ks' \/ before ks' ks.
Proof.
  induction ks as [|k ks IH]; intros [|k' ks'] L; try discriminate L; [left; reflexivity|].
  destruct (Nat.lt_trichotomy k k') as [H|[<-|H]].
  - right; left. exists [], k, k', ks, ks'. auto.
  - destruct (IH ks') as [->|[(pre & a & b & t & t' & H & -> & ->)|(pre & a & b & t & t' & H & -> & ->)]]; [cbn in L; lia|left; reflexivity|right; left|right; right]; exists (k :: pre), a, b, t, t'; auto.
  - right; right. exists [], k', k, ks', ks. auto.
Qed.

(** ** The choice *)
Lemma choice_model : forall p xs c, xs <> [] -> best None (combos (map p xs)) = Some c ->
  exists ks, chooses p xs ks c /\ gone (map p xs) ks c (map (fun q => remove1 (fst q) (snd q)) (combine c (map p xs))).
Proof.
  intros p xs c NE H. destruct (best_some _ _ H) as (l1 & l2 & E & L & G). destruct (combos_split _ _ _ _ E) as (ks & P & M).
  assert (LEN : forall ks' c', picks (map p xs) ks' c' -> c' <> []). { intros ks' c' P' ->. apply picks_length in P'. destruct P' as (P' & _). rewrite map_length in P'. destruct xs; [congruence|discriminate P']. }
  exists ks. split.
  - split; [apply picks_iff; exact P|]. intros ks' c' lo hi lo' hi' A B B'. apply picks_iff in A.
    rewrite (hull_width _ _ _ (LEN _ _ P) B), (hull_width _ _ _ (LEN _ _ A) B'). split.
    + pose proof (picks_combos _ _ _ A) as I. rewrite E in I. apply in_app_or in I. destruct I as [I|[<-|I]]; [pose proof (L _ I); lra|lra|exact (G _ I)].
    + intros BF. apply L. exact (M _ _ A BF).
  - apply (removal _ _ _ (fun _ => True) P). intros ks' P' BF. pose proof (L _ (M _ _ P' BF)). lra.
Qed.
Lemma choice_unique : forall p p' xs ks c ks' c', xs <> [] -> (forall x, p x = p' x) -> chooses p xs ks c -> chooses p' xs ks' c' -> ks = ks' /\ c = c'.
Proof.
  intros p p' xs ks c ks' c' NE EQ (A & M) (A' & M').
  assert (T : forall q q' zs ds, (forall x, q x = q' x) -> at_positions q xs zs ds -> at_positions q' xs zs ds).
  { intros q q' zs ds E B. apply picks_iff. apply picks_iff in B. rewrite <- (map_ext _ _ E). exact B. }
  assert (LEN : forall q zs ds, at_positions q xs zs ds -> ds <> []). { intros q zs ds B ->. apply picks_iff in B. apply picks_length in B. destruct B as (B & _). rewrite map_length in B. destruct xs; [congruence|discriminate B]. }
  pose proof (hull_model c (LEN _ _ _ A)) as H. pose proof (hull_model c' (LEN _ _ _ A')) as H'.
  destruct (M ks' c' _ _ _ _ (T p' p _ _ (fun x => eq_sym (EQ x)) A') H H') as (W & S). destruct (M' ks c _ _ _ _ (T p p' _ _ EQ A) H' H) as (W' & S').
  assert (K : ks = ks').
  { pose proof (proj1 (picks_iff _ _ _ _) A) as P. pose proof (proj1 (picks_iff _ _ _ _) A') as P'. apply picks_length in P. apply picks_length in P'. rewrite map_length in P, P'. destruct (before_total ks ks') as [E|[B|B]]; [lia|exact E|pose proof (S' B); lra|pose proof (S B); lra]. }
  split; [exact K|]. subst ks'. apply (T p' p) in A'; [|intros x; symmetry; apply EQ]. apply picks_iff in A. apply picks_iff in A'. exact (picks_fun _ _ _ _ A A').
Qed.
Lemma takes_unique : forall p q xs ks c p' q', (forall x, p x = q x) -> takes p xs ks c p' -> takes q xs ks c q' -> forall x, p' x = q' x.
Proof.
  intros p q xs ks c p' q' EQ (F & O) (F' & O') x. destruct (in_dec (fun a b : slot => ltac:(repeat decide equality) : {a = b} + {a <> b}) x xs) as [I|I]; [|rewrite (O x I), (O' x I); apply EQ].
  clear O O'. revert F F'. generalize (combine ks c) as kc. induction xs as [|y xs IH]; intros kc F F'; [destruct I|]. destruct kc as [|kf kc]; [inversion F|]. apply Forall2_cons_iff in F. apply Forall2_cons_iff in F'. destruct F as ((l & l' & E & L & P) & F), F' as ((m & m' & E' & L' & Q) & F').
  destruct I as [->|I]; [|exact (IH I kc F F')]. rewrite EQ, E' in E. assert (LL : List.length m = List.length l) by congruence.
  assert (X : l = m /\ l' = m').
  { clear - E LL. revert l E LL. induction m as [|a m IHm]; intros [|b l] E LL; try discriminate LL; cbn in E; [injection E as ->; auto|]. injection E as -> E. destruct (IHm l E) as (-> & ->); [cbn in LL; lia|auto]. }
  destruct X as (-> & ->). rewrite P, Q. reflexivity.
Qed.
