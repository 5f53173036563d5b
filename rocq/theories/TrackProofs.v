(** Proofs about one trap followed over the temperatures. *)
From Coq Require Import List Arith Bool Reals Lra Lia ZArith String Permutation Sorted.
From Verif Require Import LocModel LocSpec LocProofs LocRunProofs LocFactsProofs TrackModel TrackSpec.
Import ListNotations.
Local Open Scope R_scope.

(** ** Sorting *)
Lemma insert_perm : forall x l, Permutation (insert x l) (x :: l).
Proof. intros x l. induction l as [|y l IH]; cbn [insert]; [reflexivity|]. destruct (Rle_dec x y); [reflexivity|]. rewrite IH. apply perm_swap. Qed.
Lemma sort_perm : forall l, Permutation (sort l) l.
Proof. induction l as [|x l IH]; cbn [sort fold_right]; [reflexivity|]. fold (sort l). rewrite insert_perm, IH. reflexivity. Qed.
Lemma insert_sorted : forall x l, StronglySorted Rle l -> StronglySorted Rle (insert x l).
Proof.
  intros x l. induction l as [|y l IH]; intros H; cbn [insert]; [constructor; constructor|]. inversion H as [|? ? H1 H2]; subst. destruct (Rle_dec x y) as [L|L].
  - constructor; [exact H|]. constructor; [exact L|]. eapply Forall_impl; [|exact H2]. cbn. intros z Z. lra.
  - constructor; [exact (IH H1)|]. apply Forall_forall. intros z Z. apply (Permutation_in _ (insert_perm x l)) in Z. destruct Z as [<-|Z]; [lra|]. rewrite Forall_forall in H2. exact (H2 z Z).
Qed.
Lemma sort_sorted : forall l, NoDup l -> StronglySorted Rlt (sort l).
Proof.
  intros l ND. assert (S : StronglySorted Rle (sort l)) by (induction l as [|x l IH]; cbn [sort fold_right]; [constructor|apply insert_sorted, IH; inversion ND; assumption]).
  assert (N : NoDup (sort l)) by (exact (Permutation_NoDup (Permutation_sym (sort_perm l)) ND)). clear ND. induction S as [|x m S IH F]; [constructor|]. inversion N; subst. constructor; [auto|]. apply Forall_forall. intros y Y. rewrite Forall_forall in F. pose proof (F y Y). destruct H; [assumption|]. subst. contradiction.
Qed.
Lemma sort_in : forall l x, In x (sort l) <-> In x l.
Proof. intros l x. split; apply Permutation_in; [apply sort_perm|apply Permutation_sym, sort_perm]. Qed.

(** ** The choice *)
Definition chosen (pts : points) (l : list trap) (x : trap) : Prop :=
  exists l1 l2, l = l1 ++ x :: l2 /\ match pts with [] => l1 = [] | (_, x0) :: _ => (forall y, In y l1 -> gap x0 x < gap x0 y) /\ (forall y, In y l2 -> gap x0 x <= gap x0 y) end.
Lemma first_filter : forall sub l, first_of sub l = match filter (named sub) l with [] => None | x :: _ => Some x end.
Proof. intros sub l. induction l as [|y l IH]; cbn [first_of filter]; [reflexivity|]. unfold named at 1. destruct (String.eqb (t_sub y) sub); [reflexivity|exact IH]. Qed.
Lemma dist_gap : forall T0 x0 T x y, dist2 T0 (t_tau x0) T x < dist2 T0 (t_tau x0) T y <-> gap x0 x < gap x0 y.
Proof.
  intros T0 x0 T x y. unfold dist2, gap. generalize (t_tau x0 - t_tau x) as u. generalize (t_tau x0 - t_tau y) as v. intros v u. split; intros H.
  - apply Rsqr_lt_abs_0. unfold Rsqr. lra.
  - apply Rsqr_lt_abs_1 in H. unfold Rsqr in H. lra.
Qed.
Lemma nearest_spec : forall sub T0 x0 T l pre b, (pre = [] /\ b = None \/ exists x l1 l2, b = Some x /\ pre = l1 ++ x :: l2 /\ (forall y, In y l1 -> gap x0 x < gap x0 y) /\ (forall y, In y l2 -> gap x0 x <= gap x0 y)) ->
  (pre ++ filter (named sub) l = [] /\ nearest sub T0 (t_tau x0) T b l = None
   \/ exists x l1 l2, nearest sub T0 (t_tau x0) T b l = Some x /\ pre ++ filter (named sub) l = l1 ++ x :: l2 /\ (forall y, In y l1 -> gap x0 x < gap x0 y) /\ (forall y, In y l2 -> gap x0 x <= gap x0 y)).
Proof.
  intros sub T0 x0 T. induction l as [|y l IH]; intros pre b H; cbn [nearest filter]; [rewrite app_nil_r; destruct H as [H|(x & l1 & l2 & -> & H)]; [left; exact H|right; exists x, l1, l2; auto]|].
  destruct (named sub y) eqn:E; unfold named in E; rewrite E; [|apply IH; exact H]. replace (pre ++ y :: filter (named sub) l) with ((pre ++ [y]) ++ filter (named sub) l) by (rewrite <- app_assoc; reflexivity). apply IH. right.
  destruct H as [(-> & ->)|(x & l1 & l2 & -> & -> & A & B)].
  - exists y, [], []. split; [reflexivity|]. split; [reflexivity|]. split; intros ? [].
  - destruct (Rlt_dec (dist2 T0 (t_tau x0) T y) (dist2 T0 (t_tau x0) T x)) as [D|D].
    + apply dist_gap in D. exists y, (l1 ++ x :: l2), []. split; [reflexivity|]. split; [reflexivity|]. split; [|intros ? []]. intros z Z. apply in_app_or in Z. destruct Z as [Z|[<-|Z]]; [pose proof (A z Z); lra|exact D|pose proof (B z Z); lra].
    + exists x, l1, (l2 ++ [y]). split; [reflexivity|]. split; [rewrite <- app_assoc; reflexivity|]. split; [exact A|]. intros z Z. apply in_app_or in Z. destruct Z as [Z|[<-|[]]]; [exact (B z Z)|]. apply Rnot_lt_le. intros G. apply D. apply dist_gap. exact G.
Qed.
Lemma pick_none : forall sub pts T l, pick sub pts T l = None <-> filter (named sub) l = [].
Proof.
  intros sub [|(T0, x0) pts] T l; cbn [pick].
  - rewrite first_filter. destruct (filter (named sub) l); split; congruence.
  - destruct (nearest_spec sub T0 x0 T l [] None) as [(A & B)|(x & l1 & l2 & A & B & _)]; [left; auto| |]; cbn [app] in *; [tauto|]. rewrite A, B. split; [discriminate|destruct l1; discriminate].
Qed.
Lemma pick_some : forall sub pts T l x, pick sub pts T l = Some x -> chosen pts (filter (named sub) l) x.
Proof.
  intros sub [|(T0, x0) pts] T l x; cbn [pick]; intros H.
  - rewrite first_filter in H. destruct (filter (named sub) l) as [|y t]; [discriminate H|]. injection H as <-. exists [], t. auto.
  - destruct (nearest_spec sub T0 x0 T l [] None) as [(A & B)|(x' & l1 & l2 & A & B & G)]; [left; auto|congruence|]. cbn [app] in B. rewrite B. assert (x' = x) by congruence. subst. exists l1, l2. auto.
Qed.
Lemma pick_filter : forall sub pts T l, pick sub pts T (filter (named sub) l) = pick sub pts T l.
Proof.
  intros sub [|(T0, x0) pts] T l; cbn [pick].
  - rewrite !first_filter. f_equal. induction l as [|y l IH]; [reflexivity|]. cbn [filter]. destruct (named sub y) eqn:E; [cbn [filter]; rewrite E; f_equal; exact IH|exact IH].
  - generalize (@None trap) as b. induction l as [|y l IH]; intros b; [reflexivity|]. cbn [filter nearest]. destruct (named sub y) eqn:E; unfold named in E; rewrite ?E; [cbn [nearest]; rewrite E; apply IH|apply IH].
Qed.
Lemma remove_split : forall l x l', ~ In x l -> remove_trap x (l ++ x :: l') = l ++ l'.
Proof.
  induction l as [|a l IH]; intros x l' N; cbn [remove_trap app]; [destruct (trap_eq_dec x x); [reflexivity|congruence]|]. destruct (trap_eq_dec x a) as [<-|]; [destruct N; left; reflexivity|]. f_equal. apply IH. intros H. apply N. right. exact H.
Qed.
Lemma remove_filter : forall sub x l, filter (named sub) (remove_trap x l) = if named sub x then remove_trap x (filter (named sub) l) else filter (named sub) l.
Proof.
  intros sub x l. induction l as [|y l IH]; cbn [remove_trap filter]; [destruct (named sub x); reflexivity|]. destruct (trap_eq_dec x y) as [<-|N].
  - destruct (named sub x) eqn:E; [cbn [remove_trap]; destruct (trap_eq_dec x x); [reflexivity|congruence]|reflexivity].
  - cbn [filter]. rewrite IH. destruct (named sub y), (named sub x); try reflexivity. cbn [remove_trap]. destruct (trap_eq_dec x y); [congruence|reflexivity].
Qed.

(** ** The fits of one place of one pixel *)
Definition view (ts : temps) (i : coord) (sub : string) (T : R) : list trap :=
  match at_temp T ts with Some tr => match at_coord i tr with Some l => filter (named sub) l | None => [] end | None => [] end.
Lemma at_temp_in : forall ts T tr, at_temp T ts = Some tr -> In (T, tr) ts.
Proof. intros ts T tr. induction ts as [|(T', v) ts IH]; cbn [at_temp]; [discriminate|]. destruct (Req_EM_T T T') as [<-|]; [intros H; injection H as <-; left; reflexivity|intros H; right; exact (IH H)]. Qed.
Lemma in_at_temp : forall ts T tr, NoDup (map fst ts) -> In (T, tr) ts -> at_temp T ts = Some tr.
Proof.
  intros ts T tr. induction ts as [|(T', v) ts IH]; intros N I; [destruct I|]. cbn [map fst] in N. inversion N as [|? ? N1 N2]; subst. cbn [at_temp]. destruct I as [I|I].
  - injection I as -> ->. destruct (Req_EM_T T T); [reflexivity|congruence].
  - destruct (Req_EM_T T T') as [->|]; [destruct N1; exact (in_map fst _ _ I)|exact (IH N2 I)].
Qed.
Lemma found_view : forall ts i sub T l, proper ts -> (found ts i sub T l <-> l = view ts i sub T).
Proof.
  intros ts i sub T l (N & P). unfold found, view. split.
  - intros [(tr & m & A & B & ->)|(H & ->)].
    + rewrite (in_at_temp _ _ _ N A), (in_at_coord _ _ _ _ (proj1 (P _ _ A)) B). reflexivity.
    + destruct (at_temp T ts) as [tr|] eqn:E; [|reflexivity]. destruct (at_coord i tr) as [m|] eqn:E'; [|reflexivity]. destruct (H tr m (at_temp_in _ _ _ E)). exact (at_coord_in _ _ _ _ E').
  - intros ->. destruct (at_temp T ts) as [tr|] eqn:E.
    + destruct (at_coord i tr) as [m|] eqn:E'; [left; exists tr, m; split; [exact (at_temp_in _ _ _ E)|split; [exact (at_coord_in _ _ _ _ E')|reflexivity]]|right]. split; [|reflexivity]. intros tr' m A B. apply (in_at_temp _ _ _ N) in A. assert (tr' = tr) by congruence. subst. rewrite (in_at_coord _ _ _ _ (proj1 (P _ _ (at_temp_in _ _ _ E))) B) in E'. discriminate E'.
    + right. split; [|reflexivity]. intros tr m A. rewrite (in_at_temp _ _ _ N A) in E. discriminate E.
Qed.
Lemma alter_temp_same : forall f ts T tr, at_temp T ts = Some tr -> at_temp T (alter_temp T f ts) = Some (f tr).
Proof. intros f ts T tr. induction ts as [|(T', v) ts IH]; cbn [at_temp alter_temp]; [discriminate|]. destruct (Req_EM_T T T') as [->|N]; cbn [at_temp]; intros H; [destruct (Req_EM_T T' T'); [congruence|congruence]|destruct (Req_EM_T T T'); [congruence|exact (IH H)]]. Qed.
Lemma alter_temp_other : forall f ts T T', T <> T' -> at_temp T' (alter_temp T f ts) = at_temp T' ts.
Proof.
  intros f ts T T' N. induction ts as [|(T1, v) ts IH]; cbn [at_temp alter_temp]; [reflexivity|]. destruct (Req_EM_T T T1) as [->|]; cbn [at_temp]; [destruct (Req_EM_T T' T1); [congruence|reflexivity]|]. destruct (Req_EM_T T' T1); [reflexivity|exact IH].
Qed.
Lemma visit_view : forall i sub n ts pts T ts' pts', visit (i, sub, n) (ts, pts) T = (ts', pts') ->
  pts' = match pick sub pts T (view ts i sub T) with None => pts | Some x => (T, x) :: pts end
  /\ forall j s T', view ts' j s T' = if Req_EM_T T' T then (if coord_dec j i then (if string_dec s sub then match pick sub pts T (view ts i sub T) with None => view ts j s T' | Some x => remove_trap x (view ts j s T') end else view ts j s T') else view ts j s T') else view ts j s T'.
Proof.
  intros i sub n ts pts T ts' pts' H. cbn [visit] in H.
  assert (DONE : (ts, pts) = (ts', pts') -> pick sub pts T (view ts i sub T) = None -> pts' = match pick sub pts T (view ts i sub T) with None => pts | Some x => (T, x) :: pts end
     /\ forall j s T', view ts' j s T' = if Req_EM_T T' T then (if coord_dec j i then (if string_dec s sub then match pick sub pts T (view ts i sub T) with None => view ts j s T' | Some x => remove_trap x (view ts j s T') end else view ts j s T') else view ts j s T') else view ts j s T').
  { intros E P. injection E as <- <-. rewrite P. split; [reflexivity|]. intros j s T'. destruct (Req_EM_T T' T), (coord_dec j i), (string_dec s sub); reflexivity. }
  destruct (at_temp T ts) as [tr|] eqn:E1; [|apply (DONE H); unfold view; rewrite E1; destruct pts as [|(? & ?) ?]; reflexivity].
  destruct (at_coord i tr) as [l|] eqn:E2; [|apply (DONE H); unfold view; rewrite E1, E2; destruct pts as [|(? & ?) ?]; reflexivity].
  assert (V : view ts i sub T = filter (named sub) l) by (unfold view; rewrite E1, E2; reflexivity).
  destruct (pick sub pts T l) as [x|] eqn:P; [|apply (DONE H); rewrite V, pick_filter; exact P]. injection H as <- <-. rewrite V, pick_filter, P. split; [reflexivity|].
  intros j s T'. assert (NX : named sub x = true). { apply pick_some in P. destruct P as (l1 & l2 & P & _). assert (I : In x (filter (named sub) l)) by (rewrite P; apply in_elt). apply filter_In in I. tauto. }
  destruct (Req_EM_T T' T) as [->|NT]; [|unfold view; rewrite alter_temp_other by congruence; reflexivity]. unfold view. rewrite (alter_temp_same _ _ _ _ E1), E1.
  destruct (coord_dec j i) as [->|NJ]; [|rewrite at_alter_other by congruence; destruct (string_dec s sub); reflexivity]. rewrite (at_alter_same _ _ _ _ _ E2), E2, remove_filter.
  destruct (string_dec s sub) as [->|NS]; [rewrite NX; reflexivity|]. destruct (named s x) eqn:Q; [|reflexivity]. unfold named in NX, Q. apply String.eqb_eq in NX, Q. congruence.
Qed.

(** ** One trap *)
Section Line.
Variable sub : string.
Fixpoint line (V : R -> list trap) (prev : points) (Ts : list R) : points :=
  match Ts with
  | [] => []
  | T :: r => match pick sub prev T (V T) with None => line V prev r | Some x => (T, x) :: line V [(T, x)] r end
  end.
Fixpoint look (T : R) (l : points) : option trap := match l with [] => None | (T', x) :: t => if Req_EM_T T T' then Some x else look T t end.
Definition less (V : R -> list trap) (l : points) (T : R) : list trap := match look T l with Some x => remove_trap x (V T) | None => V T end.
Lemma line_ext : forall V W Ts prev, (forall T, In T Ts -> V T = W T) -> line V prev Ts = line W prev Ts.
Proof. intros V W. induction Ts as [|T Ts IH]; intros prev H; [reflexivity|]. cbn [line]. rewrite (H T (or_introl eq_refl)). destruct (pick sub prev T (W T)); [f_equal|]; apply IH; intros T' I; apply H; right; exact I. Qed.
Lemma pick_prev : forall x l T m, pick sub (x :: l) T m = pick sub [x] T m.
Proof. intros (T0, x0) l T m. reflexivity. Qed.
Lemma line_prev : forall V Ts x l, line V (x :: l) Ts = line V [x] Ts.
Proof. intros V. induction Ts as [|T Ts IH]; intros x l; [reflexivity|]. cbn [line]. rewrite pick_prev. destruct (pick sub [x] T (V T)); [reflexivity|apply IH]. Qed.
Lemma line_in : forall V Ts prev T x, In (T, x) (line V prev Ts) -> In T Ts.
Proof. intros V. induction Ts as [|T' Ts IH]; intros prev T x H; [destruct H|]. cbn [line] in H. destruct (pick sub prev T' (V T')); [destruct H as [H|H]; [injection H as -> ->; left; reflexivity|]|]; right; exact (IH _ _ _ H). Qed.
Lemma look_in : forall l T x, look T l = Some x -> In (T, x) l.
Proof. intros l T x. induction l as [|(T', y) l IH]; cbn [look]; [discriminate|]. destruct (Req_EM_T T T') as [->|]; [intros H; injection H as ->; left; reflexivity|intros H; right; exact (IH H)]. Qed.
Lemma look_none : forall l T, ~ In T (map fst l) -> look T l = None.
Proof. intros l T. induction l as [|(T', y) l IH]; intros N; [reflexivity|]. cbn [look]. destruct (Req_EM_T T T') as [->|]; [destruct N; left; reflexivity|]. apply IH. intros H. apply N. right. exact H. Qed.
Lemma in_look : forall l T x, NoDup (map fst l) -> In (T, x) l -> look T l = Some x.
Proof.
  intros l T x. induction l as [|(T', y) l IH]; intros N I; [destruct I|]. cbn [map fst] in N. inversion N as [|? ? N1 N2]; subst. cbn [look]. destruct I as [I|I].
  - injection I as -> ->. destruct (Req_EM_T T T); congruence.
  - destruct (Req_EM_T T T') as [->|]; [destruct N1; exact (in_map fst _ _ I)|exact (IH N2 I)].
Qed.
Lemma line_temps : forall V Ts prev, map fst (line V prev Ts) = filter (fun T => match filter (named sub) (V T) with [] => false | _ => true end) Ts.
Proof.
  intros V. induction Ts as [|T Ts IH]; intros prev; [reflexivity|]. cbn [line filter]. destruct (pick sub prev T (V T)) as [x|] eqn:P.
  - destruct (filter (named sub) (V T)) eqn:F; [apply (pick_none sub prev T) in F; congruence|]. cbn [map fst]. f_equal. apply IH.
  - apply pick_none in P. rewrite P. apply IH.
Qed.
Lemma line_split : forall V Ts prev l1 T x l2, line V prev Ts = l1 ++ (T, x) :: l2 -> exists prev', (match rev l1 with [] => prev' = prev | y :: _ => prev' = [y] end) /\ pick sub prev' T (V T) = Some x.
Proof.
  intros V. induction Ts as [|T' Ts IH]; intros prev l1 T x l2 H; [destruct l1; discriminate H|]. cbn [line] in H. destruct (pick sub prev T' (V T')) as [x'|] eqn:P; [|exact (IH _ _ _ _ _ H)].
  destruct l1 as [|y l1]; cbn [app] in H.
  - injection H as <- <- _. exists prev. split; [reflexivity|exact P].
  - injection H as <- H. destruct (IH _ _ _ _ _ H) as (prev' & A & B). exists prev'. split; [|exact B]. cbn [rev]. destruct (rev l1) as [|z r]; cbn [app]; [exact A|exact A].
Qed.
Lemma fold_line : forall i n Ts ts pts ts' pts', NoDup Ts -> fold_left (visit (i, sub, n)) Ts (ts, pts) = (ts', pts') ->
  pts' = rev (line (view ts i sub) pts Ts) ++ pts
  /\ forall j s T, view ts' j s T = if coord_dec j i then (if string_dec s sub then less (view ts j s) (line (view ts i sub) pts Ts) T else view ts j s T) else view ts j s T.
Proof.
  intros i n. induction Ts as [|T Ts IH]; intros ts pts ts' pts' ND H; cbn [fold_left] in H.
  - injection H as <- <-. split; [reflexivity|]. intros j s T. destruct (coord_dec j i), (string_dec s sub); reflexivity.
  - inversion ND as [|? ? N1 N2]; subst. destruct (visit (i, sub, n) (ts, pts) T) as (ts1, pts1) eqn:V. destruct (visit_view _ _ _ _ _ _ _ _ V) as (P1 & W1). destruct (IH ts1 pts1 ts' pts' N2 H) as (P2 & W2).
    assert (EXT : forall prev, line (view ts1 i sub) prev Ts = line (view ts i sub) prev Ts). { intros prev. apply line_ext. intros T' I. rewrite W1. destruct (Req_EM_T T' T) as [->|]; [contradiction|reflexivity]. }
    rewrite EXT in P2. cbn [line]. destruct (pick sub pts T (view ts i sub T)) as [x|] eqn:P.
    + subst pts1. rewrite line_prev in P2. split; [rewrite P2; cbn [rev]; rewrite <- app_assoc; reflexivity|]. intros j s T0. rewrite W2. destruct (coord_dec j i) as [->|]; [|rewrite W1; destruct (Req_EM_T T0 T), (coord_dec j i); try reflexivity; congruence].
      destruct (string_dec s sub) as [->|]; [|rewrite W1; destruct (Req_EM_T T0 T), (coord_dec i i), (string_dec s sub); try reflexivity; congruence].
      unfold less. rewrite EXT, line_prev. cbn [look]. rewrite !W1. destruct (Req_EM_T T0 T) as [->|NT]; [|reflexivity]. destruct (coord_dec i i); [|congruence]. destruct (string_dec sub sub); [|congruence].
      rewrite look_none; [reflexivity|]. intros I. apply in_map_iff in I. destruct I as ((T1, y) & <- & I). apply line_in in I. contradiction.
    + subst pts1. split; [exact P2|]. intros j s T0. rewrite W2. assert (EV : forall j s T0, view ts1 j s T0 = view ts j s T0) by (intros j' s' T1; rewrite W1; destruct (Req_EM_T T1 T), (coord_dec j' i), (string_dec s' sub); reflexivity).
      rewrite EV, EXT. unfold less. rewrite EV. reflexivity.
Qed.
End Line.
