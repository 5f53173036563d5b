(** Consequences: uniqueness, conservation, exhaustion, numbering. *)
From Coq Require Import List Arith Bool Reals Lra Lia ZArith String Permutation.
From Verif Require Import LocModel LocSpec LocProofs LocRunProofs.
Import ListNotations.
Local Open Scope R_scope.

(** ** Uniqueness *)
Lemma describes_unique : forall s i pl n c t t', well_formed s -> describes s i pl n c t -> describes s i pl n c t' -> t = t'.
Proof.
  intros s i pl n c t t' W (A & B & H & parts & P & F) (A' & B' & H' & parts' & P' & F'). destruct (hull_unique _ _ _ _ _ H H') as (L & U).
  assert (E : parts = parts').
  { clear - F F' W. revert parts' F'. induction F as [|xf part l parts (a & A & ->) F IH]; intros parts' F'; inversion F' as [|? ? ? ? (a' & A' & ->)]; subst; [reflexivity|]. f_equal; [|apply IH; assumption]. apply (amp_iff _ _ _ _ W) in A. apply (amp_iff _ _ _ _ W) in A'. assert (a = a') by congruence. subst. reflexivity. }
  destruct t as [t1 t2 t3 t4 t5], t' as [u1 u2 u3 u4 u5]. cbn in *. assert (t2 = u2) by lra. assert (t3 = u3) by lra. congruence.
Qed.
Lemma spent_no_choice : forall p pl ks c, spent p pl -> chooses p (snd pl) ks c -> False.
Proof.
  intros p pl ks c (x & X & E) (A & _). apply picks_iff in A. assert (I : In [] (map p (snd pl))) by (rewrite <- E; apply in_map; exact X). apply combos_nil in I. apply picks_combos in A. rewrite I in A. destruct A.
Qed.
Lemma place_unique : forall s i pl n p us p' q us2 q', well_formed s -> good_place pl -> at_place s i pl n p us p' -> at_place s i pl n q us2 q' -> (forall x, p x = q x) -> us = us2 /\ forall x, p' x = q' x.
Proof.
  intros s i pl n p us p' q us2 q' W (ND & TWO) H. assert (NE : snd pl <> []) by (destruct (snd pl); [cbn in TWO; lia|discriminate]).
  revert q us2 q'. induction H as [n p p' SP E|n p ks c p1 t us p' CH TK D H IH]; intros q us2 q' K EQ; inversion K as [n0 q0 q0' SP' E' |n0 q0 ks' c' q1 t' us' q0' CH' TK' D' H']; subst.
  - split; [reflexivity|]. intros x. rewrite E, E'. apply EQ.
  - exfalso. apply (spent_no_choice q pl ks' c'); [destruct SP as (x & X & Z); exists x; split; [exact X|rewrite <- EQ; exact Z]|exact CH'].
  - exfalso. apply (spent_no_choice p pl ks c); [destruct SP' as (x & X & Z); exists x; split; [exact X|rewrite EQ; exact Z]|exact CH].
  - destruct (choice_unique p q (snd pl) ks c ks' c' NE EQ CH CH') as (<- & <-). destruct (IH q1 us' q' H') as (-> & P); [intros x; exact (takes_unique _ _ _ _ _ _ _ EQ TK TK' x)|]. split; [|exact P]. f_equal. f_equal. exact (describes_unique _ _ _ _ _ _ _ W D D').
Qed.
Lemma history_unique : forall s i pls p us p' q us2 q', well_formed s -> Forall good_place pls -> history s i pls p us p' -> history s i pls q us2 q' -> (forall x, p x = q x) -> us = us2 /\ forall x, p' x = q' x.
Proof.
  intros s i pls p us p' q us2 q' W G H. revert q us2 q'. induction H as [p p' E|pl rest p us p1 us' p' A H IH]; intros q us2 q' K EQ.
  - inversion K; subst. split; [reflexivity|]. intros x. rewrite E, H. apply EQ.
  - inversion G; subst. inversion K as [|? ? ? vs q1 vs' ? A' H']; subst. destruct (place_unique _ _ _ _ _ _ _ _ _ _ W H2 A A' EQ) as (<- & P). destruct (IH H3 q1 vs' q' H' P) as (<- & Q). auto.
Qed.
Theorem traps_unique : forall s i p us us2 p' q', well_formed s -> history s i places p us p' -> history s i places p us2 q' -> us = us2 /\ forall x, p' x = q' x.
Proof. intros s i p us us2 p' q' W H K. apply (history_unique s i places p us p' p us2 q' W places_good H K). reflexivity. Qed.
Theorem order_free : forall order order' keys s s1 t1 s2 t2, well_formed s -> arranges order -> arranges order' -> locate order keys s = (s1, t1) -> locate order' keys s = (s2, t2) ->
  forall i l, traps_at t1 i l <-> traps_at t2 i l.
Proof.
  intros order order' keys s s1 t1 s2 t2 W AR AR' L1 L2 i l. destruct (four keys) eqn:F.
  - apply four_iff in F. destruct (locate_history _ _ _ _ _ W AR F L1) as (_ & N1 & H1). destruct (locate_history _ _ _ _ _ W AR' F L2) as (_ & N2 & H2).
    destruct (H1 i _ (px_pool s i W)) as (us & p' & A & B & _). destruct (H2 i _ (px_pool s i W)) as (us2 & q' & A2 & B2 & _). destruct (traps_unique _ _ _ _ _ _ _ W A A2) as (<- & _).
    apply (neat_iff _ _ _ N1) in B. apply (neat_iff _ _ _ N2) in B2. rewrite (neat_iff _ _ _ N1), (neat_iff _ _ _ N2), B, B2. reflexivity.
  - assert (NF : ~ all_four keys) by (intros H; apply four_iff in H; congruence). rewrite locate_not_four in L1, L2 by exact NF. injection L1 as _ <-. injection L2 as _ <-. reflexivity.
Qed.

(** ** Conservation *)
Lemma same_slot : forall x y : slot, (Nat.eqb (fst (fst x)) (fst (fst y)) && Bool.eqb (snd (fst x)) (snd (fst y)) && Nat.eqb (snd x) (snd y))%bool = true <-> x = y.
Proof. intros ((a, b), e) ((a', b'), e'). cbn. rewrite !andb_true_iff, !Nat.eqb_eq, eqb_true_iff. split; [intros ((-> & ->) & ->); reflexivity|intros E; injection E as -> -> ->; auto]. Qed.
Lemma role_absent : forall x xs c, ~ In x xs -> role x xs c = [].
Proof.
  intros x. induction xs as [|y xs IH]; intros [|f c] N; cbn [role]; try reflexivity. destruct (_ && _ && _)%bool eqn:E; [apply same_slot in E; subst; destruct N; left; reflexivity|]. apply IH. intros H. apply N. right. exact H.
Qed.
Lemma takes_role : forall p xs ks c p' x, NoDup xs -> takes p xs ks c p' -> Permutation (p x) (p' x ++ role x xs c).
Proof.
  intros p xs ks c p' x ND (F & O). destruct (in_dec slot_dec x xs) as [I|I]; [|rewrite (role_absent _ _ _ I), (O x I), app_nil_r; reflexivity]. clear O.
  revert ks c F. induction xs as [|y xs IH]; intros ks c F; [destruct I|]. destruct ks as [|k ks], c as [|f c]; cbn [combine] in F; try (inversion F; fail). apply Forall2_cons_iff in F. destruct F as ((l & l' & E & _ & E') & F). cbn [fst snd] in E, E'. inversion ND as [|? ? N1 N2]; subst. cbn [role].
  destruct (_ && _ && _)%bool eqn:Q.
  - apply same_slot in Q. subst y. rewrite (role_absent _ _ _ N1), E, E'. rewrite <- app_assoc. apply Permutation_app_head. apply Permutation_cons_append.
  - destruct I as [->|I]; [rewrite (proj2 (same_slot x x) eq_refl) in Q; discriminate Q|]. exact (IH N2 I ks c F).
Qed.
Lemma used_role : forall x pl u, In pl places -> t_sub (fst u) = fst pl -> used_in x u = role x (snd pl) (snd u).
Proof.
  intros x pl (t, c) I E. unfold used_in. change electrodes with places. cbn [fst snd] in *. rewrite E. clear E. unfold places in I. repeat (destruct I as [<-|I]; [cbn [flat_map places fst snd String.eqb Ascii.eqb Bool.eqb app]; rewrite ?app_nil_r; reflexivity|]). destruct I.
Qed.
Lemma place_conserves : forall s i pl n p us p' x, In pl places -> at_place s i pl n p us p' -> Permutation (p x) (p' x ++ used x us).
Proof.
  intros s i pl n p us p' x I H. assert (ND : NoDup (snd pl)) by (exact (proj1 (proj1 (Forall_forall _ _) places_good pl I))). induction H as [n p p' SP E|n p ks c p1 t us p' CH TK D H IH].
  - cbn. rewrite app_nil_r, E. reflexivity.
  - rewrite (takes_role _ _ _ _ _ x ND TK), IH. cbn [used flat_map]. rewrite (used_role x pl (t, c) I (proj1 D)). cbn [snd]. rewrite <- app_assoc. apply Permutation_app_head. apply Permutation_app_comm.
Qed.
Lemma used_app : forall x us us', used x (us ++ us') = used x us ++ used x us'.
Proof. intros x us us'. apply flat_map_app. Qed.
Lemma history_conserves : forall s i pls p us p' x, incl pls places -> history s i pls p us p' -> Permutation (p x) (p' x ++ used x us).
Proof.
  intros s i pls p us p' x I H. induction H as [p p' E|pl rest p us p1 us' p' A H IH]; [cbn; rewrite app_nil_r, E; reflexivity|].
  rewrite (place_conserves _ _ _ _ _ _ _ x (I pl (or_introl eq_refl)) A), IH by (intros y Y; apply I; right; exact Y). rewrite used_app, <- app_assoc. apply Permutation_app_head. apply Permutation_app_comm.
Qed.
Lemma place_spent : forall s i pl n p us p', at_place s i pl n p us p' -> spent p' pl.
Proof. intros s i pl n p us p' H. induction H as [n p p' (x & X & Z) E|]; [exists x; split; [exact X|rewrite E; exact Z]|assumption]. Qed.
Lemma history_spent : forall s i pls p us p', incl pls places -> history s i pls p us p' -> forall pl, In pl pls -> spent p' pl.
Proof.
  intros s i pls p us p' I H. induction H as [p p' E|pl rest p us p1 us' p' A H IH]; intros pl' J; [destruct J|].
  assert (IR : incl rest places) by (intros y Y; apply I; right; exact Y). destruct J as [<-|J]; [|exact (IH IR pl' J)]. destruct (place_spent _ _ _ _ _ _ _ A) as (x & X & Z). exists x. split; [exact X|].
  pose proof (history_conserves _ _ _ _ _ _ x IR H) as P. rewrite Z in P. apply Permutation_nil in P. apply app_eq_nil in P. tauto.
Qed.
Theorem conserved : forall s i p us p', history s i places p us p' -> (forall x, Permutation (p x) (p' x ++ used x us)) /\ forall pl, In pl places -> spent p' pl.
Proof. intros s i p us p' H. split; [intros x; exact (history_conserves _ _ _ _ _ _ x (incl_refl _) H)|exact (history_spent _ _ _ _ _ _ (incl_refl _) H)]. Qed.

(** ** Numbering *)
Lemma place_numbers : forall s i pl n p us p', at_place s i pl n p us p' -> (forall u, In u us -> t_sub (fst u) = fst pl) /\ map t_it (map fst us) = seq n (List.length us).
Proof.
  intros s i pl n p us p' H. induction H as [|n p ks c p1 t us p' CH TK D H (A & B)]; [split; [intros u []|reflexivity]|]. split; [intros u [<-|U]; [exact (proj1 D)|exact (A u U)]|]. cbn [map fst List.length seq]. rewrite B. f_equal. exact (proj1 (proj2 D)).
Qed.
Lemma filter_all : forall A (f : A -> bool) l, (forall x, In x l -> f x = true) -> filter f l = l.
Proof. intros A f l H. induction l as [|a l IH]; [reflexivity|]. cbn. rewrite (H a (or_introl eq_refl)), IH; [reflexivity|]. intros x X. apply H. right. exact X. Qed.
Lemma filter_no : forall A (f : A -> bool) l, (forall x, In x l -> f x = false) -> filter f l = [].
Proof. intros A f l H. induction l as [|a l IH]; [reflexivity|]. cbn. rewrite (H a (or_introl eq_refl)). apply IH. intros x X. apply H. right. exact X. Qed.
Lemma history_names : forall s i pls p us p', history s i pls p us p' -> forall u, In u us -> In (t_sub (fst u)) (map fst pls).
Proof.
  intros s i pls p us p' H. induction H as [|pl rest p us p1 us' p' A H IH]; intros u U; [destruct U|]. apply in_app_or in U. destruct U as [U|U]; [left; symmetry; exact (proj1 (place_numbers _ _ _ _ _ _ _ A) u U)|right; exact (IH u U)].
Qed.
Lemma history_numbers : forall s i pls p us p' sub, NoDup (map fst pls) -> history s i pls p us p' ->
  map t_it (filter (named sub) (map fst us)) = seq 0 (List.length (filter (named sub) (map fst us))).
Proof.
  intros s i pls p us p' sub ND H. induction H as [|pl rest p us p1 us' p' A H IH]; [reflexivity|]. cbn [map] in ND. inversion ND as [|? ? N1 N2]; subst. rewrite map_app, filter_app. destruct (place_numbers _ _ _ _ _ _ _ A) as (S & M).
  destruct (string_dec (fst pl) sub) as [<-|NE].
  - rewrite (filter_no _ _ (map fst us')); [rewrite app_nil_r|].
    + rewrite filter_all; [rewrite M, map_length; reflexivity|]. intros t T. apply in_map_iff in T. destruct T as (u & <- & U). apply String.eqb_eq. exact (S u U).
    + intros t T. apply in_map_iff in T. destruct T as (u & <- & U). apply String.eqb_neq. intros E. apply N1. rewrite <- E. exact (history_names _ _ _ _ _ _ H u U).
  - rewrite (filter_no _ _ (map fst us)); [exact (IH N2)|]. intros t T. apply in_map_iff in T. destruct T as (u & <- & U). apply String.eqb_neq. rewrite (S u U). exact NE.
Qed.
Lemma places_names : NoDup (map fst places).
Proof. unfold places. cbn [map fst]. repeat (apply NoDup_cons; [cbn; intuition discriminate|]). apply NoDup_nil. Qed.
Theorem numbered : forall order keys s s' t i l sub, well_formed s -> arranges order -> locate order keys s = (s', t) -> In (i, l) t ->
  l <> [] /\ map t_it (filter (named sub) l) = seq 0 (List.length (filter (named sub) l)).
Proof.
  intros order keys s s' t i l sub W AR L I. destruct (four keys) eqn:F.
  - apply four_iff in F. destruct (locate_history _ _ _ _ _ W AR F L) as (_ & N & H). split; [intros ->; exact (proj2 N i I)|]. destruct (H i _ (px_pool s i W)) as (us & p' & A & B & _).
    apply (neat_iff _ _ _ N) in B. assert (B' : tr_at t i = l) by (apply (neat_iff _ _ _ N); left; exact I). rewrite <- B', B. exact (history_numbers _ _ _ _ _ _ sub places_names A).
  - unfold locate in L. rewrite F in L. injection L as _ <-. destruct I.
Qed.
(** Each pixel once. *)
Theorem pixels_once : forall order keys s s' t, well_formed s -> arranges order -> locate order keys s = (s', t) -> NoDup (map fst t).
Proof.
  intros order keys s s' t W AR L. destruct (four keys) eqn:F; [apply four_iff in F; destruct (locate_history _ _ _ _ _ W AR F L) as (_ & N & _); exact (proj1 N)|]. unfold locate in L. rewrite F in L. injection L as _ <-. constructor.
Qed.

(** ** The count of what is left *)
Lemma bones_count : forall d d', map bones d' = map bones d -> count1 d' = count1 d.
Proof.
  induction d as [|(i, v) d IH]; intros [|(i', v') d'] E; try discriminate E; [reflexivity|]. unfold count1. cbn [fold_right snd]. fold (count1 d') (count1 d). cbn [map] in E. assert (E1 : bones (i', v') = bones (i, v)) by congruence. rewrite (IH d') by congruence. f_equal.
  unfold bones in E1. cbn [fst snd] in E1. assert (E2 : map fst (d_fits v') = map fst (d_fits v)) by congruence. apply (f_equal (@List.length nat)) in E2. rewrite !map_length in E2. exact E2.
Qed.
Lemma skeleton_unused : forall s s' keys, skeleton s s' -> unused keys s' = unused keys s.
Proof. intros s s' keys K. induction keys as [|k keys IH]; [reflexivity|]. unfold unused. cbn [fold_right]. fold (unused keys s') (unused keys s). rewrite IH, (bones_count _ _ (K k true)), (bones_count _ _ (K k false)). reflexivity. Qed.
Theorem count_blind : forall order keys s s' t, well_formed s -> arranges order -> locate order keys s = (s', t) -> unused keys s' = unused keys s.
Proof.
  intros order keys s s' t W AR L. apply skeleton_unused. destruct (four keys) eqn:F; unfold locate in L; rewrite F in L; [|injection L as <- _; apply skeleton_refl]. exact (proj1 (places_spec _ s _ _ _ _ _ W AR places_good (skeleton_refl s) L)).
Qed.
Theorem count_last : forall order ts last T keys s, well_formed s -> arranges order -> snd (all_temps order last (ts ++ [(T, (keys, s))])) = Some (unused keys s).
Proof.
  intros order ts last T keys s W AR. revert last. induction ts as [|(T', (keys', s')) ts IH]; intros last; cbn [app all_temps].
  - destruct (locate order keys s) as (s', tr) eqn:L. cbn [snd]. rewrite (count_blind _ _ _ _ _ W AR L). reflexivity.
  - destruct (locate order keys' s') as (s1, tr). specialize (IH (Some (unused keys' s1))). destruct (all_temps order (Some (unused keys' s1)) (ts ++ [(T, (keys, s))])) as (out, l). exact IH.
Qed.
Theorem temps_each : forall order ts last, fst (all_temps order last ts) = map (fun e => (fst e, snd (locate order (fst (snd e)) (snd (snd e))))) ts.
Proof.
  intros order ts. induction ts as [|(T, (keys, s)) ts IH]; intros last; cbn [all_temps map fst snd]; [reflexivity|]. destruct (locate order keys s) as (s', tr). specialize (IH (Some (unused keys s'))). destruct (all_temps order (Some (unused keys s')) ts) as (out, l). cbn [fst snd] in *. rewrite IH. reflexivity.
Qed.

(** ** An example *)
Definition fit_a : fit := mkfit 1 0 3 1.
Definition fit_b : fit := mkfit 1 0 4 1.
Definition fit_c : fit := mkfit 1 0 9 1.
Definition demo : schemes := fun sch up =>
  match sch, up with
  | 1%nat, false => [((0, 0)%Z, mkdip 7 [(1%nat, [fit_c; fit_a])])]
  | 3%nat, false => [((0, 0)%Z, mkdip 8 [(3%nat, [fit_b])])]
  | _, _ => []
  end.
Lemma demo_wf : well_formed demo.
Proof.
  intros sch up. unfold demo. destruct sch as [|[|[|[|k]]]]; destruct up; cbn [map fst]; (split; [repeat (apply NoDup_cons; [intros []|]); apply NoDup_nil|]); intros i d H; repeat (destruct H as [H|H]); try contradiction; injection H as <- <-; cbn; repeat (apply NoDup_cons; [intros []|]); apply NoDup_nil.
Qed.
Lemma width_ab : width [fit_a; fit_b] = 3.
Proof. unfold width, up, low, fit_a, fit_b. cbn. unfold Rmax, Rmin. destruct (Rle_dec (3 + 1) (4 + 1)), (Rle_dec (3 - 1) (4 - 1)); lra. Qed.
Lemma width_cb : width [fit_c; fit_b] = 7.
Proof. unfold width, up, low, fit_c, fit_b. cbn. unfold Rmax, Rmin. destruct (Rle_dec (9 + 1) (4 + 1)), (Rle_dec (9 - 1) (4 - 1)); lra. Qed.
Definition keep : string -> list coord -> list coord := fun _ l => l.
Lemma keep_arranges : arranges keep.
Proof. intros n l. apply Permutation_refl. Qed.
Lemma demo_match : matching "LHSel1" [7; 8] 1 0 [[fit_c; fit_a]; [fit_b]] = ([trap_of "LHSel1" [fit_a; fit_b] [7; 8] 0], [[fit_c]; []]).
Proof.
  cbn [matching combos flat_map map app best]. rewrite width_ab, width_cb. destruct (Rlt_dec 3 7) as [_|N]; [|lra]. cbn [combine map fst snd remove1].
  destruct (fit_eq_dec fit_b fit_b) as [_|N]; [|congruence]. destruct (fit_eq_dec fit_a fit_a) as [_|N]; [|congruence]. destruct (fit_eq_dec fit_a fit_c) as [E|_]; [unfold fit_a, fit_c in E; injection E as E; lra|]. reflexivity.
Qed.
Lemma demo_visit : forall t, visit ("LHSel1"%string, [(1, false, 1); (3, false, 3)]%nat) (demo, t) (0, 0)%Z
  = (put_all demo (0, 0)%Z [(1, false, 1); (3, false, 3)]%nat [[fit_c]; []], record_traps (0, 0)%Z [trap_of "LHSel1" [fit_a; fit_b] [7; 8] 0] t).
Proof.
  intros t. unfold visit. change (all_some (map (dip_at demo (0, 0)%Z) (snd ("LHSel1"%string, [(1, false, 1); (3, false, 3)]%nat)))) with (Some [mkdip 7 [(1%nat, [fit_c; fit_a])]; mkdip 8 [(3%nat, [fit_b])]]).
  change (all_some (map (fits_at demo (0, 0)%Z) (snd ("LHSel1"%string, [(1, false, 1); (3, false, 3)]%nat)))) with (Some [[fit_c; fit_a]; [fit_b]]). cbn [map d_amp iterations List.length Nat.min fst snd]. rewrite demo_match. reflexivity.
Qed.
Lemma demo_run : locate keep [1; 2; 3; 4]%nat demo = (put_all demo (0, 0)%Z [(1, false, 1); (3, false, 3)]%nat [[fit_c]; []], [((0, 0)%Z, [trap_of "LHSel1" [fit_a; fit_b] [7; 8] 0])]).
Proof.
  unfold locate. change (four [1; 2; 3; 4]%nat) with true. cbn [fold_left places].
  repeat match goal with |- context[locate1 keep (demo, []) ?p] => first [change (locate1 keep (demo, []) p) with (demo, @nil (coord * list trap))|fail 1] end.
  change (locate1 keep (demo, []) ("LHSel1"%string, [(1, false, 1); (3, false, 3)]%nat)) with (visit ("LHSel1"%string, [(1, false, 1); (3, false, 3)]%nat) (demo, []) (0, 0)%Z). rewrite demo_visit. reflexivity.
Qed.
(** All the fits are used, and two are counted. *)
Definition demo2 : schemes := fun sch up =>
  match sch, up with
  | 1%nat, false => [((0, 0)%Z, mkdip 7 [(1%nat, [fit_a])])]
  | 3%nat, false => [((0, 0)%Z, mkdip 8 [(3%nat, [fit_b])])]
  | _, _ => []
  end.
Lemma demo2_wf : well_formed demo2.
Proof.
  intros sch up. unfold demo2. destruct sch as [|[|[|[|k]]]]; destruct up; cbn [map fst]; (split; [repeat (apply NoDup_cons; [intros []|]); apply NoDup_nil|]); intros i d H; repeat (destruct H as [H|H]); try contradiction; injection H as <- <-; cbn; repeat (apply NoDup_cons; [intros []|]); apply NoDup_nil.
Qed.
Lemma demo2_match : matching "LHSel1" [7; 8] 1 0 [[fit_a]; [fit_b]] = ([trap_of "LHSel1" [fit_a; fit_b] [7; 8] 0], [[]; []]).
Proof.
  cbn [matching combos flat_map map app best combine fst snd remove1].
  destruct (fit_eq_dec fit_b fit_b) as [_|N]; [|congruence]. destruct (fit_eq_dec fit_a fit_a) as [_|N]; [|congruence]. reflexivity.
Qed.
Lemma demo2_visit : forall t, visit ("LHSel1"%string, [(1, false, 1); (3, false, 3)]%nat) (demo2, t) (0, 0)%Z
  = (put_all demo2 (0, 0)%Z [(1, false, 1); (3, false, 3)]%nat [[]; []], record_traps (0, 0)%Z [trap_of "LHSel1" [fit_a; fit_b] [7; 8] 0] t).
Proof.
  intros t. unfold visit. change (all_some (map (dip_at demo2 (0, 0)%Z) (snd ("LHSel1"%string, [(1, false, 1); (3, false, 3)]%nat)))) with (Some [mkdip 7 [(1%nat, [fit_a])]; mkdip 8 [(3%nat, [fit_b])]]).
  change (all_some (map (fits_at demo2 (0, 0)%Z) (snd ("LHSel1"%string, [(1, false, 1); (3, false, 3)]%nat)))) with (Some [[fit_a]; [fit_b]]). cbn [map d_amp iterations List.length Nat.min fst snd]. rewrite demo2_match. reflexivity.
Qed.
Lemma demo2_run : locate keep [1; 2; 3; 4]%nat demo2 = (put_all demo2 (0, 0)%Z [(1, false, 1); (3, false, 3)]%nat [[]; []], [((0, 0)%Z, [trap_of "LHSel1" [fit_a; fit_b] [7; 8] 0])]).
Proof.
  unfold locate. change (four [1; 2; 3; 4]%nat) with true. cbn [fold_left places].
  repeat match goal with |- context[locate1 keep (demo2, []) ?p] => first [change (locate1 keep (demo2, []) p) with (demo2, @nil (coord * list trap))|fail 1] end.
  change (locate1 keep (demo2, []) ("LHSel1"%string, [(1, false, 1); (3, false, 3)]%nat)) with (visit ("LHSel1"%string, [(1, false, 1); (3, false, 3)]%nat) (demo2, []) (0, 0)%Z). rewrite demo2_visit. reflexivity.
Qed.
Lemma demo2_empty : forall i x l, lists (put_all demo2 (0, 0)%Z [(1, false, 1); (3, false, 3)]%nat [[]; []]) i x l -> l = [].
Proof.
  intros i ((sch, up), q) l (d & A & B). cbn [fst snd] in A, B.
  destruct sch as [|[|[|[|k]]]]; destruct up; cbn in A; try contradiction; destruct A as [A|[]]; injection A as <- <-; cbn in B; destruct B as [B|[]]; congruence.
Qed.
Theorem count_wrong : exists keys s s' t, well_formed s /\ all_four keys /\ locate keep keys s = (s', t) /\ (forall i x l, lists s' i x l -> l = []) /\ unused keys s' = 2%nat.
Proof.
  exists [1; 2; 3; 4]%nat, demo2. eexists. eexists. split; [exact demo2_wf|]. split; [intros k; cbn; lia|]. split; [exact demo2_run|]. split; [exact demo2_empty|reflexivity].
Qed.
