(** Proofs about the location of all the traps of a temperature. *)
From Coq Require Import List Arith Bool Reals Lra Lia ZArith String Permutation.
From Verif Require Import LocModel LocSpec LocProofs.
Import ListNotations.
Local Open Scope R_scope.

(** ** Dictionaries *)
Lemma coord_eqb_iff : forall a b, coord_eqb a b = true <-> a = b.
Proof. intros (a, b) (a', b'). unfold coord_eqb. cbn. rewrite andb_true_iff, !Z.eqb_eq. split; [intros (-> & ->); reflexivity|intros E; injection E as -> ->; auto]. Qed.
Lemma coord_eqb_refl : forall a, coord_eqb a a = true.
Proof. intros a. apply coord_eqb_iff. reflexivity. Qed.
Lemma coord_eqb_neq : forall a b, a <> b -> coord_eqb a b = false.
Proof. intros a b N. destruct (coord_eqb a b) eqn:E; [apply coord_eqb_iff in E; congruence|reflexivity]. Qed.
Lemma coord_dec : forall a b : coord, {a = b} + {a <> b}.
Proof. decide equality; apply Z.eq_dec. Qed.
Lemma slot_dec : forall a b : slot, {a = b} + {a <> b}.
Proof. repeat decide equality. Qed.
Lemma at_coord_in : forall A (d : list (coord * A)) i v, at_coord i d = Some v -> In (i, v) d.
Proof. intros A d i v. induction d as [|(i', v') d IH]; cbn [at_coord]; [discriminate|]. destruct (coord_eqb i i') eqn:E; [apply coord_eqb_iff in E; subst; intros H; injection H as ->; left; reflexivity|intros H; right; exact (IH H)]. Qed.
Lemma in_at_coord : forall A (d : list (coord * A)) i v, NoDup (map fst d) -> In (i, v) d -> at_coord i d = Some v.
Proof.
  intros A d i v. induction d as [|(i', v') d IH]; intros N I; [destruct I|]. cbn [map fst] in N. inversion N as [|? ? N1 N2]; subst. cbn [at_coord]. destruct I as [I|I]; [injection I as -> ->; rewrite coord_eqb_refl; reflexivity|].
  rewrite coord_eqb_neq; [exact (IH N2 I)|]. intros ->. apply N1. exact (in_map fst _ _ I).
Qed.
Lemma at_coord_none : forall A (d : list (coord * A)) i, at_coord i d = None <-> ~ In i (map fst d).
Proof.
  intros A d i. induction d as [|(i', v') d IH]; cbn [at_coord map fst]; [split; [intros _ []|reflexivity]|]. destruct (coord_eqb i i') eqn:E; [apply coord_eqb_iff in E; subst; split; [discriminate|intros H; destruct H; left; reflexivity]|]. rewrite IH. split; [intros H [->|K]; [rewrite coord_eqb_refl in E; discriminate E|exact (H K)]|intros H K; apply H; right; exact K].
Qed.
Lemma at_prob_in : forall d p l, at_prob p d = Some l -> In (p, l) d.
Proof. intros d p l. induction d as [|(p', l') d IH]; cbn [at_prob]; [discriminate|]. destruct (Nat.eqb p p') eqn:E; [apply Nat.eqb_eq in E; subst; intros H; injection H as ->; left; reflexivity|intros H; right; exact (IH H)]. Qed.
Lemma in_at_prob : forall d p l, NoDup (map fst d) -> In (p, l) d -> at_prob p d = Some l.
Proof.
  intros d p l. induction d as [|(p', l') d IH]; intros N I; [destruct I|]. cbn [map fst] in N. inversion N as [|? ? N1 N2]; subst. cbn [at_prob]. destruct I as [I|I]; [injection I as -> ->; rewrite Nat.eqb_refl; reflexivity|].
  destruct (Nat.eqb p p') eqn:E; [|exact (IH N2 I)]. apply Nat.eqb_eq in E. subst. destruct N1. exact (in_map fst _ _ I).
Qed.
Lemma at_alter_same : forall A (f : A -> A) d i v, at_coord i d = Some v -> at_coord i (alter_coord i f d) = Some (f v).
Proof. intros A f d i v. induction d as [|(i', v') d IH]; cbn [at_coord alter_coord]; [discriminate|]. destruct (coord_eqb i i') eqn:E; intros H; cbn [at_coord]; rewrite E; [congruence|exact (IH H)]. Qed.
Lemma at_alter_other : forall A (f : A -> A) d i j, i <> j -> at_coord j (alter_coord i f d) = at_coord j d.
Proof.
  intros A f d i j N. induction d as [|(i', v') d IH]; cbn [at_coord alter_coord]; [reflexivity|]. destruct (coord_eqb i i') eqn:E; cbn [at_coord].
  - apply coord_eqb_iff in E. subst. rewrite (coord_eqb_neq j i') by congruence. reflexivity.
  - destruct (coord_eqb j i'); [reflexivity|exact IH].
Qed.
Lemma at_set_same : forall d p l l0, at_prob p d = Some l0 -> at_prob p (set_prob p l d) = Some l.
Proof. intros d p l l0. induction d as [|(p', l') d IH]; cbn [at_prob set_prob]; [discriminate|]. destruct (Nat.eqb p p') eqn:E; intros H; cbn [at_prob]; rewrite E; [reflexivity|exact (IH H)]. Qed.
Lemma at_set_other : forall d p q l, p <> q -> at_prob q (set_prob p l d) = at_prob q d.
Proof.
  intros d p q l N. induction d as [|(p', l') d IH]; cbn [at_prob set_prob]; [reflexivity|]. destruct (Nat.eqb p p') eqn:E; cbn [at_prob].
  - apply Nat.eqb_eq in E. subst. destruct (Nat.eqb q p') eqn:E'; [apply Nat.eqb_eq in E'; congruence|reflexivity].
  - destruct (Nat.eqb q p'); [reflexivity|exact IH].
Qed.
Lemma set_keys : forall d p l, map fst (set_prob p l d) = map fst d.
Proof. intros d p l. induction d as [|(p', l') d IH]; cbn [set_prob]; [reflexivity|]. destruct (Nat.eqb p p'); cbn [map fst]; [reflexivity|f_equal; exact IH]. Qed.

(** ** What does not change *)
Definition bones (q : coord * dip) : coord * (R * list nat) := (fst q, (d_amp (snd q), map fst (d_fits (snd q)))).
Definition skeleton (s s' : schemes) : Prop := forall sch up, map bones (s' sch up) = map bones (s sch up).
Lemma skeleton_refl : forall s, skeleton s s.
Proof. intros s sch up. reflexivity. Qed.
Lemma skeleton_trans : forall a b c, skeleton a b -> skeleton b c -> skeleton a c.
Proof. intros a b c H K sch up. rewrite K. apply H. Qed.
Lemma put_skeleton : forall s i x l, skeleton s (put_fits s i x l).
Proof.
  intros s i x l sch up. unfold put_fits. destruct (_ && _)%bool; [|reflexivity]. generalize (s sch up) as d. induction d as [|(i', v) d IH]; cbn [alter_coord]; [reflexivity|].
  destruct (coord_eqb i i'); cbn [map]; [|f_equal; exact IH]. f_equal. unfold bones. cbn [fst snd d_amp d_fits]. rewrite set_keys. reflexivity.
Qed.
Lemma put_all_skeleton : forall xs ls s i, skeleton s (put_all s i xs ls).
Proof.
  intros xs ls s i. unfold put_all. revert s. generalize (combine xs ls) as q. induction q as [|(x, l) q IH]; intros s; cbn [fold_left]; [apply skeleton_refl|]. eapply skeleton_trans; [apply (put_skeleton s i x l)|apply IH].
Qed.
Lemma bones_keys : forall d d', map bones d' = map bones d -> map fst d' = map fst d.
Proof. intros d d' H. apply (f_equal (map fst)) in H. rewrite !map_map in H. exact H. Qed.
Lemma at_bones : forall i d, at_coord i (map bones d) = option_map (fun v => (d_amp v, map fst (d_fits v))) (at_coord i d).
Proof. intros i d. induction d as [|(i', v) d IH]; [reflexivity|]. cbn [map at_coord]. unfold bones at 1. cbn [fst snd at_coord]. destruct (coord_eqb i i'); [reflexivity|exact IH]. Qed.
Lemma skeleton_dip : forall s s' i x, skeleton s s' -> option_map (fun v => (d_amp v, map fst (d_fits v))) (dip_at s' i x) = option_map (fun v => (d_amp v, map fst (d_fits v))) (dip_at s i x).
Proof. intros s s' i x K. unfold dip_at. rewrite <- !at_bones, K. reflexivity. Qed.
Lemma skeleton_wf : forall s s', skeleton s s' -> well_formed s -> well_formed s'.
Proof.
  intros s s' K W sch up. destruct (W sch up) as (N & M). split; [rewrite (bones_keys _ _ (K sch up)); exact N|].
  intros i d I. pose proof (in_map bones _ _ I) as J. rewrite K in J. apply in_map_iff in J. destruct J as ((i0, d0) & E & J). unfold bones in E. cbn [fst snd] in E. assert (E' : map fst (d_fits d0) = map fst (d_fits d)) by congruence. rewrite <- E'. exact (M _ _ J).
Qed.

(** ** The pool of a pixel *)
Definition px (s : schemes) (i : coord) : pool := fun x => match fits_at s i x with Some l => l | None => [] end.
Lemma lists_iff : forall s i x l, well_formed s -> (lists s i x l <-> fits_at s i x = Some l).
Proof.
  intros s i x l W. unfold lists, fits_at, dip_at. destruct (W (fst (fst x)) (snd (fst x))) as (N & M). split.
  - intros (d & A & B). rewrite (in_at_coord _ _ _ _ N A). apply in_at_prob; [exact (M _ _ A)|exact B].
  - destruct (at_coord i _) as [d|] eqn:E; [|discriminate]. intros H. exists d. split; [exact (at_coord_in _ _ _ _ E)|exact (at_prob_in _ _ _ H)].
Qed.
Lemma px_pool : forall s i, well_formed s -> pool_of s i (px s i).
Proof.
  intros s i W x. unfold px. destruct (fits_at s i x) as [l|] eqn:E; [left; apply lists_iff; assumption|right]. split; [|reflexivity]. intros l H. apply (lists_iff _ _ _ _ W) in H. congruence.
Qed.
Lemma pool_px : forall s i p, well_formed s -> pool_of s i p -> forall x, p x = px s i x.
Proof.
  intros s i p W H x. unfold px. destruct (H x) as [L|(N & E)]; [apply (lists_iff _ _ _ _ W) in L; rewrite L; reflexivity|]. destruct (fits_at s i x) as [l|] eqn:F; [|exact E]. destruct (N l). apply lists_iff; assumption.
Qed.
Lemma amp_iff : forall s i x a, well_formed s -> (amp_of s i x a <-> option_map d_amp (dip_at s i x) = Some a).
Proof.
  intros s i x a W. unfold amp_of, dip_at. destruct (W (fst (fst x)) (snd (fst x))) as (N & _). split.
  - intros (d & A & <-). rewrite (in_at_coord _ _ _ _ N A). reflexivity.
  - destruct (at_coord i _) as [d|] eqn:E; [|discriminate]. intros H. injection H as <-. exists d. split; [exact (at_coord_in _ _ _ _ E)|reflexivity].
Qed.
Lemma skeleton_amp : forall s s' i x, skeleton s s' -> option_map d_amp (dip_at s' i x) = option_map d_amp (dip_at s i x).
Proof. intros s s' i x K. pose proof (skeleton_dip _ _ i x K) as H. destruct (dip_at s' i x), (dip_at s i x); cbn in *; congruence. Qed.

Lemma side_eqb : forall (x : slot) sch up, (Nat.eqb sch (fst (fst x)) && Bool.eqb up (snd (fst x)))%bool = true <-> (sch, up) = fst x.
Proof. intros ((a, b), q) sch up. cbn. rewrite andb_true_iff, Nat.eqb_eq, eqb_true_iff. split; [intros (-> & ->); reflexivity|intros E; injection E as -> ->; auto]. Qed.
Lemma put_other : forall s i x l j y, i <> j -> fits_at (put_fits s i x l) j y = fits_at s j y.
Proof. intros s i x l j y N. unfold fits_at, dip_at, put_fits. destruct (_ && _)%bool; [rewrite at_alter_other by exact N|]; reflexivity. Qed.
Lemma put_same : forall s i x l l0 y, fits_at s i x = Some l0 -> fits_at (put_fits s i x l) i y = if slot_dec y x then Some l else fits_at s i y.
Proof.
  intros s i x l l0 y F. unfold fits_at, dip_at in F |- *. unfold put_fits. destruct ((Nat.eqb (fst (fst y)) (fst (fst x)) && Bool.eqb (snd (fst y)) (snd (fst x)))%bool) eqn:S.
  - apply side_eqb in S. assert (S' : fst y = fst x) by (rewrite <- S; destruct y as ((? & ?) & ?); reflexivity). rewrite S'. destruct (at_coord i (s (fst (fst x)) (snd (fst x)))) as [d|] eqn:D; [|discriminate F].
    rewrite (at_alter_same _ _ _ _ _ D). cbn [d_fits]. destruct (slot_dec y x) as [->|N]; [exact (at_set_same _ _ _ _ F)|]. apply at_set_other. intros Q. apply N. destruct x as (? & ?), y as (? & ?). cbn in *. congruence.
  - destruct (slot_dec y x) as [->|N]; [|reflexivity]. exfalso. assert (T : (Nat.eqb (fst (fst x)) (fst (fst x)) && Bool.eqb (snd (fst x)) (snd (fst x)))%bool = true) by (apply side_eqb; destruct x as ((? & ?) & ?); reflexivity). congruence.
Qed.
Lemma put_all_other : forall xs ls s i j y, i <> j -> fits_at (put_all s i xs ls) j y = fits_at s j y.
Proof.
  intros xs ls s i j y N. unfold put_all. revert s. generalize (combine xs ls) as q. induction q as [|(x, l) q IH]; intros s; cbn [fold_left fst snd]; [reflexivity|]. rewrite IH. apply put_other. exact N.
Qed.
Lemma put_all_same : forall xs ls s i, NoDup xs -> List.length xs = List.length ls -> (forall x, In x xs -> exists l, fits_at s i x = Some l) ->
  map (px (put_all s i xs ls) i) xs = ls /\ forall y, ~ In y xs -> px (put_all s i xs ls) i y = px s i y.
Proof.
  induction xs as [|x xs IH]; intros [|l ls] s i N L E; try discriminate L; [split; reflexivity|]. unfold put_all. cbn [combine fold_left fst snd]. fold (put_all (put_fits s i x l) i xs ls). inversion N as [|? ? N1 N2]; subst.
  destruct (E x (or_introl eq_refl)) as (l0 & E0). destruct (IH ls (put_fits s i x l) i N2) as (A & B).
  - cbn in L. lia.
  - intros z Z. rewrite (put_same _ _ _ _ _ z E0). destruct (slot_dec z x); [eexists; reflexivity|]. apply E. right. exact Z.
  - split.
    + cbn [map]. rewrite A. f_equal. rewrite (B x N1). unfold px. rewrite (put_same _ _ _ _ _ x E0). destruct (slot_dec x x); [reflexivity|congruence].
    + intros y Y. rewrite B by (intros H; apply Y; right; exact H). unfold px. rewrite (put_same _ _ _ _ _ y E0). destruct (slot_dec y x) as [->|]; [destruct Y; left; reflexivity|reflexivity].
Qed.

(** ** One place, one pixel *)
Lemma place_ext : forall s i pl n p us p' q q', at_place s i pl n p us p' -> (forall x, p x = q x) -> (forall x, p' x = q' x) -> at_place s i pl n q us q'.
Proof.
  intros s i pl n p us p' q q' H. revert q q'. induction H as [n p p' SP E|n p ks c p1 t us p' CH TK D H IH]; intros q q' Q Q'.
  - constructor; [destruct SP as (x & X & P); exists x; split; [exact X|rewrite <- Q; exact P]|intros x; rewrite <- Q, <- Q'; apply E].
  - apply (place_next _ _ _ _ _ ks c p1); [| |exact D|exact (IH p1 q' (fun x => eq_refl) Q')].
    + destruct CH as (A & M). assert (T : forall zs ds, at_positions q (snd pl) zs ds <-> at_positions p (snd pl) zs ds) by (intros zs ds; rewrite !picks_iff, (map_ext _ _ Q); reflexivity). split; [apply T; exact A|]. intros ks' c' lo hi lo' hi' A'. apply M. apply T. exact A'.
    + destruct TK as (F & O). split; [|intros x X; rewrite (O x X); apply Q]. clear - F Q. revert F. generalize (combine ks c) as kc. generalize (snd pl) as xs. induction xs as [|x xs IH]; intros kc F; inversion F; subst; constructor; [|apply IH; assumption].
      destruct H1 as (m & m' & X). exists m, m'. rewrite <- Q. exact X.
Qed.
Definition upd (p : pool) (xs : list slot) (ls : list (list fit)) : pool :=
  fold_left (fun p q => fun y => if slot_dec y (fst q) then snd q else p y) (combine xs ls) p.
Lemma upd_spec : forall xs ls p, NoDup xs -> List.length xs = List.length ls -> map (upd p xs ls) xs = ls /\ forall y, ~ In y xs -> upd p xs ls y = p y.
Proof.
  induction xs as [|x xs IH]; intros [|l ls] p N L; try discriminate L; [split; reflexivity|]. unfold upd. cbn [combine fold_left fst snd]. fold (upd (fun y => if slot_dec y x then l else p y) xs ls). inversion N as [|? ? N1 N2]; subst.
  destruct (IH ls (fun y => if slot_dec y x then l else p y) N2) as (A & B); [cbn in L; lia|]. split.
  - cbn [map]. rewrite A, (B x N1). destruct (slot_dec x x); [reflexivity|congruence].
  - intros y Y. rewrite B by (intros H; apply Y; right; exact H). destruct (slot_dec y x) as [->|]; [destruct Y; left; reflexivity|reflexivity].
Qed.
Lemma matching_spent : forall n name amps it ls, In [] ls -> matching name amps n it ls = ([], ls).
Proof. induction n as [|n IH]; intros name amps it ls I; [reflexivity|]. cbn [matching]. rewrite (proj2 (best_none _) (proj2 (combos_nil ls) I)). apply IH. exact I. Qed.
Lemma trap_describes : forall s i pl n c amps, c <> [] -> List.length c = List.length (snd pl) -> Forall2 (amp_of s i) (snd pl) amps -> describes s i pl n c (trap_of (fst pl) c amps n).
Proof.
  intros s i pl n c amps NE L A. unfold describes, trap_of. cbn [t_sub t_it t_tau t_sig t_cap]. split; [reflexivity|]. split; [reflexivity|]. split.
  - pose proof (hull_model c NE) as H. replace ((up c + low c) / 2 - (up c - (up c + low c) / 2)) with (low c) by field. replace ((up c + low c) / 2 + (up c - (up c + low c) / 2)) with (up c) by field. exact H.
  - unfold caps. exists (map (fun p => [x_cap (fst p); x_cap_err (fst p); snd p]) (combine c amps)). split; [apply flat_map_concat_map|].
    clear NE. revert c L. induction A as [|x a xs amps X A IH]; intros [|f c] L; try discriminate L; [constructor|]. cbn [combine map fst snd]. constructor; [exists a; auto|apply IH; cbn in L; lia].
Qed.
Lemma iterations_gone : forall ls ks c ls', gone ls ks c ls' -> iterations ls = S (iterations ls') \/ (List.length ls < 2)%nat.
Proof.
  intros ls ks c ls' G. pose proof (gone_lengths _ _ _ _ G) as L. destruct ls as [|a [|b ls]]; [right; cbn; lia|right; cbn; lia|left]. destruct ls' as [|a' [|b' ls']]; cbn [map] in L; try discriminate L. cbn [iterations]. injection L as A B _. rewrite A, B. reflexivity.
Qed.
Lemma matching_place : forall s i pl amps, NoDup (snd pl) -> (2 <= List.length (snd pl))%nat -> Forall2 (amp_of s i) (snd pl) amps ->
  forall n it p ts ls', iterations (map p (snd pl)) = n -> matching (fst pl) amps n it (map p (snd pl)) = (ts, ls') ->
  List.length ls' = List.length (snd pl) /\ exists us, map fst us = ts /\ at_place s i pl it p us (upd p (snd pl) ls').
Proof.
  intros s i pl amps ND TWO AM. assert (NE : snd pl <> []) by (destruct (snd pl); [cbn in TWO; lia|discriminate]).
  assert (DONE : forall it p, In [] (map p (snd pl)) -> at_place s i pl it p [] (upd p (snd pl) (map p (snd pl)))).
  { intros it p I. constructor; [apply in_map_iff in I; destruct I as (x & E & X); exists x; auto|]. intros x. destruct (upd_spec (snd pl) (map p (snd pl)) p ND) as (A & B); [rewrite map_length; reflexivity|].
    destruct (in_dec slot_dec x (snd pl)) as [X|X]; [|exact (B x X)]. exact (ext_in_map A x X). }
  induction n as [|n IH]; intros it p ts ls' N M; cbn [matching] in M.
  - assert (E : ts = [] /\ ls' = map p (snd pl)) by (split; congruence). destruct E as (-> & ->). split; [apply map_length|]. exists []. split; [reflexivity|]. apply DONE.
    destruct (snd pl) as [|x [|y xs]]; [cbn in TWO; lia|cbn in TWO; lia|]. cbn [map iterations] in N. cbn [map]. destruct (p x); [left; reflexivity|]. destruct (p y); [right; left; reflexivity|cbn in N; discriminate N].
  - destruct (best None (combos (map p (snd pl)))) as [c|] eqn:BB.
    + destruct (choice_model p (snd pl) c NE BB) as (ks & CH & G). set (l1 := map (fun q => remove1 (fst q) (snd q)) (combine c (map p (snd pl)))) in *.
      destruct (matching (fst pl) amps n (S it) l1) as (ts1, out) eqn:M1. assert (E : ts = trap_of (fst pl) c amps it :: ts1 /\ ls' = out) by (split; congruence). destruct E as (-> & ->).
      assert (LL : List.length (snd pl) = List.length l1). { pose proof (gone_lengths _ _ _ _ G) as L. apply (f_equal (@List.length nat)) in L. rewrite !map_length in L. exact L. }
      destruct (upd_spec (snd pl) l1 p ND LL) as (A & B). destruct (IH (S it) (upd p (snd pl) l1) ts1 out) as (L1 & us & U & H).
      * rewrite A. destruct (iterations_gone _ _ _ _ G) as [X|X]; [lia|rewrite map_length in X; lia].
      * rewrite A. exact M1.
      * split; [exact L1|]. exists ((trap_of (fst pl) c amps it, c) :: us). split; [cbn [map fst]; f_equal; exact U|]. pose proof (picks_length _ _ _ (proj1 (picks_iff _ _ _ _) (proj1 CH))) as (LC & _). rewrite map_length in LC.
        apply (place_next _ _ _ _ _ ks c (upd p (snd pl) l1)); [exact CH|exact (gone_takes _ _ _ _ _ _ _ ND G eq_refl A B)| |].
        -- apply trap_describes; [intros ->; destruct (snd pl); [congruence|discriminate LC]|exact LC|exact AM].
        -- eapply place_ext; [exact H|reflexivity|]. intros x. destruct (upd_spec (snd pl) out (upd p (snd pl) l1) ND) as (A1 & B1); [congruence|]. destruct (upd_spec (snd pl) out p ND) as (A2 & B2); [congruence|].
           destruct (in_dec slot_dec x (snd pl)) as [X|X]; [exact (ext_in_map (eq_trans A1 (eq_sym A2)) x X)|]. rewrite (B1 x X), (B2 x X). exact (B x X).
    + apply best_none, combos_nil in BB. rewrite matching_spent in M by exact BB. assert (E : ts = [] /\ ls' = map p (snd pl)) by (split; congruence). destruct E as (-> & ->). split; [apply map_length|]. exists []. split; [reflexivity|]. apply DONE. exact BB.
Qed.

(** ** One place, all pixels *)
Definition tr_at (t : traps) (i : coord) : list trap := match at_coord i t with Some l => l | None => [] end.
Lemma extend_at : forall t i new j, tr_at (extend i new t) j = if coord_dec j i then tr_at t i ++ new else tr_at t j.
Proof.
  intros t i new j. unfold tr_at. induction t as [|(i', l) t IH]; cbn [extend at_coord].
  - destruct (coord_dec j i) as [->|N]; [rewrite coord_eqb_refl; reflexivity|rewrite (coord_eqb_neq j i N); reflexivity].
  - destruct (coord_eqb i i') eqn:E; cbn [at_coord].
    + apply coord_eqb_iff in E. subst i'. destruct (coord_dec j i) as [->|N]; [rewrite coord_eqb_refl; reflexivity|rewrite (coord_eqb_neq j i N); reflexivity].
    + destruct (coord_eqb j i') eqn:E'; [|exact IH]. apply coord_eqb_iff in E'. subst i'. destruct (coord_dec j i) as [->|N]; [rewrite coord_eqb_refl in E; discriminate E|reflexivity].
Qed.
Lemma record_at : forall t i new j, tr_at (record_traps i new t) j = if coord_dec j i then tr_at t i ++ new else tr_at t j.
Proof. intros t i [|x new] j; cbn [record_traps]; [|apply extend_at]. destruct (coord_dec j i) as [->|]; [symmetry; apply app_nil_r|reflexivity]. Qed.
Lemma extend_keys : forall t i new k, In k (map fst (extend i new t)) -> k = i \/ In k (map fst t).
Proof.
  induction t as [|(i', l) t IH]; intros i new k; cbn [extend map fst]; [intros [<-|[]]; left; reflexivity|]. destruct (coord_eqb i i'); cbn [map fst]; [right; assumption|]. intros [<-|H]; [right; left; reflexivity|]. destruct (IH i new k H); [left; assumption|right; right; assumption].
Qed.
Lemma record_neat : forall t i new, neat t -> neat (record_traps i new t).
Proof.
  intros t i [|x new] N; cbn [record_traps]; [exact N|]. destruct N as (N & E). split.
  - induction t as [|(i', l) t IH]; cbn [extend map fst]; [constructor; [intros []|constructor]|]. cbn [map fst] in N. inversion N as [|? ? N1 N2]; subst. destruct (coord_eqb i i') eqn:Q; cbn [map fst]; constructor; [exact N1|exact N2| |apply IH; [exact N2|intros j J; apply (E j); right; exact J]].
    intros H. apply extend_keys in H. destruct H as [->|H]; [rewrite coord_eqb_refl in Q; discriminate Q|exact (N1 H)].
  - intros j J. induction t as [|(i', l) t IH]; cbn [extend] in J; [destruct J as [J|[]]; discriminate J|]. cbn [map fst] in N. inversion N as [|? ? N1 N2]; subst. destruct (coord_eqb i i'); destruct J as [J|J].
    + injection J as <- J. destruct l; discriminate J.
    + apply (E j). right. exact J.
    + apply (E j). left. exact J.
    + apply IH; [exact N2|intros k K; apply (E k); right; exact K|exact J].
Qed.
Lemma neat_iff : forall t i l, neat t -> (traps_at t i l <-> tr_at t i = l).
Proof.
  intros t i l (N & E). unfold traps_at, tr_at. split.
  - intros [I|(H & ->)]; [rewrite (in_at_coord _ _ _ _ N I); reflexivity|]. destruct (at_coord i t) as [l|] eqn:A; [|reflexivity]. destruct (H l). exact (at_coord_in _ _ _ _ A).
  - destruct (at_coord i t) as [l'|] eqn:A; intros <-; [left; exact (at_coord_in _ _ _ _ A)|right]. split; [|reflexivity]. intros l' I. rewrite (in_at_coord _ _ _ _ N I) in A. discriminate A.
Qed.
Lemma all_some_none : forall A (l : list (option A)), all_some l = None <-> In None l.
Proof.
  intros A l. induction l as [|[x|] l IH]; cbn [all_some]; [split; [discriminate|intros []]| |split; [left; reflexivity|reflexivity]].
  destruct (all_some l); split; intros H; try discriminate H.
  - destruct H as [H|H]; [discriminate H|]. apply IH in H. discriminate H.
  - right. apply IH. reflexivity.
  - reflexivity.
Qed.
Lemma all_some_ok : forall A (l : list (option A)) r, all_some l = Some r -> l = map Some r.
Proof. intros A l. induction l as [|[x|] l IH]; intros r H; cbn [all_some] in H; [injection H as <-; reflexivity| |discriminate H]. destruct (all_some l) as [r'|]; [|discriminate H]. injection H as <-. cbn. f_equal. apply IH. reflexivity. Qed.

Definition good_place (pl : place) : Prop := NoDup (snd pl) /\ (2 <= List.length (snd pl))%nat.
Lemma places_good : Forall good_place places.
Proof.
  unfold places. repeat (apply Forall_cons; [split; cbn [snd List.length]; [repeat (apply NoDup_cons; [cbn; intuition discriminate|]); apply NoDup_nil|lia]|]). apply Forall_nil.
Qed.
Lemma visit_same : forall s0 pl s t i s' t', well_formed s0 -> good_place pl -> skeleton s0 s -> visit pl (s, t) i = (s', t') ->
  exists us, at_place s0 i pl 0 (px s i) us (px s' i) /\ tr_at t' i = tr_at t i ++ map fst us.
Proof.
  intros s0 pl s t i s' t' W (ND & TWO) K V. unfold visit in V.
  assert (DONE : (exists x, In x (snd pl) /\ fits_at s i x = None) -> (s, t) = (s', t') -> exists us, at_place s0 i pl 0 (px s i) us (px s' i) /\ tr_at t' i = tr_at t i ++ map fst us).
  { intros (x & X & F) E. injection E as <- <-. exists []. split; [|symmetry; apply app_nil_r]. constructor; [|reflexivity]. exists x. split; [exact X|]. unfold px. rewrite F. reflexivity. }
  destruct (all_some (map (dip_at s i) (snd pl))) as [ds|] eqn:DS.
  2: { apply DONE; [|exact V]. apply all_some_none, in_map_iff in DS. destruct DS as (x & E & X). exists x. split; [exact X|]. unfold fits_at. rewrite E. reflexivity. }
  destruct (all_some (map (fits_at s i) (snd pl))) as [ls|] eqn:LS.
  2: { apply DONE; [|exact V]. apply all_some_none, in_map_iff in LS. destruct LS as (x & E & X). exists x. auto. }
  apply all_some_ok in DS. apply all_some_ok in LS. destruct (matching (fst pl) (map d_amp ds) (iterations ls) 0 ls) as (new, ls') eqn:M. injection V as <- <-.
  assert (PX : map (px s i) (snd pl) = ls).
  { clear - LS. revert ls LS. induction (snd pl) as [|x xs IH]; intros [|l ls] LS; try discriminate LS; [reflexivity|]. cbn [map] in LS. injection LS as A B. cbn [map]. rewrite (IH ls B). unfold px. rewrite A. reflexivity. }
  assert (AM : Forall2 (amp_of s0 i) (snd pl) (map d_amp ds)).
  { clear - DS W K. revert ds DS. induction (snd pl) as [|x xs IH]; intros [|d ds] DS; try discriminate DS; [constructor|]. cbn [map] in DS |- *. injection DS as A B. constructor; [|exact (IH ds B)]. apply (amp_iff _ _ _ _ W). rewrite <- (skeleton_amp _ _ i x K), A. reflexivity. }
  rewrite <- PX in M. destruct (matching_place s0 i pl _ ND TWO AM _ 0%nat (px s i) new ls' eq_refl M) as (L & us & U & H).
  exists us. split; [|rewrite record_at; destruct (coord_dec i i); [congruence|congruence]].
  eapply place_ext; [exact H|reflexivity|]. intros x. destruct (upd_spec (snd pl) ls' (px s i) ND (eq_sym L)) as (A & B). destruct (put_all_same (snd pl) ls' s i ND (eq_sym L)) as (A' & B').
  { intros y Y. pose proof (in_map (fits_at s i) _ _ Y) as J. rewrite LS in J. apply in_map_iff in J. destruct J as (l & J & _). exists l. congruence. }
  destruct (in_dec slot_dec x (snd pl)) as [X|X]; [exact (ext_in_map (eq_trans A (eq_sym A')) x X)|]. rewrite (B x X), (B' x X). reflexivity.
Qed.
Lemma visit_rest : forall pl s t i s' t', visit pl (s, t) i = (s', t') -> skeleton s s' /\ (neat t -> neat t') /\ forall j, j <> i -> (forall x, px s' j x = px s j x) /\ tr_at t' j = tr_at t j.
Proof.
  intros pl s t i s' t' V. unfold visit in V.
  assert (DONE : (s, t) = (s', t') -> skeleton s s' /\ (neat t -> neat t') /\ forall j, j <> i -> (forall x, px s' j x = px s j x) /\ tr_at t' j = tr_at t j).
  { intros E. injection E as <- <-. split; [apply skeleton_refl|]. split; [tauto|]. intros j _. split; reflexivity. }
  destruct (all_some (map (dip_at s i) (snd pl))) as [ds|]; [|exact (DONE V)]. destruct (all_some (map (fits_at s i) (snd pl))) as [ls|]; [|exact (DONE V)].
  destruct (matching _ _ _ _ _) as (new, ls'). injection V as <- <-. split; [apply put_all_skeleton|]. split; [apply record_neat|]. intros j J. split.
  - intros x. unfold px. rewrite put_all_other by congruence. reflexivity.
  - rewrite record_at. destruct (coord_dec j i); [congruence|reflexivity].
Qed.
Lemma fold_visit : forall s0 pl l s t s' t', well_formed s0 -> good_place pl -> skeleton s0 s -> NoDup l -> fold_left (visit pl) l (s, t) = (s', t') ->
  skeleton s s' /\ (neat t -> neat t') /\ forall i, (In i l -> exists us, at_place s0 i pl 0 (px s i) us (px s' i) /\ tr_at t' i = tr_at t i ++ map fst us)
    /\ (~ In i l -> (forall x, px s' i x = px s i x) /\ tr_at t' i = tr_at t i).
Proof.
  intros s0 pl l. induction l as [|a l IH]; intros s t s' t' W G K ND F; cbn [fold_left] in F.
  - injection F as <- <-. split; [apply skeleton_refl|]. split; [tauto|]. intros i. split; [intros []|intros _; split; reflexivity].
  - destruct (visit pl (s, t) a) as (s1, t1) eqn:V. inversion ND as [|? ? N1 N2]; subst. destruct (visit_rest _ _ _ _ _ _ V) as (K1 & NT & R1).
    destruct (IH s1 t1 s' t' W G (skeleton_trans _ _ _ K K1) N2 F) as (K2 & NT2 & R2). split; [exact (skeleton_trans _ _ _ K1 K2)|]. split; [tauto|]. intros i. split.
    + intros I. destruct (coord_dec i a) as [->|NE].
      * destruct (visit_same s0 _ _ _ _ _ _ W G K V) as (us & A & B). destruct (R2 a) as (_ & R3). destruct (R3 N1) as (P & T). exists us. split; [eapply place_ext; [exact A|reflexivity|intros x; symmetry; apply P]|rewrite T; exact B].
      * destruct I as [->|I]; [congruence|]. destruct (R2 i) as (R3 & _). destruct (R3 I) as (us & A & B). destruct (R1 i NE) as (P & T). exists us. split; [eapply place_ext; [exact A|exact P|reflexivity]|rewrite B, T; reflexivity].
    + intros NI. destruct (R2 i) as (_ & R3). destruct R3 as (P & T); [intros J; apply NI; right; exact J|]. destruct (R1 i) as (P1 & T1); [intros ->; apply NI; left; reflexivity|]. split; [intros x; rewrite P; apply P1|congruence].
Qed.
Lemma shared_in : forall s xs i, (In i (shared s xs) <-> xs <> [] /\ forall x, In x xs -> dip_at s i x <> None).
Proof.
  intros s [|x xs] i; [split; [intros []|intros (H & _); congruence]|]. cbn [shared]. rewrite filter_In, forallb_forall. split.
  - intros (_ & H). split; [discriminate|]. intros y Y E. specialize (H y Y). rewrite E in H. discriminate H.
  - intros (_ & H). split.
    + pose proof (H x (or_introl eq_refl)) as D. unfold dip_at in D. destruct (in_dec coord_dec i (map fst (s (fst (fst x)) (snd (fst x))))) as [I|I]; [exact I|]. apply at_coord_none in I. congruence.
    + intros y Y. specialize (H y Y). destruct (dip_at s i y); [reflexivity|congruence].
Qed.
Lemma locate1_spec : forall order s0 pl s t s' t', well_formed s0 -> arranges order -> good_place pl -> skeleton s0 s -> locate1 order (s, t) pl = (s', t') ->
  skeleton s s' /\ (neat t -> neat t') /\ forall i, exists us, at_place s0 i pl 0 (px s i) us (px s' i) /\ tr_at t' i = tr_at t i ++ map fst us.
Proof.
  intros order s0 pl s t s' t' W AR G K L. unfold locate1 in L. cbn [fst] in L.
  assert (ND : NoDup (shared s (snd pl))).
  { destruct G as (_ & TWO). destruct (snd pl) as [|x xs]; [cbn in TWO; lia|]. cbn [shared]. apply NoDup_filter. rewrite (bones_keys _ _ (K _ _)). apply W. }
  pose proof (Permutation_NoDup (AR (fst pl) _) ND) as ND'. destruct (fold_visit s0 _ _ _ _ _ _ W G K ND' L) as (A & B & D). split; [exact A|]. split; [exact B|]. intros i. destruct (D i) as (D1 & D2).
  destruct (in_dec coord_dec i (shared s (snd pl))) as [I|I]; [apply D1; exact (Permutation_in _ (AR _ _) I)|].
  destruct D2 as (P & T); [intros J; apply I; exact (Permutation_in _ (Permutation_sym (AR _ _)) J)|]. exists []. split; [|rewrite T; symmetry; apply app_nil_r]. constructor; [|exact P].
  assert (X : exists x, In x (snd pl) /\ dip_at s i x = None).
  { assert (NE : snd pl <> []) by (destruct G as (_ & TWO); destruct (snd pl); [cbn in TWO; lia|discriminate]). destruct (existsb (fun x => match dip_at s i x with None => true | _ => false end) (snd pl)) eqn:E.
    - apply existsb_exists in E. destruct E as (x & X & E). exists x. split; [exact X|]. destruct (dip_at s i x); [discriminate E|reflexivity].
    - exfalso. apply I. apply shared_in. split; [exact NE|]. intros x X D0. apply (f_equal negb) in E. cbn in E. rewrite <- (negb_involutive (negb _)) in E. assert (E' : existsb (fun x => match dip_at s i x with None => true | _ => false end) (snd pl) = true) by (apply existsb_exists; exists x; rewrite D0; auto). rewrite E' in E. discriminate E. }
  destruct X as (x & X & E). exists x. split; [exact X|]. unfold px, fits_at. rewrite E. reflexivity.
Qed.
Lemma places_spec : forall order s0 pls s t s' t', well_formed s0 -> arranges order -> Forall good_place pls -> skeleton s0 s -> fold_left (locate1 order) pls (s, t) = (s', t') ->
  skeleton s s' /\ (neat t -> neat t') /\ forall i, exists us, history s0 i pls (px s i) us (px s' i) /\ tr_at t' i = tr_at t i ++ map fst us.
Proof.
  intros order s0 pls. induction pls as [|pl pls IH]; intros s t s' t' W AR G K F; cbn [fold_left] in F.
  - injection F as <- <-. split; [apply skeleton_refl|]. split; [tauto|]. intros i. exists []. split; [constructor; reflexivity|symmetry; apply app_nil_r].
  - destruct (locate1 order (s, t) pl) as (s1, t1) eqn:L. inversion G as [|? ? G1 G2]; subst. destruct (locate1_spec _ _ _ _ _ _ _ W AR G1 K L) as (K1 & N1 & R1). destruct (IH s1 t1 s' t' W AR G2 (skeleton_trans _ _ _ K K1) F) as (K2 & N2 & R2).
    split; [exact (skeleton_trans _ _ _ K1 K2)|]. split; [tauto|]. intros i. destruct (R1 i) as (us & A & B). destruct (R2 i) as (us' & A' & B'). exists (us ++ us'). split; [exact (history_cons _ _ _ _ _ _ _ _ _ A A')|]. rewrite B', B, map_app, app_assoc. reflexivity.
Qed.
Lemma four_iff : forall keys, four keys = true <-> all_four keys.
Proof.
  intros keys. unfold four, all_four. rewrite andb_true_iff, !forallb_forall. split.
  - intros (A & B) k. split.
    + intros I. specialize (B k I). apply existsb_exists in B. destruct B as (j & J & E). apply Nat.eqb_eq in E. subst j. cbn in J. lia.
    + intros I. specialize (A k). destruct (existsb (Nat.eqb k) keys) eqn:E; [apply existsb_exists in E; destruct E as (j & J & E); apply Nat.eqb_eq in E; subst; exact J|]. discriminate A. cbn. lia.
  - intros H. split; intros k I; apply existsb_exists; exists k; (split; [|apply Nat.eqb_refl]).
    + apply H. cbn in I. lia.
    + apply H in I. cbn. lia.
Qed.

(** ** The theorems *)
Theorem locate_history : forall order keys s s' t, well_formed s -> arranges order -> all_four keys -> locate order keys s = (s', t) ->
  well_formed s' /\ neat t /\ forall i p, pool_of s i p -> exists us p', history s i places p us p' /\ traps_at t i (map fst us) /\ pool_of s' i p'.
Proof.
  intros order keys s s' t W AR A4 L. unfold locate in L. rewrite (proj2 (four_iff keys) A4) in L. destruct (places_spec _ s _ _ _ _ _ W AR places_good (skeleton_refl s) L) as (K & N & H).
  assert (NT : neat t) by (apply N; split; [constructor|intros i []]). split; [exact (skeleton_wf _ _ K W)|]. split; [exact NT|]. intros i p P. destruct (H i) as (us & A & B). exists us, (px s' i). split; [|split; [apply (neat_iff _ _ _ NT); rewrite B; reflexivity|apply px_pool; exact (skeleton_wf _ _ K W)]].
  clear - A P W. pose proof (pool_px _ _ _ W P) as E. inversion A as [|pl rest q us0 p1 us1 q' A1 A2]; subst. constructor 2 with (p1 := p1); [|exact A2]. eapply place_ext; [exact A1|intros x; symmetry; apply E|reflexivity].
Qed.
Theorem locate_not_four : forall order keys s, ~ all_four keys -> locate order keys s = (s, []).
Proof. intros order keys s N. unfold locate. destruct (four keys) eqn:E; [apply four_iff in E; tauto|reflexivity]. Qed.
