(** Proofs on star matching. *)
From Coq Require Import List Arith Bool Reals ZArith String Sorted Permutation Lia Lra.
From Verif Require Import Base DqModel AngleModel AngleSpec AngleProofs SortRunProofs SortGroupProofs ComboModel ComboSpec ComboGenProofs.
Import ListNotations.
Local Open Scope list_scope.
Local Open Scope R_scope.

(** ** The scan *)
Definition scanned (bound : R) (vs : list (option R)) (acc : R * option nat) : Prop :=
  match snd acc with
  | None => fst acc = bound /\ forall j w, nth_error vs j = Some (Some w) -> bound <= w
  | Some i => nth_error vs i = Some (Some (fst acc)) /\ fst acc < bound /\ (forall j w, nth_error vs j = Some (Some w) -> fst acc <= w)
              /\ forall j w, (j < i)%nat -> nth_error vs j = Some (Some w) -> fst acc < w
  end.
Lemma combine_snoc : forall A B (l : list A) (m : list B) a b, List.length l = List.length m -> combine (l ++ [a]) (m ++ [b]) = combine l m ++ [(a, b)].
Proof. induction l as [|x l IH]; intros [|y m] a b L; try discriminate L; [reflexivity|]. cbn. rewrite IH by (injection L; auto). reflexivity. Qed.
Lemma nth_snoc : forall A (l : list A) x j y, nth_error (l ++ [x]) j = Some y <-> (nth_error l j = Some y \/ (j = List.length l /\ y = x)).
Proof.
  intros A l x j y. destruct (Nat.lt_ge_cases j (List.length l)) as [L|L].
  - rewrite nth_error_app1 by exact L. split; [auto|]. intros [H|[H _]]; [exact H|lia].
  - rewrite nth_error_app2 by exact L. rewrite (proj2 (nth_error_None l j) L). destruct (j - List.length l)%nat as [|k] eqn:E.
    + cbn. split; [intros H; injection H as <-; right; split; [lia|reflexivity]|]. intros [H|[_ ->]]; [discriminate H|reflexivity].
    + cbn. split; [destruct k; discriminate|]. intros [H|[H _]]; [discriminate H|lia].
Qed.
Lemma scan_inv : forall bound vs, scanned bound vs (fold_left scan_step (combine (seq 0 (List.length vs)) vs) (bound, None)).
Proof.
  intros bound vs. induction vs as [|x vs IH] using rev_ind.
  - cbn. split; [reflexivity|]. intros [|j] w H; discriminate H.
  - rewrite app_length. cbn [List.length]. rewrite Nat.add_1_r, seq_S, Nat.add_0_l, combine_snoc by apply seq_length. rewrite fold_left_app. cbn [fold_left].
    set (acc := fold_left scan_step (combine (seq 0 (List.length vs)) vs) (bound, None)) in *. clearbody acc. destruct acc as (b & o). unfold scan_step. cbn [fst snd].
    destruct x as [v|].
    + destruct (Rlt_dec v b) as [L|L].
      * unfold scanned. cbn [fst snd]. split; [apply nth_snoc; right; auto|]. unfold scanned in IH. cbn [fst snd] in IH.
        assert (LB : v < bound) by (destruct o as [i|]; [destruct IH as (_ & B & _); lra|destruct IH as [-> _]; exact L]). split; [exact LB|].
        assert (ALL : forall j w, nth_error vs j = Some (Some w) -> v < w).
        { intros j w H. destruct o as [i|]; [destruct IH as (_ & _ & A & _); specialize (A j w H); lra|destruct IH as [-> A]; specialize (A j w H); lra]. }
        split.
        -- intros j w H. apply nth_snoc in H. destruct H as [H|[_ H]]; [left; exact (ALL j w H)|injection H as ->; lra].
        -- intros j w J H. apply nth_snoc in H. destruct H as [H|[H _]]; [exact (ALL j w H)|lia].
      * unfold scanned in *. cbn [fst snd] in *. destruct o as [i|].
        -- destruct IH as (A1 & A2 & A3 & A4). split; [apply nth_snoc; left; exact A1|]. split; [exact A2|]. split.
           ++ intros j w H. apply nth_snoc in H. destruct H as [H|[_ H]]; [exact (A3 j w H)|injection H as ->; lra].
           ++ intros j w J H. apply nth_snoc in H. destruct H as [H|[H _]]; [exact (A4 j w J H)|]. subst j. assert (i < List.length vs)%nat by (apply nth_error_Some; congruence). lia.
        -- destruct IH as [-> A]. split; [reflexivity|]. intros j w H. apply nth_snoc in H. destruct H as [H|[_ H]]; [exact (A j w H)|injection H as ->; lra].
    + unfold scanned in *. cbn [fst snd] in *. destruct o as [i|].
      * destruct IH as (A1 & A2 & A3 & A4). split; [apply nth_snoc; left; exact A1|]. split; [exact A2|]. split.
        -- intros j w H. apply nth_snoc in H. destruct H as [H|[_ H]]; [exact (A3 j w H)|discriminate H].
        -- intros j w J H. apply nth_snoc in H. destruct H as [H|[_ H]]; [exact (A4 j w J H)|discriminate H].
      * destruct IH as [-> A]. split; [reflexivity|]. intros j w H. apply nth_snoc in H. destruct H as [H|[_ H]]; [exact (A j w H)|discriminate H].
Qed.
Lemma first_min_fun : forall bound vs i j, first_min bound vs i -> first_min bound vs j -> i = j.
Proof.
  intros bound vs i j (v & A1 & _ & A3 & A4) (w & B1 & _ & B3 & B4). destruct (lt_eq_lt_dec i j) as [[L|E]|L]; [|exact E|].
  - specialize (B4 i v L A1). specialize (A3 j w B1). lra.
  - specialize (A4 j w L B1). specialize (B3 i v A1). lra.
Qed.
Lemma scan_iff : forall bound vs i, scan bound vs = Some i <-> first_min bound vs i.
Proof.
  intros bound vs i. unfold scan. pose proof (scan_inv bound vs) as H. set (acc := fold_left scan_step _ _) in *. clearbody acc. destruct acc as (b & o). cbn [snd]. unfold scanned in H. cbn [fst snd] in H.
  destruct o as [k|].
  - assert (F : first_min bound vs k) by (exists b; exact H). split; [intros E; injection E as <-; exact F|]. intros G. rewrite (first_min_fun _ _ _ _ G F). reflexivity.
  - split; [discriminate|]. intros (v & A1 & A2 & _). destruct H as [_ H]. specialize (H i v A1). lra.
Qed.

(** ** Sorting three *)
Lemma sorted_perm_unique : forall l m, StronglySorted Rle l -> StronglySorted Rle m -> Permutation l m -> l = m.
Proof.
  induction l as [|x l IH]; intros m SL SM P; [apply Permutation_nil in P; subst; reflexivity|]. destruct m as [|y m]; [apply Permutation_sym, Permutation_nil in P; discriminate P|].
  inversion SL as [|? ? SL' FL]; subst. inversion SM as [|? ? SM' FM]; subst. rewrite Forall_forall in FL, FM.
  assert (x = y).
  { assert (IX : In x (y :: m)) by (apply (Permutation_in x P); left; reflexivity). assert (IY : In y (x :: l)) by (apply (Permutation_in y (Permutation_sym P)); left; reflexivity).
    destruct IX as [->|IX]; [reflexivity|]. destruct IY as [->|IY]; [reflexivity|]. specialize (FL y IY). specialize (FM x IX). lra. }
  subst y. f_equal. apply IH; [assumption|assumption|]. exact (Permutation_cons_inv P).
Qed.
Lemma sort3_iff : forall a b c s, sort3 a b c = s <-> ascending a b c s.
Proof.
  intros a b c s. assert (A : ascending a b c (sort3 a b c)).
  { unfold sort3, sort2. repeat (destruct (Rle_dec _ _)); unfold ascending; (split; [lra|]);
    first [apply Permutation_refl | apply perm_swap | apply perm_skip; apply perm_swap
      | (eapply perm_trans; [apply perm_swap|]; apply perm_skip; apply perm_swap)
      | (eapply perm_trans; [apply perm_skip; apply perm_swap|]; apply perm_swap)
      | (eapply perm_trans; [apply perm_swap|]; eapply perm_trans; [apply perm_skip; apply perm_swap|]; apply perm_swap)
      | (eapply perm_trans; [apply perm_skip; apply perm_swap|]; eapply perm_trans; [apply perm_swap|]; apply perm_skip; apply perm_swap)]. }
  split; [intros <-; exact A|]. intros B. destruct (sort3 a b c) as ((x & y) & z), s as ((x' & y') & z'). destruct A as [[A1 A2] AP], B as [[B1 B2] BP].
  assert (E : [x; y; z] = [x'; y'; z']).
  { apply sorted_perm_unique.
    - repeat (constructor; try lra).
    - repeat (constructor; try lra).
    - exact (perm_trans (Permutation_sym AP) BP). }
  injection E as -> -> ->. reflexivity.
Qed.
Lemma pixdist_dist : forall p q, pixdist p q = dist p q.
Proof. intros p q. unfold pixdist, dist. f_equal. ring. Qed.

(** ** Scores *)
Lemma score_iff : forall guess tol img sky v, score guess tol img sky = Some v <-> scored guess tol img sky v.
Proof.
  intros guess tol ((l1 & l2) & l3) ((s1 & s2) & s3) v. unfold score, scored.
  set (bad := (_ || _ || _ || _ || _ || _)%bool).
  assert (B : bad = false <-> fits guess tol (l1, l2, l3) (s1, s2, s3)).
  { unfold bad, fits. rewrite !orb_false_iff. clear bad. repeat match goal with |- context[if Rlt_dec ?a ?b then true else false] => destruct (Rlt_dec a b) end;
    (split; [intros H; try (exfalso; intuition discriminate); intros l s [I|[I|[I|[]]]]; injection I as <- <-; lra
            |intros H; assert (H1 := H l1 s1 (or_introl eq_refl)); assert (H2 := H l2 s2 (or_intror (or_introl eq_refl))); assert (H3 := H l3 s3 (or_intror (or_intror (or_introl eq_refl)))); try (exfalso; lra); auto 10]). }
  clearbody bad. destruct bad.
  - assert (NF : ~ fits guess tol (l1, l2, l3) (s1, s2, s3)) by (intros F; apply B in F; discriminate F). split.
    + intros H. injection H as <-. split; [intros F; contradiction|]. intros _. reflexivity.
    + intros [_ H]. rewrite (H NF). reflexivity.
  - assert (F : fits guess tol (l1, l2, l3) (s1, s2, s3)) by (apply B; reflexivity). destruct (Req_EM_T (s1 + s2 + s3) 0) as [Z|Z].
    + split; [discriminate|]. intros [H _]. destruct (H F) as [H' _]. contradiction.
    + split.
      * intros H. injection H as <-. split; [|contradiction]. intros _. split; [exact Z|reflexivity].
      * intros [H _]. destruct (H F) as [_ ->]. reflexivity.
Qed.

(** ** Lists of options *)
Lemma somes_all : forall A B (f : A -> option B) (g : A -> B) l, (forall x, In x l -> f x = Some (g x)) -> somes (map f l) = map g l.
Proof.
  intros A B f g l. induction l as [|x l IH]; intros H; [reflexivity|]. cbn [map somes]. rewrite (H x (or_introl eq_refl)). f_equal. apply IH. intros y I. apply H. right. exact I.
Qed.
Lemma filter_nth : forall A (p : A -> bool) l i x, nth_error (filter p l) i = Some x <-> exists k, nth_error l k = Some x /\ p x = true /\ List.length (filter p (firstn k l)) = i.
Proof.
  intros A p. induction l as [|y l IH]; intros i x.
  - cbn. split; [destruct i; discriminate|]. intros (k & H & _). destruct k; discriminate H.
  - cbn [filter]. destruct (p y) eqn:P.
    + destruct i as [|i]; cbn [nth_error].
      * split; [intros H; injection H as <-; exists 0%nat; auto|]. intros ([|k] & H & Q & L); [injection H as <-; reflexivity|]. cbn [firstn filter] in L. rewrite P in L. discriminate L.
      * rewrite IH. split.
        -- intros (k & H & Q & L). exists (S k). split; [exact H|]. split; [exact Q|]. cbn [firstn filter]. rewrite P. cbn. lia.
        -- intros ([|k] & H & Q & L); [cbn in L; discriminate L|]. exists k. split; [exact H|]. split; [exact Q|]. cbn [firstn filter] in L. rewrite P in L. cbn in L. lia.
    + rewrite IH. split.
      * intros (k & H & Q & L). exists (S k). split; [exact H|]. split; [exact Q|]. cbn [firstn filter]. rewrite P. exact L.
      * intros ([|k] & H & Q & L); [injection H as <-; congruence|]. exists k. split; [exact H|]. split; [exact Q|]. cbn [firstn filter] in L. rewrite P in L. exact L.
Qed.
Lemma count_mono : forall A (p : A -> bool) l j k x, (j < k)%nat -> nth_error l j = Some x -> p x = true -> (List.length (filter p (firstn j l)) < List.length (filter p (firstn k l)))%nat.
Proof.
  intros A p. induction l as [|y l IH]; intros j k x L H P; [destruct j; discriminate H|]. destruct k as [|k]; [lia|]. destruct j as [|j]; cbn [firstn filter].
  - injection H as ->. rewrite P. cbn. lia.
  - specialize (IH j k x ltac:(lia) H P). destruct (p y); cbn; lia.
Qed.
Lemma sieve_filter : forall A (P : A -> Prop) (p : A -> bool), (forall x, p x = true <-> P x) -> forall l m, sieve P l m <-> m = filter p l.
Proof.
  intros A P p H. induction l as [|x l IH]; intros m.
  - split; [intros S; inversion S; reflexivity|intros ->; constructor].
  - cbn [filter]. destruct (p x) eqn:E.
    + assert (Px : P x) by (apply H; exact E). split; [intros S; inversion S; subst; [f_equal; apply IH; assumption|contradiction]|]. intros ->. constructor; [exact Px|apply IH; reflexivity].
    + assert (Px : ~ P x) by (intros Q; apply H in Q; congruence). split; [intros S; inversion S; subst; [contradiction|apply IH; assumption]|]. intros ->. apply sieve_out; [exact Px|apply IH; reflexivity].
Qed.

Section Match.
Variable star : Type.
Variables ra dec : star -> R.
Variable sep : star -> star -> R.
Variable pa : star -> R.
Variable predict : R -> R -> star -> R * R.
Variable bright : list star -> list star.

(** ** Triangles *)
Lemma combo3 : forall n t, combo n 3 t -> exists j k l, t = [j; k; l] /\ (j < k < l)%nat /\ (l < n)%nat.
Proof.
  intros n t (L & SS & F). destruct t as [|j [|k [|l [|]]]]; try discriminate L. exists j, k, l. split; [reflexivity|].
  inversion SS as [|? ? SS1 F1]; subst. inversion SS1 as [|? ? SS2 F2]; subst. inversion F1; inversion F2; subst. inversion F as [|? ? G1 G]; subst. inversion G as [|? ? G2 G']; subst. inversion G'; subst. lia.
Qed.
Lemma nth_some : forall A (l : list A) i, (i < List.length l)%nat -> exists x, nth_error l i = Some x.
Proof. intros A l i H. destruct (nth_error l i) as [x|] eqn:E; [exists x; reflexivity|]. apply nth_error_None in E. lia. Qed.
Lemma combo_triangle : forall (stars : list star) t, combo (List.length stars) 3 t -> exists a b c, triangle star stars t a b c.
Proof.
  intros stars t C. destruct (combo3 _ _ C) as (j & k & l & -> & O & N). destruct (nth_some _ stars j ltac:(lia)) as (a & A). destruct (nth_some _ stars k ltac:(lia)) as (b & B). destruct (nth_some _ stars l ltac:(lia)) as (c & D).
  exists a, b, c, j, k, l. auto.
Qed.
Lemma triangle_fun : forall (stars : list star) t a b c a' b' c', triangle star stars t a b c -> triangle star stars t a' b' c' -> a = a' /\ b = b' /\ c = c'.
Proof. intros stars t a b c a' b' c' (j & k & l & -> & A & B & D) (j' & k' & l' & E & A' & B' & D'). injection E as <- <- <-. split; [congruence|]. split; congruence. Qed.
Lemma sides_iff : forall (stars : list star) t s, sky_sides star sep stars t = Some s <-> side_of star sep stars t s.
Proof.
  intros stars t s. unfold side_of, sky_sides. split.
  - destruct t as [|j [|k [|l [|]]]]; try discriminate. destruct (nth_error stars j) as [a|] eqn:A; [|discriminate]. destruct (nth_error stars k) as [b|] eqn:B; [|discriminate]. destruct (nth_error stars l) as [c|] eqn:D; [|discriminate].
    intros H. injection H as H. exists a, b, c. split; [exists j, k, l; auto|apply sort3_iff; exact H].
  - intros (a & b & c & (j & k & l & -> & A & B & D) & H). rewrite A, B, D. f_equal. apply sort3_iff. exact H.
Qed.
Lemma sides_total : forall (stars : list star) t, combo (List.length stars) 3 t -> exists s, side_of star sep stars t s.
Proof. intros stars t C. destruct (combo_triangle stars t C) as (a & b & c & T). exists (sort3 (sep a b) (sep b c) (sep c a)). exists a, b, c. split; [exact T|apply sort3_iff; reflexivity]. Qed.
Lemma side_fun : forall (stars : list star) t s s', side_of star sep stars t s -> side_of star sep stars t s' -> s = s'.
Proof. intros stars t s s' A B. apply sides_iff in A, B. congruence. Qed.

Lemma best_iff : forall guess tol img (stars : list star) combos i t b, all_combos (List.length stars) 3 combos ->
  let sides := somes (map (sky_sides star sep stars) combos) in
  nth_error sides i = Some b -> nth_error combos i = Some t ->
  (scan 10000000000 (map (score guess tol img) sides) = Some i <-> best_triangle star sep guess tol img stars t b).
Proof.
  intros guess tol img stars combos i t b AC sides NB NT. destruct AC as [AC SC].
  assert (AL : forall k x, nth_error combos k = Some x -> exists s, nth_error sides k = Some s /\ side_of star sep stars x s).
  { assert (G : forall x, In x combos -> exists s, sky_sides star sep stars x = Some s).
    { intros x I. apply AC in I. destruct (sides_total stars x I) as (s & E). exists s. apply sides_iff. exact E. }
    assert (E : somes (map (sky_sides star sep stars) combos) = map (fun x => match sky_sides star sep stars x with Some s => s | None => (0, 0, 0) end) combos).
    { apply somes_all. intros x I. destruct (G x I) as (s & ->). reflexivity. }
    intros k x K. unfold sides. rewrite E. rewrite nth_error_map, K. cbn [option_map]. destruct (G x (nth_error_In _ _ K)) as (s & ES). rewrite ES. exists s. split; [reflexivity|apply sides_iff; exact ES]. }
  assert (CT : combo (List.length stars) 3 t) by (apply AC; exact (nth_error_In _ _ NT)).
  destruct (AL i t NT) as (b' & NB' & SB). assert (b' = b) by congruence. subst b'.
  pose proof (proj1 (SS_nth _ lex combos) SC) as ORD.
  rewrite scan_iff. unfold first_min, best_triangle. split.
  - intros (v & A1 & A2 & A3 & A4). rewrite nth_error_map, NB in A1. cbn [option_map] in A1. injection A1 as A1. apply score_iff in A1. split; [exact CT|]. split; [exact SB|]. exists v. split; [exact A1|]. split; [exact A2|].
    intros t' s' v' C' S' V'. apply AC in C'. apply In_nth_error in C'. destruct C' as (j & J). destruct (AL j t' J) as (s2 & NS & SS2). rewrite (side_fun _ _ _ _ SS2 S') in NS. apply score_iff in V'.
    assert (NV : nth_error (map (score guess tol img) sides) j = Some (Some v')) by (rewrite nth_error_map, NS; cbn [option_map]; rewrite V'; reflexivity).
    split; [exact (A3 j v' NV)|]. intros LX. apply (A4 j v'); [|exact NV]. destruct (lt_eq_lt_dec j i) as [[L|E]|L]; [exact L| |].
    + subst j. assert (t' = t) by congruence. subst. destruct (lex_irrefl _ LX).
    + destruct (lex_irrefl t). exact (lex_trans _ _ _ (ORD i j t t' L NT J) LX).
  - intros (_ & _ & v & V & BD & ALL). exists v. split; [rewrite nth_error_map, NB; cbn [option_map]; f_equal; apply score_iff; exact V|]. split; [exact BD|].
    assert (G : forall j w, nth_error (map (score guess tol img) sides) j = Some (Some w) -> exists t' s', nth_error combos j = Some t' /\ combo (List.length stars) 3 t' /\ side_of star sep stars t' s' /\ scored guess tol img s' w).
    { intros j w H. rewrite nth_error_map in H. destruct (nth_error sides j) as [s'|] eqn:NS; [|discriminate H]. cbn [option_map] in H. injection H as H. apply score_iff in H.
      assert (J : (j < List.length combos)%nat).
      { assert (LE : List.length sides = List.length combos).
        { unfold sides. rewrite (somes_all _ _ _ (fun x => match sky_sides star sep stars x with Some s => s | None => (0, 0, 0) end)); [apply map_length|]. intros x I. apply AC in I. destruct (sides_total stars x I) as (s & ES). apply sides_iff in ES. rewrite ES. reflexivity. }
        rewrite <- LE. apply nth_error_Some. congruence. }
      destruct (nth_some _ combos j J) as (t' & T'). destruct (AL j t' T') as (s2 & N2 & S2). assert (s2 = s') by congruence. subst s2. exists t', s'. split; [exact T'|]. split; [apply AC; exact (nth_error_In _ _ T')|]. split; assumption. }
    split.
    + intros j w H. destruct (G j w H) as (t' & s' & _ & C' & S' & V'). exact (proj1 (ALL t' s' w C' S' V')).
    + intros j w J H. destruct (G j w H) as (t' & s' & T' & C' & S' & V'). apply (proj2 (ALL t' s' w C' S' V')). exact (ORD j i t' t J T' NT).
Qed.
Lemma best_fun : forall guess tol img (stars : list star) t b t' b', best_triangle star sep guess tol img stars t b -> best_triangle star sep guess tol img stars t' b' -> t = t' /\ b = b'.
Proof.
  intros guess tol img stars t b t' b' (C & S & v & V & _ & A) (C' & S' & v' & V' & _ & A'). assert (t = t').
  { destruct (A t' b' v' C' S' V') as [A1 A2]. destruct (A' t b v C S V) as [B1 B2]. destruct (lex_total t t') as [X|[X|X]]; [destruct C as [-> _], C' as [-> _]; reflexivity| |exact X|].
    - specialize (B2 X). lra.
    - specialize (A2 X). lra. }
  subst t'. split; [reflexivity|]. exact (side_fun _ _ _ _ S S').
Qed.

(** ** Nearest stars *)
Lemma in_image_iff : forall p s, in_image star (p, s) = true <-> visible p.
Proof.
  intros (x & y) s. unfold in_image, visible. cbn [fst snd]. rewrite !andb_true_iff. repeat destruct (Rle_dec _ _); split; intros H; try tauto; exfalso; intuition (try discriminate; lra).
Qed.
Lemma nearest_iff : forall place (sub : list star) src m,
  nearest star (filter (in_image star) (map (fun s => (place s, s)) sub)) src = Ok m <-> nearest_star star place sub src m.
Proof.
  intros place sub src m. unfold nearest, nearest_star. set (pred := filter (in_image star) (map (fun s => (place s, s)) sub)).
  assert (NP : forall i q, nth_error pred i = Some q <-> exists k s, nth_error sub k = Some s /\ visible (place s) /\ q = (place s, s) /\ List.length (filter (in_image star) (firstn k (map (fun s => (place s, s)) sub))) = i).
  { intros i q. unfold pred. rewrite filter_nth. split.
    - intros (k & K & V & L). rewrite nth_error_map in K. destruct (nth_error sub k) as [s|] eqn:E; [|discriminate K]. cbn in K. injection K as <-. exists k, s. split; [exact E|]. split; [apply (in_image_iff _ s); exact V|]. auto.
    - intros (k & s & E & V & -> & L). exists k. split; [rewrite nth_error_map, E; reflexivity|]. split; [apply in_image_iff; exact V|exact L]. }
  assert (FM : forall i k s, nth_error sub k = Some s -> visible (place s) -> List.length (filter (in_image star) (firstn k (map (fun s => (place s, s)) sub))) = i ->
    (first_min 1000000 (map (fun p : (R * R) * star => Some ((fst src - fst (fst p)) ^ 2 + (snd src - snd (fst p)) ^ 2)) pred) i <->
     off2 src (place s) < 1000000 /\ forall j m', nth_error sub j = Some m' -> visible (place m') -> off2 src (place s) <= off2 src (place m') /\ ((j < k)%nat -> off2 src (place s) < off2 src (place m')))).
  { intros i k s K V L. assert (PI_ : nth_error pred i = Some (place s, s)) by (apply NP; exists k, s; auto). unfold first_min. split.
    - intros (v & A1 & A2 & A3 & A4). rewrite nth_error_map, PI_ in A1. cbn [option_map fst snd] in A1. injection A1 as A1. fold (off2 src (place s)) in A1. subst v. split; [exact A2|].
      intros j m' J VJ. set (i' := List.length (filter (in_image star) (firstn j (map (fun s => (place s, s)) sub)))). assert (PJ : nth_error pred i' = Some (place m', m')) by (apply NP; exists j, m'; auto).
      assert (NJ : nth_error (map (fun p : (R * R) * star => Some ((fst src - fst (fst p)) ^ 2 + (snd src - snd (fst p)) ^ 2)) pred) i' = Some (Some (off2 src (place m')))) by (rewrite nth_error_map, PJ; reflexivity).
      split; [exact (A3 _ _ NJ)|]. intros JK. apply (A4 i'); [|exact NJ]. rewrite <- L. unfold i'. apply (count_mono _ _ _ j k (place m', m') JK); [rewrite nth_error_map, J; reflexivity|apply in_image_iff; exact VJ].
    - intros [A2 A]. exists (off2 src (place s)). split; [rewrite nth_error_map, PI_; reflexivity|]. split; [exact A2|].
      assert (G : forall j w, nth_error (map (fun p : (R * R) * star => Some ((fst src - fst (fst p)) ^ 2 + (snd src - snd (fst p)) ^ 2)) pred) j = Some (Some w) -> exists k' s', nth_error sub k' = Some s' /\ visible (place s') /\ w = off2 src (place s') /\ List.length (filter (in_image star) (firstn k' (map (fun s => (place s, s)) sub))) = j).
      { intros j w H. rewrite nth_error_map in H. destruct (nth_error pred j) as [q|] eqn:E; [|discriminate H]. apply NP in E. destruct E as (k' & s' & E1 & E2 & -> & E4). cbn [option_map fst snd] in H. injection H as <-. exists k', s'. auto. }
      split.
      + intros j w H. destruct (G j w H) as (k' & s' & E1 & E2 & -> & E4). exact (proj1 (A k' s' E1 E2)).
      + intros j w J H. destruct (G j w H) as (k' & s' & E1 & E2 & -> & E4). apply (proj2 (A k' s' E1 E2)).
        destruct (lt_eq_lt_dec k' k) as [[Q|Q]|Q]; [exact Q|subst k'; lia|].
        pose proof (count_mono _ (in_image star) (map (fun s => (place s, s)) sub) k k' (place s, s) Q ltac:(rewrite nth_error_map, K; reflexivity) ltac:(apply in_image_iff; exact V)). lia. }
  split.
  - intros H. destruct (scan _ _) as [i|] eqn:SC; [|discriminate H]. destruct (nth_error pred i) as [q|] eqn:Q; [|discriminate H]. injection H as <-. apply NP in Q. destruct Q as (k & s & E1 & E2 & -> & E4). cbn [snd].
    apply scan_iff in SC. apply (FM i k s E1 E2 E4) in SC. exists k. split; [exact E1|]. split; [exact E2|exact SC].
  - intros (k & E1 & E2 & A). set (i := List.length (filter (in_image star) (firstn k (map (fun s => (place s, s)) sub)))). rewrite (proj2 (scan_iff _ _ i)); [|apply (FM i k m E1 E2 eq_refl); exact A].
    rewrite (proj2 (NP i (place m, m))); [reflexivity|]. exists k, m. auto.
Qed.

(** ** The table *)
Lemma has_iff : forall c cols, existsb (String.eqb c) cols = true <-> In c cols.
Proof. intros c cols. rewrite existsb_exists. split; [intros (x & I & E); apply String.eqb_eq in E; subst; exact I|intros I; exists c; split; [exact I|apply String.eqb_refl]]. Qed.
Lemma angles3 : forall tgt s1 s2 s3 l, mapR (angle_between Numpy tgt) [s1; s2; s3] = Ok l -> forall a1 a2 a3, all_some l = Some [a1; a2; a3] <-> is_pa tgt s1 a1 /\ is_pa tgt s2 a2 /\ is_pa tgt s3 a3.
Proof.
  intros tgt s1 s2 s3 l H a1 a2 a3. cbn [mapR] in H. destruct (angle_numpy tgt s1) as (o1 & E1 & _). destruct (angle_numpy tgt s2) as (o2 & E2 & _). destruct (angle_numpy tgt s3) as (o3 & E3 & _).
  rewrite <- !angle_iff, E1, E2, E3. rewrite E1, E2, E3 in H. cbn [bind] in H. injection H as <-. cbn [all_some]. destruct o1, o2, o3; split; intros Q; try discriminate Q; try (destruct Q as (Q1 & Q2 & Q3); congruence).
  injection Q as -> -> ->. auto.
Qed.
Lemma angles_ok : forall tgt s1 s2 s3, exists l, mapR (angle_between Numpy tgt) [s1; s2; s3] = Ok l /\ List.length l = 3%nat.
Proof.
  intros tgt s1 s2 s3. destruct (angle_numpy tgt s1) as (o1 & E1 & _). destruct (angle_numpy tgt s2) as (o2 & E2 & _). destruct (angle_numpy tgt s3) as (o3 & E3 & _). exists [o1; o2; o3]. cbn [mapR]. rewrite E1, E2, E3. auto.
Qed.

Theorem match_iff : forall fuel cols srcs tra tdec tgt field threshold radius guess tol table, (threshold ^ 3 <= fuel)%nat ->
  (match_sources star ra dec sep pa predict bright fuel cols srcs tra tdec tgt field threshold radius guess tol = Ok table
   <-> matched star ra dec sep pa predict bright cols srcs tra tdec tgt field threshold radius guess tol table).
Proof.
  intros fuel cols srcs tra tdec tgt field threshold radius guess tol table FU. unfold match_sources, matched.
  destruct (existsb (String.eqb "VMAG") cols) eqn:HV; cbn [negb].
  2:{ split; [discriminate|]. intros (I & _). apply has_iff in I. congruence. }
  destruct srcs as [|s1 [|s2 [|s3 rest]]]; try (split; [discriminate|]; intros (_ & _ & _ & ? & ? & ? & ? & ? & ? & ? & ? & ? & ? & ? & ? & ? & ? & H & _); discriminate H).
  destruct (existsb (String.eqb "RA") cols) eqn:HR; cbn [negb orb].
  2:{ split; [discriminate|]. intros (_ & I & _). apply has_iff in I. congruence. }
  destruct (existsb (String.eqb "DEC") cols) eqn:HD; cbn [negb].
  2:{ split; [discriminate|]. intros (_ & _ & I & _). apply has_iff in I. congruence. }
  apply has_iff in HV, HR, HD.
  set (box := fun s => _ && _ && _ && _). set (sub := filter box field).
  assert (SUB : forall m, sieve (fun s => tra - radius <= ra s <= tra + radius /\ tdec - radius <= dec s <= tdec + radius) field m <-> m = sub).
  { intros m. apply sieve_filter. intros s. unfold box. rewrite !andb_true_iff. repeat destruct (Rle_dec _ _); split; intros H; try tauto; exfalso; intuition (try discriminate; lra). }
  rewrite !pixdist_dist. set (img := sort3 (dist s1 s2) (dist s2 s3) (dist s3 s1)). set (stars := firstn threshold (bright sub)).
  assert (NF : (List.length stars ^ 3 <= fuel)%nat).
  { etransitivity; [|exact FU]. apply Nat.pow_le_mono_l. unfold stars. rewrite firstn_length. lia. }
  destruct (combinations_spec (List.length stars) 3 fuel NF) as (combos & EC & AC). rewrite EC.
  set (sides := somes (map (sky_sides star sep stars) combos)).
  assert (SL : sides = map (fun x => match sky_sides star sep stars x with Some s => s | None => (0, 0, 0) end) combos).
  { apply somes_all. intros x I. apply AC in I. destruct (sides_total stars x I) as (s & ES). apply sides_iff in ES. rewrite ES. reflexivity. }
  destruct (angles_ok tgt s1 s2 s3) as (al & EA & LA).
  split.
  - intros H. destruct (scan _ _) as [i|] eqn:SC; [|discriminate H]. destruct (nth_error sides i) as [b|] eqn:NB; [|discriminate H].
    destruct (nth_error combos i) as [t|] eqn:NT; [|destruct b as ((? & ?) & ?); discriminate H].
    pose proof (proj1 (best_iff guess tol img stars combos i t b AC NB NT) SC) as BT.
    destruct b as ((b1 & b2) & b3) eqn:EB. destruct img as ((l1 & l2) & l3) eqn:EI. rewrite EA in H. cbn [bind] in H.
    destruct (all_some al) as [[|a1 [|a2 [|a3 [|]]]]|] eqn:AS; try discriminate H.
    pose proof (proj1 (angles3 tgt s1 s2 s3 al EA a1 a2 a3) AS) as (P1 & P2 & P3).
    destruct (combo_triangle stars t (proj1 BT)) as (x & y & z & T). pose proof T as (j & k & l & ET & X & Y & ZZ). subst t. cbn [map somes] in H. rewrite X, Y, ZZ in H. cbn [somes] in H.
    split; [exact HV|]. split; [exact HR|]. split; [exact HD|]. exists s1, s2, s3, rest, sub, (l1, l2, l3), [j; k; l], (b1, b2, b3), x, y, z, a1, a2, a3.
    split; [reflexivity|]. split; [apply SUB; reflexivity|]. split; [apply sort3_iff; exact EI|]. cbv zeta. fold stars. split; [exact BT|]. split; [exact T|]. split; [exact P1|]. split; [exact P2|]. split; [exact P3|].
    cbn [fst snd]. apply mapR_iff in H. replace (pa x + pa y + pa z - (a1 + a2 + a3)) with (pa x - a1 + (pa y - a2) + (pa z - a3)) by ring.
    eapply Forall2_impl; [|exact H]. intros src row _ E. cbv beta in E. destruct (nearest star _ src) as [m|] eqn:NE; [|discriminate E]. cbn [bind] in E. injection E as <-. split; [reflexivity|]. exists m. split; [apply nearest_iff; exact NE|reflexivity].
  - intros (_ & _ & _ & s1' & s2' & s3' & rest' & sub' & img' & t & b & x & y & z & a1 & a2 & a3 & ES & SB & AI & H). injection ES as <- <- <- <-. apply SUB in SB. subst sub'. apply sort3_iff in AI. fold img in AI. subst img'. cbv zeta in H. fold stars in H.
    destruct H as (BT & T & P1 & P2 & P3 & F).
    pose proof (proj1 BT) as CB. apply (proj1 AC) in CB. apply In_nth_error in CB. destruct CB as (i & NT).
    assert (NB : nth_error sides i = Some b). { rewrite SL, nth_error_map, NT. cbn [option_map]. pose proof (proj1 (proj2 BT)) as SO. apply sides_iff in SO. rewrite SO. reflexivity. }
    pose proof (proj2 (best_iff guess tol img stars combos i t b AC NB NT) BT) as SC. fold sides in SC. rewrite SC. rewrite NB, NT. destruct b as ((b1 & b2) & b3). destruct img as ((l1 & l2) & l3) eqn:EI. cbn [fst snd] in F.
    rewrite EA. cbn [bind]. rewrite (proj2 (angles3 tgt s1 s2 s3 al EA a1 a2 a3) (conj P1 (conj P2 P3))).
    destruct T as (j & k & l & -> & X & Y & ZZ). cbn [map somes]. rewrite X, Y, ZZ. cbn [somes]. apply mapR_iff.
    replace (pa x + pa y + pa z - (a1 + a2 + a3)) with (pa x - a1 + (pa y - a2) + (pa z - a3)) in F by ring.
    eapply Forall2_impl; [|exact F]. intros src (r1 & r2) _ (E & m & NE & E2). cbn [fst snd] in E, E2. subst r1 r2. apply nearest_iff in NE. rewrite NE. reflexivity.
Qed.
End Match.
