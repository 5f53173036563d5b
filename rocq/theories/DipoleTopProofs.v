(** Proofs on the search for dipoles: the three dictionaries. *)
From Coq Require Import List Arith Bool Reals ZArith Lia Lra Permutation.
From Verif Require Import Base DqModel DqProofs CombineSpec CombineProofs BpmSpec BpmProofs FindModel FindProofs SortGroupProofs ComboSpec IllModel DipoleModel DipoleSpec DipoleProofs DipoleSumProofs.
Import ListNotations.
Local Open Scope R_scope.

Lemma pixel_iff : forall img p v, pixel img p = Ok v <-> cell img (fst p) (snd p) v.
Proof.
  intros img p v. unfold pixel, cell. split.
  - intros H. destruct (nth_error img (fst p)) as [row|]; [|discriminate H]. destruct (nth_error row (snd p)) as [x|] eqn:E; [|discriminate H]. exists row. split; [reflexivity|congruence].
  - intros (row & -> & ->). reflexivity.
Qed.
Lemma rect_cell : forall A nr nc (img : list (list A)) r c, rect nr nc img -> (r < nr)%nat -> (c < nc)%nat -> exists v, cell img r c v.
Proof.
  intros A nr nc img r c (L & W) Hr Hc. destruct (nth_error img r) as [row|] eqn:E; [|apply nth_error_None in E; lia]. destruct (nth_error row c) as [v|] eqn:F; [exists v, row; auto|]. apply nth_error_None in F. rewrite (W row (nth_error_In _ _ E)) in F. lia.
Qed.
Lemma cell_rect : forall A nr nc (img : list (list A)) r c v, rect nr nc img -> cell img r c v -> (r < nr)%nat /\ (c < nc)%nat.
Proof.
  intros A nr nc img r c v (L & W) (row & E & F). split; [rewrite <- L; apply nth_error_Some; congruence|]. rewrite <- (W row (nth_error_In _ _ E)). apply nth_error_Some. congruence.
Qed.
Lemma is_shape_iff : forall nr nc img, is_shape nr nc img = true <-> rect nr nc img.
Proof.
  intros nr nc img. unfold is_shape, rect. rewrite andb_true_iff, Nat.eqb_eq, forallb_forall. split; intros (A & B); split; auto; intros row I; apply Nat.eqb_eq; auto.
Qed.
Lemma member_iff : forall p l, member p l = true <-> In p l.
Proof.
  intros (r & c) l. unfold member. rewrite existsb_exists. split.
  - intros ((r' & c') & I & E). apply andb_true_iff in E. cbn in E. rewrite !Nat.eqb_eq in E. destruct E as (-> & ->). exact I.
  - intros I. exists (r, c). split; [exact I|]. cbn. rewrite !Nat.eqb_refl. reflexivity.
Qed.
Lemma entry_iff : forall stack imin imax p q t, entry stack imin imax p = Ok (q, t) <-> q = p /\ trap_at stack imin imax p t.
Proof.
  intros stack imin imax p q t. unfold entry, trap_at. destruct (mapR (fun fr => pixel fr p) stack) as [a|e] eqn:E; cbn [bind].
  - destruct (pixel imin p) as [mn|] eqn:MN; cbn [bind]; [destruct (pixel imax p) as [mx|] eqn:MX; cbn [bind]|].
    + apply mapR_iff in E. apply pixel_iff in MN, MX. split.
      * intros H. injection H as <- <-. cbn. split; [reflexivity|]. split; [|auto]. refine (Forall2_impl _ _ _ _ _ _ _ E). intros x y _ I. apply pixel_iff. exact I.
      * intros (-> & F & A & B). destruct t as [am m M]. cbn in *. apply pixel_iff in A, B, MN, MX. rewrite A in MN. rewrite B in MX. injection MN as ->. injection MX as ->.
        assert (E' : mapR (fun fr => pixel fr p) stack = Ok am) by (apply mapR_iff; refine (Forall2_impl _ _ _ _ _ _ _ F); intros x y _ I; apply pixel_iff; exact I). apply mapR_iff in E. rewrite E in E'. injection E' as ->. reflexivity.
    + split; [discriminate|]. intros (_ & _ & _ & B). apply pixel_iff in B. congruence.
    + split; [discriminate|]. intros (_ & _ & B & _). apply pixel_iff in B. congruence.
  - split; [discriminate|]. intros (_ & F & _). assert (E' : mapR (fun fr => pixel fr p) stack = Ok (amps t)) by (apply mapR_iff; refine (Forall2_impl _ _ _ _ _ _ _ F); intros x y _ I; apply pixel_iff; exact I). congruence.
Qed.
Lemma entry_total : forall nr nc stack imin imax r c, (forall fr, In fr stack -> rect nr nc fr) -> rect nr nc imin -> rect nr nc imax -> (r < nr)%nat -> (c < nc)%nat -> exists t, entry stack imin imax (r, c) = Ok ((r, c), t).
Proof.
  intros nr nc stack imin imax r c S0 M X Hr Hc. unfold entry. destruct (mapR_total (fun fr => pixel fr (r, c)) stack) as (a & ->); [intros fr I; destruct (rect_cell _ nr nc fr r c (S0 fr I) Hr Hc) as (v & C); exists v; apply pixel_iff; exact C|].
  destruct (rect_cell _ nr nc imin r c M Hr Hc) as (v & C). apply (pixel_iff imin (r, c)) in C. rewrite C. destruct (rect_cell _ nr nc imax r c X Hr Hc) as (w & C'). apply (pixel_iff imax (r, c)) in C'. rewrite C'. cbn. eauto.
Qed.
Lemma sieve_local : forall A (P : A -> Prop) (p : A -> bool) l, (forall x, In x l -> (p x = true <-> P x)) -> sieve P l (filter p l).
Proof.
  intros A P p. induction l as [|x l IH]; intros H; [constructor|]. cbn [filter]. pose proof (H x (or_introl eq_refl)) as Hx. specialize (IH (fun y I => H y (or_intror I))). destruct (p x); constructor; auto; [apply Hx; reflexivity|]. intros Q. apply Hx in Q. discriminate Q.
Qed.
Lemma shown_filter : forall (d : list (list R) -> list (list nat)) r c (stack : list (list (list R))) (times : list R),
  filter (fun x => dipole_at (fst x) r c) (combine (map d stack) (combine stack times)) = map (fun x => (d (fst x), x)) (filter (fun x => dipole_at (d (fst x)) r c) (combine stack times)).
Proof.
  intros d r c. induction stack as [|fr stack IH]; intros [|t times]; try reflexivity. cbn [map combine filter fst]. destruct (dipole_at (d fr) r c); cbn [map fst]; rewrite IH; reflexivity.
Qed.
Lemma mapR_map : forall A B D (f : B -> result D) (g : A -> B) l, mapR f (map g l) = mapR (fun x => f (g x)) l.
Proof. intros A B D f g. induction l as [|x l IH]; [reflexivity|]. cbn. rewrite IH. reflexivity. Qed.
Lemma shown_ok : forall D d nr nc stack times r c, (forall fr, In fr stack -> rect nr nc fr) -> (r < nr)%nat -> (c < nc)%nat -> (forall fr, In fr stack -> (dipole_at (d fr) r c = true <-> D fr)) ->
  exists out, shown (map d stack) stack times (r, c) = Ok out /\ shown_at D stack times (r, c) out.
Proof.
  intros D d nr nc stack times r c S0 Hr Hc H. unfold shown. cbn [fst snd]. rewrite shown_filter, mapR_map. cbn [fst snd].
  set (kept := filter _ _).
  destruct (mapR_total (fun x : list (list R) * R => do a <- pixel (fst x) (r, c); Ok (a, snd x)) kept) as (out & E).
  { intros (fr & t) I. apply filter_In in I. destruct I as (I & _). destruct (rect_cell _ nr nc fr r c (S0 fr (in_combine_l _ _ _ _ I)) Hr Hc) as (v & C). apply (pixel_iff fr (r, c)) in C. cbn [fst snd]. rewrite C. cbn. eauto. }
  exists out. split; [exact E|]. exists kept. split.
  - apply sieve_local. intros (fr & t) I. cbn [fst]. apply H. exact (in_combine_l _ _ _ _ I).
  - apply mapR_iff in E. refine (Forall2_impl _ _ _ _ _ _ _ E). intros (fr & t) (a & u) _ EQ. cbn [fst snd] in *. destruct (pixel fr (r, c)) as [v|] eqn:PX; cbn [bind] in EQ; [|discriminate EQ]. injection EQ as <- <-. split; [exact (proj1 (pixel_iff fr (r, c) v) PX)|reflexivity].
Qed.
Lemma keys_map : forall B (f : nat * nat -> result ((nat * nat) * B)) l out, (forall p q t, f p = Ok (q, t) -> q = p) -> mapR f l = Ok out -> map fst out = l /\ forall p t, In (p, t) out -> f p = Ok (p, t).
Proof.
  intros B f l out K M. apply mapR_iff in M. induction M as [|p (q & t) l out E M (IH1 & IH2)]; [split; [reflexivity|intros p t []]|].
  pose proof (K p q t E) as ->. split; [cbn; rewrite IH1; reflexivity|]. intros p' t' [I|I]; [injection I as <- <-; exact E|exact (IH2 p' t' I)].
Qed.

Lemma both_key : forall f stack imin imax times p q t, both_entry f stack imin imax times p = Ok (q, t) -> q = p.
Proof.
  intros f stack imin imax times p q t E. unfold both_entry in E. destruct (entry stack imin imax p); cbn [bind] in E; [|discriminate E]. destruct (shown (map (above f) stack) stack times p); cbn [bind] in E; [|discriminate E]. destruct (shown (map (below f) stack) stack times p); cbn [bind] in E; [|discriminate E]. congruence.
Qed.

Section Search.
  Variables (nr nc : nat) (stack : list (list (list R))) (imin imax : list (list R)) (times : list R) (f : R) (limit : Z).
  Hypothesis U : usable nr nc stack imin imax times f limit.
  Definition pixels := list_prod (seq 0 nr) (seq 0 nc).
  Lemma in_pixels : forall r c, In (r, c) pixels <-> (r < nr /\ c < nc)%nat.
  Proof. intros r c. unfold pixels. rewrite in_prod_iff, !in_seq. lia. Qed.
  Lemma pixels_nodup : NoDup pixels.
  Proof. apply nodup_prod; apply seq_NoDup. Qed.
  Lemma qualifies_frame : forall D, qualifies D stack times limit -> exists fr, In fr stack /\ D fr.
  Proof.
    intros D Q. destruct (at_least D stack times limit Q) as (ts & _ & L & H). destruct U as [_ _ _ _ _ _ (P & _)]. destruct ts as [|t ts]; [cbn in L; lia|]. destruct (H t (or_introl eq_refl)) as (fr & I & DF). exists fr. split; [exact (in_combine_l _ _ _ _ I)|exact DF].
  Qed.
  Lemma above_range : forall p, qualifies_above f stack times limit p -> In p pixels.
  Proof. intros (r & c) Q. destruct (qualifies_frame _ Q) as (fr & I & (B & _)). destruct (bright_cell _ _ _ _ B) as (v & V). apply in_pixels. exact (cell_rect _ _ _ _ _ _ _ (u_frames _ _ _ _ _ _ _ _ U fr I) V). Qed.
  Lemma below_range : forall p, qualifies_below f stack times limit p -> In p pixels.
  Proof. intros (r & c) Q. destruct (qualifies_frame _ Q) as (fr & I & (B & _)). destruct (bright_cell _ _ _ _ B) as (v & V). apply in_pixels. exact (cell_rect _ _ _ _ _ _ _ (u_frames _ _ _ _ _ _ _ _ U fr I) V). Qed.
  Lemma above_ok : forall p, enough (map (above f) stack) times limit p = true <-> qualifies_above f stack times limit p.
  Proof. intros (r & c). apply enough_iff; [exact (u_times _ _ _ _ _ _ _ _ U)|]. intros fr I. exact (above_iff nr nc f fr r c (u_frames _ _ _ _ _ _ _ _ U fr I)). Qed.
  Lemma below_ok : forall p, enough (map (below f) stack) times limit p = true <-> qualifies_below f stack times limit p.
  Proof. intros (r & c). apply enough_iff; [exact (u_times _ _ _ _ _ _ _ _ U)|]. intros fr I. exact (below_iff nr nc f fr r c (u_frames _ _ _ _ _ _ _ _ U fr I)). Qed.
  Lemma both_ok : forall r c, (r < nr)%nat -> (c < nc)%nat -> exists t, both_entry f stack imin imax times (r, c) = Ok ((r, c), t) /\ both_at f stack imin imax times (r, c) t.
  Proof.
    intros r c Hr Hc. pose proof U as [S0 _ M X _ _ _]. unfold both_entry. destruct (entry_total nr nc stack imin imax r c S0 M X Hr Hc) as (t & E). rewrite E. cbn [bind].
    destruct (shown_ok (fun fr => dipole_above f fr r c) (above f) nr nc stack times r c S0 Hr Hc) as (a & -> & A); [intros fr I; exact (above_iff nr nc f fr r c (S0 fr I))|]. cbn [bind].
    destruct (shown_ok (fun fr => dipole_below f fr r c) (below f) nr nc stack times r c S0 Hr Hc) as (b & -> & B); [intros fr I; exact (below_iff nr nc f fr r c (S0 fr I))|]. cbn [bind snd].
    eexists. split; [reflexivity|]. split; [exact (proj2 (proj1 (entry_iff _ _ _ _ _ _) E))|]. split; [exact A|exact B].
  Qed.
  Theorem trap_id_ok : exists A B D, trap_id stack imin imax times f limit = Ok (A, B, D)
    /\ (NoDup (map fst A) /\ NoDup (map fst B) /\ NoDup (map fst D))
    /\ (forall p, In p (map fst A) <-> qualifies_above f stack times limit p /\ ~ qualifies_below f stack times limit p)
    /\ (forall p, In p (map fst B) <-> qualifies_below f stack times limit p /\ ~ qualifies_above f stack times limit p)
    /\ (forall p, In p (map fst D) <-> qualifies_above f stack times limit p /\ qualifies_below f stack times limit p)
    /\ (forall p t, In (p, t) A \/ In (p, t) B -> trap_at stack imin imax p t) /\ (forall p t, In (p, t) D -> both_at f stack imin imax times p t).
  Proof.
    pose proof U as [S0 RW M X T F (L0 & L1)]. assert (ST : exists fr0 rest, stack = fr0 :: rest) by (clear - L0 L1; destruct stack; [cbn in L1; lia|eauto]). destruct ST as (fr0 & rest & ST). assert (TE : trap_id stack imin imax times f limit = search (List.length fr0) (ncol fr0) stack imin imax times f limit) by (rewrite ST; reflexivity). rewrite TE. clear TE.
    assert (R0 : rect nr nc fr0) by (apply S0; rewrite ST; left; reflexivity).
    assert (E1 : List.length fr0 = nr) by exact (proj1 R0). assert (E2 : ncol fr0 = nc). { destruct fr0 as [|row rows]; [cbn in E1; lia|]. cbn. exact (proj2 R0 row (or_introl eq_refl)). }
    rewrite E1, E2. unfold search. cbv zeta. rewrite (proj2 (forallb_forall (is_shape nr nc) stack)); [|intros fr I; apply is_shape_iff; auto]. cbn [negb]. rewrite (proj2 (is_shape_iff nr nc imin) M), (proj2 (is_shape_iff nr nc imax) X). cbn [negb]. rewrite T, Nat.eqb_refl. cbn [negb]. destruct (Rlt_dec 0 f) as [_|]; [|contradiction].
    replace (limit <=? 0)%Z with false by (symmetry; apply Z.leb_gt; lia). replace (Z.of_nat (List.length stack) <? limit)%Z with false by (symmetry; apply Z.ltb_ge; lia). replace (Nat.eqb nr 0) with false by (symmetry; apply Nat.eqb_neq; lia).
    fold pixels. set (a := filter (enough (map (above f) stack) times limit) pixels). set (b := filter (enough (map (below f) stack) times limit) pixels).
    assert (IA : forall p, In p a <-> qualifies_above f stack times limit p). { intros p. unfold a. rewrite filter_In, above_ok. split; [tauto|]. intros Q. split; [exact (above_range p Q)|exact Q]. }
    assert (IB : forall p, In p b <-> qualifies_below f stack times limit p). { intros p. unfold b. rewrite filter_In, below_ok. split; [tauto|]. intros Q. split; [exact (below_range p Q)|exact Q]. }
    assert (NA : NoDup a) by (apply NoDup_filter, pixels_nodup). assert (NB : NoDup b) by (apply NoDup_filter, pixels_nodup).
    set (oa := filter (fun p => negb (member p b)) a). set (ob := filter (fun p => negb (member p a)) b). set (bo := filter (fun p => negb (member p oa)) a).
    assert (MEM : forall p l, negb (member p l) = true <-> ~ In p l). { intros p l. rewrite negb_true_iff, <- (member_iff p l). destruct (member p l); intuition congruence. }
    assert (IOA : forall p, In p oa <-> In p a /\ ~ In p b) by (intros p; unfold oa; rewrite filter_In, MEM; reflexivity).
    assert (IOB : forall p, In p ob <-> In p b /\ ~ In p a) by (intros p; unfold ob; rewrite filter_In, MEM; reflexivity).
    assert (IBO : forall p, In p bo <-> In p a /\ In p b). { intros p. unfold bo. rewrite filter_In, MEM, IOA. split; [|tauto]. intros (Ia & N). split; [exact Ia|]. destruct (member p b) eqn:MB; [apply member_iff; exact MB|]. exfalso. apply N. split; [exact Ia|]. intros Ib. apply member_iff in Ib. congruence. }
    assert (RNG : forall r c, In (r, c) a \/ In (r, c) b -> (r < nr /\ c < nc)%nat) by (intros r c [I|I]; apply in_pixels; apply filter_In in I; tauto).
    destruct (mapR_total (both_entry f stack imin imax times) bo) as (D & HD). { intros (r & c) I. apply IBO in I. destruct (RNG r c (or_introl (proj1 I))) as (Hr & Hc). destruct (both_ok r c Hr Hc) as (t & E & _). eauto. }
    destruct (mapR_total (entry stack imin imax) oa) as (A & HA). { intros (r & c) I. apply IOA in I. destruct (RNG r c (or_introl (proj1 I))) as (Hr & Hc). destruct (entry_total nr nc stack imin imax r c S0 M X Hr Hc) as (t & E). eauto. }
    destruct (mapR_total (entry stack imin imax) ob) as (B & HB). { intros (r & c) I. apply IOB in I. destruct (RNG r c (or_intror (proj1 I))) as (Hr & Hc). destruct (entry_total nr nc stack imin imax r c S0 M X Hr Hc) as (t & E). eauto. }
    rewrite HD. cbn [bind]. rewrite HA. cbn [bind]. rewrite HB. cbn [bind]. exists A, B, D. split; [reflexivity|].
    destruct (keys_map _ _ _ _ (fun p q t E => proj1 (proj1 (entry_iff stack imin imax p q t) E)) HA) as (KA & VA). destruct (keys_map _ _ _ _ (fun p q t E => proj1 (proj1 (entry_iff stack imin imax p q t) E)) HB) as (KB & VB).
    destruct (keys_map _ _ _ _ (both_key f stack imin imax times) HD) as (KD & VD).
    rewrite KA, KB, KD. split; [split; [apply NoDup_filter; exact NA|split; apply NoDup_filter; assumption]|]. split; [intros p; rewrite IOA, IA, IB; reflexivity|]. split; [intros p; rewrite IOB, IA, IB; reflexivity|]. split; [intros p; rewrite IBO, IA, IB; reflexivity|]. split.
    - intros p t [I|I]; [apply VA in I|apply VB in I]; exact (proj2 (proj1 (entry_iff _ _ _ _ _ _) I)).
    - intros (r & c) t I. assert (IK : In (r, c) bo) by (rewrite <- KD; change (r, c) with (fst ((r, c), t)); apply in_map; exact I). apply IBO in IK. destruct (RNG r c (or_introl (proj1 IK))) as (Hr & Hc). destruct (both_ok r c Hr Hc) as (t' & E & BA). rewrite (VD _ _ I) in E. injection E as ->. exact BA.
  Qed.
End Search.

(** ** Refusals *)
Lemma trap_id_search : forall nr nc stack imin imax times f limit, stack <> [] -> (forall fr, In fr stack -> rect nr nc fr) -> (0 < nr)%nat -> trap_id stack imin imax times f limit = search nr nc stack imin imax times f limit /\ forallb (is_shape nr nc) stack = true.
Proof.
  intros nr nc [|fr0 rest] imin imax times f limit NE H Hn; [congruence|]. split; [|apply forallb_forall; intros fr I; apply is_shape_iff; auto]. unfold trap_id. pose proof (H fr0 (or_introl eq_refl)) as (L & W). rewrite L. replace (ncol fr0) with nc; [reflexivity|]. destruct fr0 as [|row rows]; [cbn in L; lia|]. cbn. symmetry. apply W. left. reflexivity.
Qed.
Theorem trap_id_no_shape : forall stack imin imax times f limit, ~ (exists nr nc fr, In fr stack /\ forall fr, In fr stack -> rect nr nc fr) -> trap_id stack imin imax times f limit = Raise TypeError.
Proof.
  intros [|fr0 rest] imin imax times f limit H; [reflexivity|]. unfold trap_id, search. destruct (forallb (is_shape (List.length fr0) (ncol fr0)) (fr0 :: rest)) eqn:E; [|reflexivity]. exfalso. apply H. exists (List.length fr0), (ncol fr0), fr0. split; [left; reflexivity|]. intros fr I. apply is_shape_iff. exact (proj1 (forallb_forall _ _) E fr I).
Qed.
Lemma mapR_never : forall A B (g : A -> result B) l, (forall x e, In x l -> g x <> Raise e) -> exists r, mapR g l = Ok r.
Proof. intros A B g l H. apply mapR_total. intros x I. destruct (g x) as [y|e] eqn:E; [eauto|]. destruct (H x e I E). Qed.
Theorem trap_id_refuses : forall nr nc stack imin imax times f limit, stack <> [] -> (forall fr, In fr stack -> rect nr nc fr) -> (0 < nr)%nat ->
  (trap_id stack imin imax times f limit = Raise ValueError <-> ~ rect nr nc imin \/ ~ rect nr nc imax \/ List.length times <> List.length stack \/ (0 < f /\ (Z.of_nat (List.length stack) < limit)%Z))
  /\ (trap_id stack imin imax times f limit = Raise TypeError <-> rect nr nc imin /\ rect nr nc imax /\ List.length times = List.length stack /\ (f <= 0 \/ (limit <= 0)%Z))
  /\ ((exists out, trap_id stack imin imax times f limit = Ok out) <-> usable nr nc stack imin imax times f limit).
Proof.
  intros nr nc stack imin imax times f limit NE H Hn.
  destruct (trap_id_search nr nc stack imin imax times f limit NE H Hn) as (E & FS).
  assert (OKU : usable nr nc stack imin imax times f limit -> exists out, trap_id stack imin imax times f limit = Ok out) by (intros U; destruct (trap_id_ok nr nc stack imin imax times f limit U) as (A & B & D & O & _); eauto).
  destruct (is_shape nr nc imin) eqn:M.
  2:{ assert (T : trap_id stack imin imax times f limit = Raise ValueError) by (rewrite E; unfold search; rewrite FS, M; reflexivity). assert (M' : ~ rect nr nc imin) by (rewrite <- is_shape_iff; congruence). rewrite T. split; [split; [auto|reflexivity]|]. split; [split; [discriminate|tauto]|]. split; [intros (o & O); discriminate O|intros U; destruct (M' (u_min _ _ _ _ _ _ _ _ U))]. }
  destruct (is_shape nr nc imax) eqn:X.
  2:{ assert (T : trap_id stack imin imax times f limit = Raise ValueError) by (rewrite E; unfold search; rewrite FS, M, X; reflexivity). assert (M' : ~ rect nr nc imax) by (rewrite <- is_shape_iff; congruence). rewrite T. split; [split; [auto|reflexivity]|]. split; [split; [discriminate|tauto]|]. split; [intros (o & O); discriminate O|intros U; destruct (M' (u_max _ _ _ _ _ _ _ _ U))]. }
  destruct (Nat.eqb (List.length times) (List.length stack)) eqn:T.
  2:{ assert (TT : trap_id stack imin imax times f limit = Raise ValueError) by (rewrite E; unfold search; rewrite FS, M, X, T; reflexivity). apply Nat.eqb_neq in T. rewrite TT. split; [split; [auto|reflexivity]|]. split; [split; [discriminate|tauto]|]. split; [intros (o & O); discriminate O|intros U; destruct (T (u_times _ _ _ _ _ _ _ _ U))]. }
  pose proof (proj1 (is_shape_iff _ _ _) M) as M'. pose proof (proj1 (is_shape_iff _ _ _) X) as X'. pose proof (proj1 (Nat.eqb_eq _ _) T) as T'.
  assert (SE : trap_id stack imin imax times f limit = if (if Rlt_dec 0 f then false else true) then Raise TypeError else if (limit <=? 0)%Z then Raise TypeError else if (Z.of_nat (List.length stack) <? limit)%Z then Raise ValueError else trap_id stack imin imax times f limit).
  { destruct (Rlt_dec 0 f) eqn:F; [destruct (limit <=? 0)%Z eqn:L; [|destruct (Z.of_nat (List.length stack) <? limit)%Z eqn:L'; [|reflexivity]]|]; rewrite E; unfold search; rewrite FS, M, X, T, F; cbn [negb]; try rewrite L; try rewrite L'; reflexivity. }
  destruct (Rlt_dec 0 f) as [F|F].
  2:{ rewrite SE. split; [split; [discriminate|tauto]|]. split; [split; [intros _; repeat split; try assumption; try apply M'; try apply X'; left; lra|reflexivity]|]. split; [intros (o & O); discriminate O|]. intros U. destruct (F (u_factor _ _ _ _ _ _ _ _ U)). }
  destruct (limit <=? 0)%Z eqn:L.
  { rewrite SE. apply Z.leb_le in L. split; [split; [discriminate|intros [A|[A|[A|A]]]; try contradiction; lia]|]. split; [split; [intros _; split; [exact M'|split; [exact X'|split; [exact T'|right; exact L]]]|reflexivity]|]. split; [intros (o & O); discriminate O|]. intros U. pose proof (u_limit _ _ _ _ _ _ _ _ U). lia. }
  apply Z.leb_gt in L. destruct (Z.of_nat (List.length stack) <? limit)%Z eqn:L'.
  { rewrite SE. apply Z.ltb_lt in L'. split; [split; [auto|reflexivity]|]. split; [split; [discriminate|intros (_ & _ & _ & [A|A]); [lra|lia]]|]. split; [intros (o & O); discriminate O|]. intros U. pose proof (u_limit _ _ _ _ _ _ _ _ U). lia. }
  apply Z.ltb_ge in L'. clear SE. assert (U : usable nr nc stack imin imax times f limit) by (constructor; auto; lia). destruct (OKU U) as (out & O). rewrite O. split; [split; [discriminate|intros [A|[A|[A|A]]]; try contradiction; lia]|]. split; [split; [discriminate|intros (_ & _ & _ & [A|A]); [lra|lia]]|]. split; [intros _; exact U|eauto].
Qed.

(** ** Two phase times of which half the frames show the dipole *)
Definition pumped : list (list R) := [[1]; [-1]; [0]].
Definition flat : list (list R) := [[0]; [0]; [0]].
Lemma pumped_moments : moments (List.concat pumped) 0 (sqrt (2 / 3)).
Proof.
  unfold moments, pumped. cbn [List.concat app List.length map total fold_right INR]. split; [discriminate|]. split; [lra|]. split; [apply sqrt_pos|]. replace (sqrt (2 / 3) ^ 2) with (2 / 3) by (symmetry; rewrite <- Rsqr_pow2; apply Rsqr_sqrt; lra). lra.
Qed.
Lemma pumped_median : is_median (List.concat pumped) 0.
Proof.
  exists [-1; 0; 1]. split; [repeat constructor; lra|]. split; [|right; exists 1%nat; split; reflexivity]. cbn. apply Permutation_sym. apply perm_trans with [-1; 1; 0]; [apply perm_swap|apply perm_skip, perm_swap].
Qed.
Lemma small_sqrt : sqrt (2 / 3) < 1.
Proof. rewrite <- sqrt_1. apply sqrt_lt_1; lra. Qed.
Lemma pumped_dipole : dipole_above 1 pumped 0 0.
Proof.
  pose proof small_sqrt as S0. split.
  - exists 1, 0, 0, (sqrt (2 / 3)). split; [exists [1]; split; reflexivity|]. split; [exact pumped_median|]. split; [exact pumped_moments|]. lra.
  - exists (-1), 0, 0, (sqrt (2 / 3)). split; [exists [-1]; split; reflexivity|]. split; [exact pumped_median|]. split; [exact pumped_moments|]. lra.
Qed.
Lemma flat_dark : forall c, ~ dipole_above 1 flat 0 c.
Proof.
  intros c ((v & m & mu & s & (row & E & F) & M & (_ & _ & P & _) & H) & _). cbn in E. injection E as <-. destruct c as [|c]; [|destruct c; discriminate F]. injection F as <-.
  assert (M0 : is_median (List.concat flat) 0) by (exists [0; 0; 0]; split; [repeat constructor; lra|]; split; [apply Permutation_refl|right; exists 1%nat; split; reflexivity]). rewrite (is_median_unique _ _ _ M M0) in H. lra.
Qed.
Definition halves : list (list (list R)) := [pumped; flat; pumped; flat].
Definition half_times : list R := [1; 1; 2; 2].
Lemma halves_usable : usable 3 1 halves flat flat half_times 1 2.
Proof.
  constructor; try (cbn; lia); try lra; try reflexivity; try (split; [reflexivity|intros row [<-|[<-|[<-|[]]]]; reflexivity]).
  intros fr [<-|[<-|[<-|[<-|[]]]]]; (split; [reflexivity|intros row [<-|[<-|[<-|[]]]]; reflexivity]).
Qed.
Lemma halves_shares : forall l ts, marked (fun fr => dipole_above 1 fr 0 0) halves half_times l -> phase_times half_times ts -> total (map (fun t => share t l) ts) = 1.
Proof.
  intros l ts (ML & F) (N & P). unfold halves in F. inversion F as [|f0 p0 s0 l0 H0 F0]; subst. inversion F0 as [|f1 p1 s1 l1 H1 F1]; subst. inversion F1 as [|f2 p2 s2 l2 H2 F2]; subst. inversion F2 as [|f3 p3 s3 l3 H3 F3]; subst. inversion F3; subst. destruct p0 as (b0 & t0), p1 as (b1 & t1), p2 as (b2 & t2), p3 as (b3 & t3). cbn [map snd fst] in *. unfold half_times in ML. injection ML as -> -> -> ->.
  assert (b0 = true) by (apply H0; exact pumped_dipole). assert (b2 = true) by (apply H2; exact pumped_dipole). assert (b1 = false) by (destruct b1; [destruct (flat_dark 0); apply H1; reflexivity|reflexivity]). assert (b3 = false) by (destruct b3; [destruct (flat_dark 0); apply H3; reflexivity|reflexivity]). subst.
  assert (PE : Permutation [1; 2] ts). { apply NoDup_Permutation; [|exact N|]. - constructor; [intros [E|[]]; lra|]. constructor; [intros []|constructor]. - intros t. rewrite P. cbn. tauto. }
  rewrite <- (total_perm _ _ (Permutation_map (fun t => share t [(true, 1); (false, 1); (true, 2); (false, 2)]) PE)). cbn [map total fold_right]. unfold share, at_time. cbn [filter snd fst].
  repeat (destruct (Req_EM_T _ _); try lra). cbn. lra.
Qed.
(** A pixel with the dipole at two phase times, in one of two frames each, is not reported for a limit of two. *)
Theorem halves_missed : usable 3 1 halves flat flat half_times 1 2
  /\ (forall t, In t [1; 2] -> exists fr, In (fr, t) (combine halves half_times) /\ dipole_above 1 fr 0 0)
  /\ forall A B D, trap_id halves flat flat half_times 1 2 = Ok (A, B, D) -> ~ In (0, 0)%nat (map fst A) /\ ~ In (0, 0)%nat (map fst D).
Proof.
  split; [exact halves_usable|]. split.
  - intros t [<-|[<-|[]]]; exists pumped; (split; [cbn; tauto|exact pumped_dipole]).
  - intros A B D E. assert (NQ : ~ qualifies_above 1 halves half_times 2 (0, 0)%nat). { intros (l & ts & M & P & H). cbn [fst snd] in M. rewrite (halves_shares l ts M P) in H. lra. }
    destruct (trap_id_ok 3 1 halves flat flat half_times 1 2 halves_usable) as (A' & B' & D' & E' & _ & HA & _ & HD & _). rewrite E in E'. injection E' as <- <- <-. rewrite HA, HD. tauto.
Qed.
Theorem halves_found : qualifies_above 1 halves half_times 1 (0, 0)%nat.
Proof.
  exists [(true, 1); (false, 1); (true, 2); (false, 2)], [1; 2]. assert (M : marked (fun fr => dipole_above 1 fr 0 0) halves half_times [(true, 1); (false, 1); (true, 2); (false, 2)]).
  { split; [reflexivity|]. repeat (apply Forall2_cons || apply Forall2_nil); cbn [fst]; split; intros H; try discriminate H; try reflexivity; try exact pumped_dipole; destruct (flat_dark 0 H). }
  assert (P : phase_times half_times [1; 2]). { split; [constructor; [intros [E|[]]; lra|constructor; [intros []|constructor]]|]. intros t. cbn. tauto. }
  split; [exact M|]. split; [exact P|]. rewrite (halves_shares _ _ M P). lra.
Qed.
(** One frame at each phase time: the number of frames with the dipole decides. *)
Theorem distinct_times : forall D stack times limit, List.length times = List.length stack -> NoDup times -> (forall fr, In fr stack -> D fr \/ ~ D fr) ->
  forall kept, sieve D stack kept -> (qualifies D stack times limit <-> (limit <= Z.of_nat (List.length kept))%Z).
Proof.
  intros D stack times limit L N DD kept SV.
  assert (ONE : forall fr fr' t, In (fr, t) (combine stack times) -> In (fr', t) (combine stack times) -> fr = fr').
  { clear - N. revert times N. induction stack as [|a s IH]; intros [|t0 times] N fr fr' t I I'; try destruct I. - cbn in I'. inversion N as [|x y NI N']; subst. injection H as <- <-. destruct I' as [E|I']; [congruence|]. destruct NI. exact (in_combine_r _ _ _ _ I'). - inversion N as [|x y NI N']; subst. destruct I' as [E|I']; [injection E as <- <-; destruct NI; exact (in_combine_r _ _ _ _ H)|]. exact (IH times N' _ _ _ H I'). }
  (* the times of the kept frames *)
  assert (TS : exists ts, NoDup ts /\ List.length ts = List.length kept /\ forall t, In t ts <-> exists fr, In (fr, t) (combine stack times) /\ D fr).
  { clear ONE DD. revert times L N. induction SV as [|x l m Dx SV IH|x l m Dx SV IH]; intros times L N.
    - exists []. split; [constructor|]. split; [reflexivity|]. intros t. split; [intros []|intros (fr & I & _); destruct times; destruct I].
    - destruct times as [|t times]; [discriminate L|]. inversion N as [|a b NI N']; subst. destruct (IH times ltac:(cbn in L; lia) N') as (ts & NT & LT & H). exists (t :: ts). split; [constructor; [|exact NT]|].
      + intros I. apply H in I. destruct I as (fr & I & _). destruct NI. exact (in_combine_r _ _ _ _ I).
      + split; [cbn; lia|]. intros u. split.
        * intros [<-|I]; [exists x; split; [left; reflexivity|exact Dx]|]. apply H in I. destruct I as (fr & I & Df). exists fr. split; [right; exact I|exact Df].
        * intros (fr & [E|I] & Df); [left; congruence|right; apply H; eauto].
    - destruct times as [|t times]; [discriminate L|]. inversion N as [|a b NI N']; subst. destruct (IH times ltac:(cbn in L; lia) N') as (ts & NT & LT & H). exists ts. split; [exact NT|]. split; [exact LT|]. intros u. rewrite H. split.
      + intros (fr & I & Df). exists fr. split; [right; exact I|exact Df].
      + intros (fr & [E|I] & Df); [injection E as <- <-; contradiction|eauto]. }
  destruct TS as (ts & NT & LT & H). split.
  - intros Q. destruct (at_least D stack times limit Q) as (us & NU & LU & HU). assert (IL : (List.length us <= List.length ts)%nat) by (apply NoDup_incl_length; [exact NU|]; intros t I; apply H; exact (HU t I)). lia.
  - intros LE. apply (agreeing D stack times limit ts L DD); [|exact NT|lia|intros t I; apply H; exact I]. intros fr fr' t I I' Df. rewrite <- (ONE fr fr' t I I'). exact Df.
Qed.
