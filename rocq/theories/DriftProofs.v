(** Proofs about the drift correction. *)
From Coq Require Import List Arith Bool QArith ZArith Sorted Lia Lqa.
From Verif Require Import Base BaseProofs DqModel StackModel StackProofs DriftModel DriftSpec.
Import ListNotations.
Local Open Scope list_scope.
Local Open Scope nat_scope.

Lemma osum_some : forall qs, osum (map Some qs) = Some (Qtotal qs).
Proof. induction qs as [|q t IH]; [reflexivity|]. cbn [map]. unfold osum in *. cbn [fold_right]. rewrite IH. reflexivity. Qed.
Lemma osum_none : forall l, In None l -> osum l = None.
Proof.
  induction l as [|x t IH]; [contradiction|]. intros [->|I]; [reflexivity|]. unfold osum in *. cbn [fold_right]. rewrite (IH I). destruct x; reflexivity.
Qed.
Lemma qlen_pos : forall X (l : list X), l <> [] -> (0 < qlen l)%Q.
Proof. intros X [|x t] H; [contradiction|]. unfold qlen. change 0%Q with (inject_Z 0). rewrite <- Zlt_Qlt. cbn [List.length]. lia. Qed.
Lemma omean_some : forall qs, qs <> [] -> exists m, omean (map Some qs) = Some m /\ mean_is qs m.
Proof.
  intros qs H. assert (P := qlen_pos _ qs H). unfold omean. rewrite osum_some, map_length. cbn [odiv]. fold (qlen qs).
  destruct (Qeq_bool (qlen qs) 0) eqn:E; [apply Qeq_bool_iff in E; exfalso; Lqa.lra|]. eexists. split; [reflexivity|]. split; [exact H|]. field. Lqa.lra.
Qed.
Lemma all_some : forall l : list (option Q), ~ In None l -> exists qs, l = map Some qs.
Proof.
  induction l as [|x t IH]; intros H; [exists []; reflexivity|]. destruct x as [q|]; [|exfalso; apply H; left; reflexivity].
  destruct IH as [qs ->]; [intros I; apply H; right; exact I|]. exists (q :: qs). reflexivity.
Qed.
Lemma none_dec : forall l : list (option Q), {In None l} + {~ In None l}.
Proof. apply in_dec. intros [x|] [y|]; try (right; congruence); [|left; reflexivity]. destruct x as [a b], y as [c d]. destruct (Z.eq_dec a c) as [->|N]; [|right; congruence]. destruct (Pos.eq_dec b d) as [->|N]; [left; reflexivity|right; congruence]. Qed.
Lemma omean_avg : forall l, avg l (omean l).
Proof.
  intros l. destruct (none_dec l) as [I|N].
  - unfold omean. rewrite (osum_none l I). cbn. left. exact I.
  - destruct (all_some l N) as [qs ->]. destruct qs as [|q t]; [cbn; right; reflexivity|].
    destruct (omean_some (q :: t)) as (m & E & M); [discriminate|]. rewrite E. cbn [avg]. exists (q :: t). split; [reflexivity|exact M].
Qed.
Lemma onanmean_avg : forall l, avg_skip l (onanmean l).
Proof. intros l. apply omean_avg. Qed.
Lemma filter_some : forall qs : list Q, filter (fun x : option Q => match x with Some _ => true | None => false end) (map Some qs) = map Some qs.
Proof. induction qs as [|q t IH]; [reflexivity|]. cbn. rewrite IH. reflexivity. Qed.
Lemma onanmean_some : forall qs, qs <> [] -> exists m, onanmean (map Some qs) = Some m /\ mean_is qs m.
Proof. intros qs H. unfold onanmean. rewrite filter_some. apply omean_some. exact H. Qed.

Lemma at_exp_ext : forall t u l, (t == u)%Q -> at_exp t l = at_exp u l.
Proof. intros t u l E. apply filter_ext. intros f. apply Qeq_bool_ext. exact E. Qed.

Lemma sorted_nth_lt : forall l i j x y, StronglySorted Qlt l -> i < j -> nth_error l i = Some x -> nth_error l j = Some y -> (x < y)%Q.
Proof.
  intros l i j x y H. revert i j. induction H as [|a t St IH F]; intros [|i] [|j] L Ei Ej; try lia; try discriminate.
  - cbn in Ei, Ej. injection Ei as <-. apply nth_error_In in Ej. exact (proj1 (Forall_forall _ _) F y Ej).
  - cbn in Ei, Ej. apply (IH i j); [lia|exact Ei|exact Ej].
Qed.
Lemma repeat_spec : forall l, l <> [] -> exists rep, repeat_exp l = Some rep /\ repeated l rep /\ In rep (quniq (map d_exp l)).
Proof.
  intros l NE. unfold repeat_exp. set (es := quniq (map d_exp l)).
  assert (IN : forall f, In f l -> inq (d_exp f) es). { intros f I. apply quniq_in. exists (d_exp f). split; [apply in_map; exact I|reflexivity]. }
  assert (NI : forall e, In e es -> exists f, In f l /\ (d_exp f == e)%Q).
  { intros e I. destruct (proj1 (quniq_in (map d_exp l) e)) as (k & Ik & Ek); [exists e; split; [exact I|reflexivity]|]. apply in_map_iff in Ik. destruct Ik as (f & <- & If). exists f. split; [exact If|exact Ek]. }
  destruct (argmax _) as [i|] eqn:Ea.
  - apply argmax_spec in Ea. destruct Ea as (b & Eb & H1 & H2). rewrite nth_error_map in Eb. destruct (nth_error es i) as [rep|] eqn:Ei; [|discriminate]. injection Eb as <-.
    exists rep. split; [reflexivity|]. assert (Ir := nth_error_In _ _ Ei). split; [|exact Ir]. split; [exact (NI rep Ir)|].
    intros f If. destruct (IN f If) as (k & Ik & Ek). apply In_nth_error in Ik. destruct Ik as [j Ej].
    assert (Hj : nth_error (map (fun e => inject_Z (Z.of_nat (List.length (at_exp e l)))) es) j = Some (inject_Z (Z.of_nat (List.length (at_exp k l))))) by (rewrite nth_error_map, Ej; reflexivity).
    change (frames_at (d_exp f) l) with (at_exp (d_exp f) l). change (frames_at rep l) with (at_exp rep l). rewrite <- (at_exp_ext k (d_exp f) l Ek).
    split.
    + assert (L := H2 j _ Hj). rewrite <- Zle_Qle in L. lia.
    + intros EQ. destruct (Nat.lt_trichotomy j i) as [L|[->|L]].
      * assert (G := H1 j _ Hj L). rewrite <- Zlt_Qlt in G. lia.
      * rewrite Ei in Ej. injection Ej as <-. Lqa.lra.
      * assert (G := sorted_nth_lt es i j rep k (quniq_sorted _) L Ei Ej). Lqa.lra.
  - exfalso. apply argmax_none in Ea. apply map_eq_nil in Ea. destruct l as [|f t]; [contradiction|]. destruct (IN f (or_introl eq_refl)) as (k & Ik & _). rewrite Ea in Ik. contradiction.
Qed.

Lemma filter_all : forall A (p : A -> bool) l, (forall x, In x l -> p x = true) -> filter p l = l.
Proof. intros A p. induction l as [|x t IH]; intros H; [reflexivity|]. cbn. rewrite (H x (or_introl eq_refl)), IH; [reflexivity|]. intros y I. exact (H y (or_intror I)). Qed.
Lemma zipR_total : forall A B C (f : A -> B -> C) l m, List.length l = List.length m -> exists r, zipR f l m = Ok r /\ List.length r = List.length l
  /\ forall j x y, nth_error l j = Some x -> nth_error m j = Some y -> nth_error r j = Some (f x y).
Proof.
  intros A B C f. induction l as [|x t IH]; intros [|y u] H; try discriminate H.
  - exists []. split; [reflexivity|]. split; [reflexivity|]. intros [|j] a b E; discriminate.
  - destruct (IH u) as (r & E & L & N); [cbn in H; lia|]. exists (f x y :: r). cbn [zipR]. rewrite E. cbn [bind]. split; [reflexivity|]. split; [cbn; lia|].
    intros [|j] a b Ea Eb; cbn in *; [congruence|exact (N j a b Ea Eb)].
Qed.

(** The exposure times, sorted. *)
Lemma drift_runs : forall mn l, l <> [] -> (forall f, In f l -> (mn <= d_exp f)%Q) -> exists rep d, repeated l rep /\ In rep (dr_exps d) /\ drift_correct mn l = Ok d
  /\ dr_exps d = quniq (map d_exp l) /\ dr_signal d = map (signal rep l) (dr_exps d)
  /\ dr_slope d = odiv (osub (repeat2 rep l) (repeat1 rep l)) (osub (omean (map (fun f => Some (d_time f)) (skipn (List.length (at_exp rep l) / 2) (at_exp rep l)))) (omean (map (fun f => Some (d_time f)) (first_half (at_exp rep l)))))
  /\ dr_inter d = osub (repeat1 rep l) (omul (dr_slope d) (omean (map (fun f => Some (d_time f)) (first_half (at_exp rep l)))))
  /\ (exists t0 ts, dr_exps d = t0 :: ts /\ dr_corr d = map (fun t => odiv (oadd (omul (osub (mean_time rep l t) (mean_time rep l t0)) (dr_slope d)) (dr_inter d))
         (oadd (omul (osub (mean_time rep l t0) (mean_time rep l t0)) (dr_slope d)) (dr_inter d))) (dr_exps d))
  /\ List.length (dr_out d) = List.length (dr_exps d)
  /\ forall j s c, nth_error (dr_signal d) j = Some s -> nth_error (dr_corr d) j = Some c -> nth_error (dr_out d) j = Some (odiv s c).
Proof.
  intros mn l NE MIN. destruct (repeat_spec l NE) as (rep & Er & R & Ir). 
  assert (FI : filter (fun t => Qle_bool mn t) (quniq (map d_exp l)) = quniq (map d_exp l)).
  { apply filter_all. intros e I. apply Qle_bool_iff. destruct (proj1 (quniq_in (map d_exp l) e)) as (k & Ik & Ek); [exists e; split; [exact I|reflexivity]|].
    apply in_map_iff in Ik. destruct Ik as (f & <- & If). assert (H := MIN f If). Lqa.lra. }
  assert (Mr : Qle_bool mn rep = true). { destruct R as [(f & If & Ef) _]. apply Qle_bool_iff. assert (H := MIN f If). Lqa.lra. }
  destruct (quniq (map d_exp l)) as [|t0 ts] eqn:Eq; [contradiction|].
  unfold drift_correct. rewrite Er. cbv zeta. rewrite Eq, FI, Mr. cbn [negb].
  set (slope := odiv _ _). set (inter := osub _ _).
  set (F := fun t => odiv (oadd (omul (osub (mean_time rep l t) (mean_time rep l t0)) slope) inter) (oadd (omul (osub (mean_time rep l t0) (mean_time rep l t0)) slope) inter)).
  destruct (zipR_total _ _ _ odiv (map (signal rep l) (t0 :: ts)) (map F (t0 :: ts))) as (out & Eo & Lo & No); [rewrite !map_length; reflexivity|].
  set (G := match map (mean_time rep l) (t0 :: ts) with [] => _ | g0 :: _ => _ end).
  assert (EG : G = Ok (mkdr (t0 :: ts) (map (signal rep l) (t0 :: ts)) slope inter (map F (t0 :: ts)) out)).
  { unfold G. cbn [map]. rewrite !map_map. change (fun x => odiv _ _) with F. cbn [map] in Eo. unfold F at 1 in Eo. rewrite Eo. reflexivity. }
  rewrite EG. clearbody G.
  exists rep, (mkdr (t0 :: ts) (map (signal rep l) (t0 :: ts)) slope inter (map F (t0 :: ts)) out). cbn [dr_exps dr_signal dr_slope dr_inter dr_corr dr_out].
  split; [exact R|]. split; [exact Ir|]. split; [reflexivity|]. split; [reflexivity|]. split; [reflexivity|].
  split; [reflexivity|]. split; [reflexivity|].
  split; [exists t0, ts; split; reflexivity|]. split; [rewrite Lo, map_length; reflexivity|exact No].
Qed.

Lemma signal_avg : forall rep l t, if Qeq_bool t rep then avg_skip (map d_sig (firstn (halves (frames_at t l)) (frames_at t l))) (signal rep l t) else avg (map d_sig (frames_at t l)) (signal rep l t).
Proof. intros rep l t. unfold signal, halves, frames_at, at_exp, first_half. destruct (Qeq_bool t rep); [apply onanmean_avg|apply omean_avg]. Qed.

Lemma drift_signals : forall mn l, l <> [] -> (forall f, In f l -> (mn <= d_exp f)%Q) -> exists rep d, repeated l rep /\ drift_correct mn l = Ok d
  /\ StronglySorted Qlt (dr_exps d) /\ (forall t, (exists e, In e (dr_exps d) /\ (e == t)%Q) <-> exists f, In f l /\ (d_exp f == t)%Q)
  /\ Forall2 (fun t s => if Qeq_bool t rep then avg_skip (map d_sig (firstn (halves (frames_at t l)) (frames_at t l))) s else avg (map d_sig (frames_at t l)) s) (dr_exps d) (dr_signal d)
  /\ List.length (dr_out d) = List.length (dr_exps d).
Proof.
  intros mn l NE MIN. destruct (drift_runs mn l NE MIN) as (rep & d & R & _ & E & Ee & Es & _ & _ & _ & Lo & _). exists rep, d. split; [exact R|]. split; [exact E|].
  split; [rewrite Ee; apply quniq_sorted|]. split.
  { intros t. rewrite Ee. change (inq t (quniq (map d_exp l)) <-> exists f, In f l /\ (d_exp f == t)%Q). rewrite quniq_in. split.
    - intros (k & I & H). apply in_map_iff in I. destruct I as (f & <- & I). exists f. split; assumption.
    - intros (f & I & H). exists (d_exp f). split; [apply in_map; exact I|exact H]. }
  split; [|exact Lo]. rewrite Es. generalize (dr_exps d) as es. induction es as [|t ts IH]; [constructor|]. constructor; [apply signal_avg|exact IH].
Qed.

Lemma map_some_firstn : forall (sel : list dfr) qs n, map d_sig sel = map Some qs -> map d_sig (firstn n sel) = map Some (firstn n qs).
Proof. intros sel qs n H. rewrite <- !firstn_map, H. reflexivity. Qed.
Lemma map_some_skipn : forall (sel : list dfr) qs n, map d_sig sel = map Some qs -> map d_sig (skipn n sel) = map Some (skipn n qs).
Proof. intros sel qs n H. rewrite <- !skipn_map, H. reflexivity. Qed.
Lemma firstn_ne : forall X (l : list X) n, l <> [] -> 0 < n -> firstn n l <> [].
Proof. intros X [|x t] [|n] H L; try lia; [contradiction|discriminate]. Qed.
Lemma skipn_ne : forall X (l : list X) n, n < List.length l -> skipn n l <> [].
Proof. intros X l n L E. assert (H := skipn_length n l). rewrite E in H. cbn in H. lia. Qed.
Lemma half_bounds : forall n, 2 <= n -> 0 < n / 2 /\ n / 2 < n.
Proof. intros n H. split; [apply Nat.div_str_pos; lia|apply Nat.div_lt; lia]. Qed.

Lemma mean_time_used : forall l rep t, used l rep t <> [] -> exists g, mean_time rep l t = Some g /\ mean_is (times (used l rep t)) g.
Proof.
  intros l rep t NE. unfold mean_time. cbv zeta.
  replace (if Qeq_bool t rep then first_half (at_exp t l) else at_exp t l) with (used l rep t) by (unfold used, halves, first_half, frames_at, at_exp; reflexivity).
  assert (E : map (fun f => Some (d_time f)) (used l rep t) = map Some (times (used l rep t))) by (unfold times; rewrite map_map; reflexivity).
  rewrite E. apply omean_some. unfold times. intros H. apply map_eq_nil in H. contradiction.
Qed.
Lemma used_ne : forall l rep t, repeated l rep -> 2 <= List.length (frames_at rep l) -> (exists f, In f l /\ (d_exp f == t)%Q) -> used l rep t <> [].
Proof.
  intros l rep t R L (f & If & Ef). unfold used. destruct (Qeq_bool t rep) eqn:E.
  - apply Qeq_bool_iff in E. assert (X : frames_at t l = frames_at rep l) by exact (at_exp_ext t rep l E). rewrite X. apply firstn_ne; [destruct (frames_at rep l); [cbn in L; lia|discriminate]|].
    exact (proj1 (half_bounds _ L)).
  - intros H. assert (I : In f (frames_at t l)) by (apply filter_In; split; [exact If|apply Qeq_bool_iff; exact Ef]). rewrite H in I. contradiction.
Qed.

Lemma drift_full : forall mn l, (forall f, In f l -> (mn <= d_exp f)%Q) ->
  forall rep qs, repeated l rep -> 2 <= List.length (frames_at rep l) -> map d_sig (frames_at rep l) = map Some qs ->
  (forall u1 u2, mean_is (firstn (halves (frames_at rep l)) (times (frames_at rep l))) u1 -> mean_is (skipn (halves (frames_at rep l)) (times (frames_at rep l))) u2 -> ~ (u1 == u2)%Q) ->
  exists d s i, drift_correct mn l = Ok d /\ drift_result l rep d qs s i
   /\ forall j sg c, nth_error (dr_signal d) j = Some (Some sg) -> nth_error (dr_corr d) j = Some (Some c) -> ~ (c == 0)%Q -> exists o, nth_error (dr_out d) j = Some (Some o) /\ (o * c == sg)%Q.
Proof.
  intros mn l MIN rep0 qs R0 L Hqs Hu.
  assert (NE : l <> []) by (intros ->; cbn in L; lia).
  destruct (drift_runs mn l NE MIN) as (rep & d & R & Ir & E & Ee & Es & Esl & Ein & (t0 & ts & Et & Ec) & Lo & No).
  assert (RR : (rep0 == rep)%Q).
  { destruct R0 as [(f0 & I0 & E0) H0], R as [(f & I & E1) H]. assert (X0 : frames_at (d_exp f0) l = frames_at rep0 l) by exact (at_exp_ext _ _ l E0).
    assert (X : frames_at (d_exp f) l = frames_at rep l) by exact (at_exp_ext _ _ l E1). destruct (H0 f I) as [A1 A2], (H f0 I0) as [B1 B2]. rewrite X in A1, A2. rewrite X0 in B1, B2.
    assert (A3 := A2 ltac:(lia)). assert (B3 := B2 ltac:(lia)). Lqa.lra. }
  assert (XE : at_exp rep l = frames_at rep0 l) by (symmetry; exact (at_exp_ext _ _ l RR)).
  set (sel := frames_at rep0 l) in *. set (h := halves sel) in *. assert (HB := half_bounds _ L). fold (halves sel) in HB. fold h in HB.
  assert (LQ : List.length qs = List.length sel) by (rewrite <- (map_length Some qs), <- Hqs, map_length; reflexivity).
  assert (Q1 : repeat1 rep l = onanmean (map Some (firstn h qs))).
  { unfold repeat1, first_half. rewrite XE. rewrite (map_some_firstn sel qs _ Hqs). reflexivity. }
  assert (Q2 : repeat2 rep l = onanmean (map Some (firstn h qs ++ skipn (h + 1) qs))).
  { unfold repeat2, first_half. rewrite XE, map_app, (map_some_firstn sel qs _ Hqs), (map_some_skipn sel qs _ Hqs), <- map_app. reflexivity. }
  assert (N1 : firstn h qs <> []) by (apply firstn_ne; [destruct qs; [cbn in LQ; lia|discriminate]|lia]).
  destruct (onanmean_some (firstn h qs) N1) as (m1 & E1 & M1).
  destruct (onanmean_some (firstn h qs ++ skipn (h + 1) qs)) as (m2 & E2 & M2); [destruct (firstn h qs); [contradiction|discriminate]|].
  assert (TS : forall x : list dfr, map (fun f => Some (d_time f)) x = map Some (times x)) by (intros x; unfold times; rewrite map_map; reflexivity).
  assert (LT : List.length (times sel) = List.length sel) by apply map_length.
  destruct (omean_some (firstn h (times sel))) as (u1 & F1 & U1); [apply firstn_ne; [destruct (times sel); [cbn in LT; lia|discriminate]|lia]|].
  destruct (omean_some (skipn h (times sel))) as (u2 & F2 & U2); [apply skipn_ne; lia|].
  assert (G1 : omean (map (fun f => Some (d_time f)) (first_half (at_exp rep l))) = Some u1) by (rewrite XE, TS, <- F1; unfold first_half, times; rewrite <- firstn_map; reflexivity).
  assert (G2 : omean (map (fun f => Some (d_time f)) (skipn (List.length (at_exp rep l) / 2) (at_exp rep l))) = Some u2) by (rewrite XE, TS, <- F2; unfold times; rewrite <- skipn_map; reflexivity).
  assert (DU := Hu u1 u2 U1 U2). rewrite G1, G2, Q1, Q2, E1, E2 in Esl. rewrite Q1, E1, G1 in Ein. cbn [osub odiv] in Esl.
  destruct (Qeq_bool (u2 - u1) 0) eqn:Z; [apply Qeq_bool_iff in Z; exfalso; apply DU; Lqa.lra|]. clear Z.
  set (s := ((m2 - m1) / (u2 - u1))%Q) in *. rewrite Esl in Ein. cbn [omul osub] in Ein. set (i := (m1 - s * u1)%Q) in *.
  exists d, s, i. split; [exact E|]. split.
  - split; [exact Esl|]. split; [exact Ein|]. exists m1, m2, u1, u2. split; [exact M1|]. split; [exact M2|]. split; [exact U1|]. split; [exact U2|].
    split; [unfold s; field; intros Z; apply DU; Lqa.lra|]. split; [reflexivity|]. intros NI.
    assert (UN : forall t, In t (dr_exps d) -> exists g, mean_time rep l t = Some g /\ mean_is (times (used l rep0 t)) g).
    { intros t It. assert (US : used l rep t = used l rep0 t).
      { unfold used. rewrite (Qeq_bool_ext t rep rep0); [reflexivity|]. symmetry. exact RR. }
      rewrite <- US. apply mean_time_used. rewrite US. apply used_ne; [exact R0|exact L|]. rewrite Ee in It.
      destruct (proj1 (quniq_in (map d_exp l) t)) as (k & Ik & Ek); [exists t; split; [exact It|reflexivity]|]. apply in_map_iff in Ik. destruct Ik as (f & <- & If). exists f. split; [exact If|exact Ek]. }
    destruct (UN t0) as (g0 & G0 & MG0); [rewrite Et; left; reflexivity|]. exists t0, g0. split; [rewrite Et; reflexivity|]. split; [exact MG0|].
    rewrite Ec. clear Ec No Et Lo Es Ee Ir. revert UN. induction (dr_exps d) as [|t es IH]; intros UN; [constructor|]. cbn [map]. constructor.
    + destruct (UN t (or_introl eq_refl)) as (g & G & MG). exists g. rewrite G, G0, Esl, Ein. cbn [osub omul oadd odiv].
      destruct (Qeq_bool ((g0 - g0) * s + i) 0) eqn:Z; [apply Qeq_bool_iff in Z; exfalso; apply NI; Lqa.nra|]. eexists. split; [exact MG|]. split; [reflexivity|].
      assert (D0 : ((g0 - g0) * s + i == i)%Q) by ring. rewrite D0. field. exact NI.
    + apply IH. intros t' It. exact (UN t' (or_intror It)).
  - intros j sg c Hs Hc NC. rewrite (No j _ _ Hs Hc). cbn [odiv]. destruct (Qeq_bool c 0) eqn:Z; [apply Qeq_bool_iff in Z; contradiction|].
    eexists. split; [reflexivity|]. field. exact NC.
Qed.

(** * Consequences *)
Lemma mean_is_unique : forall l a b, mean_is l a -> mean_is l b -> (a == b)%Q.
Proof. intros l a b [H Ha] [_ Hb]. assert (P := qlen_pos _ l H). apply (Qmult_inj_r a b (qlen l)); [Lqa.lra|]. rewrite Ha, Hb. reflexivity. Qed.
Lemma repeated_unique : forall l r r', repeated l r -> repeated l r' -> (r == r')%Q.
Proof.
  intros l rep0 rep [(f0 & I0 & E0) H0] [(f & I & E1) H]. assert (X0 : frames_at (d_exp f0) l = frames_at rep0 l) by exact (at_exp_ext _ _ l E0).
  assert (X : frames_at (d_exp f) l = frames_at rep l) by exact (at_exp_ext _ _ l E1). destruct (H0 f I) as [A1 A2], (H f0 I0) as [B1 B2]. rewrite X in A1, A2. rewrite X0 in B1, B2.
  assert (A3 := A2 ltac:(lia)). assert (B3 := B2 ltac:(lia)). Lqa.lra.
Qed.
Lemma qlen_S : forall X (x : X) t, (qlen (x :: t) == qlen t + 1)%Q.
Proof. intros X x t. unfold qlen. cbn [List.length]. rewrite Nat2Z.inj_succ, <- Z.add_1_r, inject_Z_plus. reflexivity. Qed.

(** sum of an arithmetic progression *)
Lemma total_progression : forall l x y, (forall j q, nth_error l j = Some q -> (q == x + y * inject_Z (Z.of_nat j))%Q) ->
  (2 * Qtotal l == qlen l * (2 * x + y * (qlen l - 1)))%Q.
Proof.
  induction l as [|q t IH]; intros x y H; [unfold qlen; cbn [Qtotal fold_right List.length]; change (inject_Z (Z.of_nat 0)) with 0%Q; ring|].
  unfold Qtotal in *. cbn [fold_right]. rewrite qlen_S, (H 0 q eq_refl). change (inject_Z (Z.of_nat 0)) with 0%Q.
  assert (I := IH (x + y)%Q y). rewrite Qmult_plus_distr_r, I; [ring|]. intros j r E. rewrite (H (Datatypes.S j) r E), Nat2Z.inj_succ, <- Z.add_1_r, inject_Z_plus. change (inject_Z 1) with 1%Q. ring.
Qed.
Lemma total_app : forall a b, (Qtotal (a ++ b) == Qtotal a + Qtotal b)%Q.
Proof. induction a as [|x t IH]; intros b; unfold Qtotal in *; cbn [app fold_right]; [ring|]. rewrite IH. ring. Qed.
Lemma nth_error_firstn' : forall X (l : list X) n j x, nth_error (firstn n l) j = Some x -> nth_error l j = Some x.
Proof. intros X l n j x E. rewrite <- (firstn_skipn n l). rewrite nth_error_app1; [exact E|]. apply nth_error_Some. rewrite E. discriminate. Qed.
Lemma nth_error_skipn' : forall X (l : list X) n j, nth_error (skipn n l) j = nth_error l (n + j).
Proof. intros X l. induction l as [|x t IH]; intros [|n] j; try reflexivity; [destruct j; reflexivity|]. cbn. apply IH. Qed.

(** A linear drift of slope [a] seen in [2 m] equally spaced frames. *)
Lemma drift_linear : forall l rep d qs s i a b t0 tau m, drift_result l rep d qs s i -> map d_sig (frames_at rep l) = map Some qs ->
  List.length (frames_at rep l) = 2 * m -> 1 <= m -> linear a b t0 tau (frames_at rep l) -> ~ (tau == 0)%Q ->
  (s * (inject_Z (Z.of_nat (2 * m)) * inject_Z (Z.of_nat (2 * m) - 1)) == a * (inject_Z (Z.of_nat m - 1) * inject_Z (Z.of_nat (2 * m) + 1)))%Q.
Proof.
  intros l rep d qs s i a b t0 tau m DR Hqs L M LIN TN. destruct DR as (_ & _ & m1 & m2 & u1 & u2 & [_ M1] & [_ M2] & [_ U1] & [_ U2] & HS & _).
  assert (HV : halves (frames_at rep l) = m) by (unfold halves; rewrite L, Nat.mul_comm, Nat.div_mul; lia). rewrite HV in *. clear HV.
  set (sel := frames_at rep l) in *.
  assert (LQ : List.length qs = 2 * m) by (rewrite <- L, <- (map_length Some qs), <- Hqs, map_length; reflexivity).
  assert (LT : List.length (times sel) = 2 * m) by (unfold times; rewrite map_length; exact L).
  assert (NQ : forall j q, nth_error qs j = Some q -> (q == (b + a * t0) + (a * tau) * inject_Z (Z.of_nat j))%Q).
  { intros j q E. assert (E' : nth_error (map d_sig sel) j = Some (Some q)) by (rewrite Hqs, nth_error_map, E; reflexivity).
    rewrite nth_error_map in E'. destruct (nth_error sel j) as [f|] eqn:Ef; [|discriminate]. cbn in E'. injection E' as Sf. destruct (LIN j f Ef) as [T (q' & Sf' & Eq)].
    rewrite Sf in Sf'. injection Sf' as <-. rewrite Eq, T. ring. }
  assert (NT : forall j q, nth_error (times sel) j = Some q -> (q == t0 + tau * inject_Z (Z.of_nat j))%Q).
  { intros j q E. unfold times in E. rewrite nth_error_map in E. destruct (nth_error sel j) as [f|] eqn:Ef; [|discriminate]. cbn in E. injection E as <-. destruct (LIN j f Ef) as [T _]. rewrite T. ring. }
  assert (P1 := total_progression (firstn m qs) _ _ (fun j q E => NQ j q (nth_error_firstn' _ _ _ _ _ E))).
  assert (T1 := total_progression (firstn m (times sel)) _ _ (fun j q E => NT j q (nth_error_firstn' _ _ _ _ _ E))).
  assert (P2 : (2 * Qtotal (skipn (m + 1) qs) == qlen (skipn (m + 1) qs) * (2 * (b + a * t0 + a * tau * inject_Z (Z.of_nat (m + 1))) + (a * tau) * (qlen (skipn (m + 1) qs) - 1)))%Q).
  { apply total_progression. intros j q E. rewrite nth_error_skipn' in E. rewrite (NQ _ _ E), (Nat2Z.inj_add (m + 1) j), inject_Z_plus. ring. }
  assert (T2 : (2 * Qtotal (skipn m (times sel)) == qlen (skipn m (times sel)) * (2 * (t0 + tau * inject_Z (Z.of_nat m)) + tau * (qlen (skipn m (times sel)) - 1)))%Q).
  { apply total_progression. intros j q E. rewrite nth_error_skipn' in E. rewrite (NT _ _ E), (Nat2Z.inj_add m j), inject_Z_plus. ring. }
  rewrite total_app in M2.
  set (z := inject_Z (Z.of_nat m)) in *.
  assert (Z1 : (1 <= z)%Q) by (unfold z; change 1%Q with (inject_Z 1); rewrite <- Zle_Qle; lia).
  assert (LA : qlen (firstn m qs) = z) by (unfold qlen, z; rewrite firstn_length, LQ, Nat.min_l by lia; reflexivity).
  assert (LB : qlen (firstn m (times sel)) = z) by (unfold qlen, z; rewrite firstn_length, LT, Nat.min_l by lia; reflexivity).
  assert (LC : qlen (skipn m (times sel)) = z) by (unfold qlen, z; rewrite skipn_length, LT; f_equal; lia).
  assert (LD : (qlen (skipn (m + 1) qs) == z - 1)%Q) by (unfold qlen, z; rewrite skipn_length, LQ; replace (2 * m - (m + 1)) with (m - 1) by lia; rewrite Nat2Z.inj_sub by lia; unfold Z.sub; rewrite inject_Z_plus; reflexivity).
  assert (LE : (qlen (firstn m qs ++ skipn (m + 1) qs) == 2 * z - 1)%Q).
  { unfold qlen, z. rewrite app_length, firstn_length, skipn_length, LQ, Nat.min_l by lia. replace (m + (2 * m - (m + 1))) with (2 * m - 1) by lia. rewrite Nat2Z.inj_sub, Nat2Z.inj_mul by lia. unfold Z.sub. rewrite inject_Z_plus, inject_Z_mult. reflexivity. }
  assert (ZM : (inject_Z (Z.of_nat (m + 1)) == z + 1)%Q) by (unfold z; rewrite Nat2Z.inj_add, inject_Z_plus; reflexivity).
  rewrite LA in *. rewrite LB in *. rewrite LC in *. rewrite LD in P2. rewrite ZM in P2. rewrite LE in M2.
  assert (R1 : (inject_Z (Z.of_nat (2 * m)) == 2 * z)%Q) by (unfold z; rewrite Nat2Z.inj_mul, inject_Z_mult; reflexivity).
  assert (R2 : (inject_Z (Z.of_nat (2 * m) - 1) == 2 * z - 1)%Q) by (unfold Z.sub; rewrite inject_Z_plus, R1; reflexivity).
  assert (R3 : (inject_Z (Z.of_nat m - 1) == z - 1)%Q) by (unfold Z.sub; rewrite inject_Z_plus; reflexivity).
  assert (R4 : (inject_Z (Z.of_nat (2 * m) + 1) == 2 * z + 1)%Q) by (rewrite inject_Z_plus, R1; reflexivity).
  rewrite R1, R2, R3, R4. clear R1 R2 R3 R4 ZM LA LB LC LD LE NQ NT. clearbody z.
  (* means *)
  assert (V1 : (u1 == t0 + tau * (z - 1) / 2)%Q) by (apply (Qmult_inj_r _ _ z); [Lqa.lra|]; apply (Qmult_inj_r _ _ 2); [Lqa.lra|]; rewrite U1; transitivity (2 * Qtotal (firstn m (times sel)))%Q; [ring|]; rewrite T1; field).
  assert (V2 : (u2 == t0 + tau * z + tau * (z - 1) / 2)%Q) by (apply (Qmult_inj_r _ _ z); [Lqa.lra|]; apply (Qmult_inj_r _ _ 2); [Lqa.lra|]; rewrite U2; transitivity (2 * Qtotal (skipn m (times sel)))%Q; [ring|]; rewrite T2; field).
  assert (W1 : (2 * m1 == 2 * (b + a * t0) + a * tau * (z - 1))%Q) by (apply (Qmult_inj_r _ _ z); [Lqa.lra|]; transitivity (2 * Qtotal (firstn m qs))%Q; [rewrite <- M1; ring|]; rewrite P1; ring).
  assert (W2 : (2 * m2 * (2 * z - 1) == z * (2 * (b + a * t0) + a * tau * (z - 1)) + (z - 1) * (2 * (b + a * t0 + a * tau * (z + 1)) + a * tau * (z - 1 - 1)))%Q).
  { transitivity (2 * (m2 * (2 * z - 1)))%Q; [ring|]. rewrite M2. transitivity (2 * Qtotal (firstn m qs) + 2 * Qtotal (skipn (m + 1) qs))%Q; [ring|]. rewrite P1, P2. ring. }
  assert (HS2 : (s * (tau * z) == m2 - m1)%Q) by (rewrite <- HS, V1, V2; field).
  apply (Qmult_inj_r _ _ tau); [exact TN|].
  transitivity (2 * (s * (tau * z)) * (2 * z - 1))%Q; [ring|]. rewrite HS2. transitivity (2 * m2 * (2 * z - 1) - 2 * m1 * (2 * z - 1))%Q; [ring|]. rewrite W2, W1. ring.
Qed.
Lemma drift_linear_wrong : forall l rep d qs s i a b t0 tau m, drift_result l rep d qs s i -> map d_sig (frames_at rep l) = map Some qs ->
  List.length (frames_at rep l) = 2 * m -> 1 <= m -> linear a b t0 tau (frames_at rep l) -> ~ (tau == 0)%Q -> ~ (a == 0)%Q -> ~ (s == a)%Q.
Proof.
  intros l rep d qs s i a b t0 tau m DR Hqs L M LIN TN AN E. assert (H := drift_linear _ _ _ _ _ _ _ _ _ _ _ DR Hqs L M LIN TN). rewrite E in H.
  apply Qmult_inj_l in H; [|exact AN]. rewrite <- !inject_Z_mult in H. unfold Qeq, inject_Z in H. cbn [Qnum Qden] in H. rewrite !Z.mul_1_r, Nat2Z.inj_mul in H. nia.
Qed.

Lemma mean_const : forall l c m, (forall q, In q l -> (q == c)%Q) -> mean_is l m -> (m == c)%Q.
Proof.
  intros l c m H [NE E]. assert (P := qlen_pos _ l NE). apply (Qmult_inj_r m c (qlen l)); [Lqa.lra|]. rewrite E. clear NE E P.
  induction l as [|q t IH]; [unfold qlen; cbn; ring|]. unfold Qtotal in *. cbn [fold_right]. rewrite qlen_S, (H q (or_introl eq_refl)), IH; [ring|]. intros x I. exact (H x (or_intror I)).
Qed.
Lemma in_firstn : forall X (l : list X) n x, In x (firstn n l) -> In x l.
Proof. intros X l n x I. rewrite <- (firstn_skipn n l). apply in_or_app. left. exact I. Qed.
Lemma in_skipn : forall X (l : list X) n x, In x (skipn n l) -> In x l.
Proof. intros X l n x I. rewrite <- (firstn_skipn n l). apply in_or_app. right. exact I. Qed.

Lemma drift_none : forall mn l, (forall f, In f l -> (mn <= d_exp f)%Q) ->
  forall rep qs c, repeated l rep -> 2 <= List.length (frames_at rep l) -> map d_sig (frames_at rep l) = map Some qs -> (forall q, In q qs -> (q == c)%Q) -> ~ (c == 0)%Q ->
  (forall u1 u2, mean_is (firstn (halves (frames_at rep l)) (times (frames_at rep l))) u1 -> mean_is (skipn (halves (frames_at rep l)) (times (frames_at rep l))) u2 -> ~ (u1 == u2)%Q) ->
  exists d s, drift_correct mn l = Ok d /\ dr_slope d = Some s /\ (s == 0)%Q
   /\ Forall (fun x => exists k, x = Some k /\ (k == 1)%Q) (dr_corr d)
   /\ forall j sg, nth_error (dr_signal d) j = Some (Some sg) -> exists o, nth_error (dr_out d) j = Some (Some o) /\ (o == sg)%Q.
Proof.
  intros mn l MIN rep qs c R L Hqs HC NC Hu. destruct (drift_full mn l MIN rep qs R L Hqs Hu) as (d & s & i & E & DR & OUT). exists d, s.
  destruct DR as (Es & Ei & m1 & m2 & u1 & u2 & M1 & M2 & U1 & U2 & HS & HI & HC').
  assert (A1 := mean_const _ c _ (fun q I => HC q (in_firstn _ _ _ _ I)) M1).
  assert (A2 : (m2 == c)%Q). { apply (mean_const _ c _) with (2 := M2). intros q I. apply in_app_or in I. destruct I as [I|I]; [exact (HC q (in_firstn _ _ _ _ I))|exact (HC q (in_skipn _ _ _ _ I))]. }
  assert (SN : (s == 0)%Q). { apply (Qmult_inj_r _ _ (u2 - u1)); [intros Z; apply (Hu u1 u2 U1 U2); Lqa.lra|]. rewrite HS, A1, A2. ring. }
  assert (IC : (i == c)%Q) by (rewrite HI, SN, A1; ring).
  destruct HC' as (t0 & g0 & _ & _ & F); [rewrite IC; exact NC|].
  assert (CO : Forall (fun x => exists k, x = Some k /\ (k == 1)%Q) (dr_corr d)).
  { clear - F SN IC NC. induction F as [|t x ts xs (g & k & _ & Ek & Hk) F IH]; constructor; [|exact IH]. exists k. split; [exact Ek|]. apply (Qmult_inj_r _ _ i); [rewrite IC; exact NC|]. rewrite Hk, SN. ring. }
  split; [exact E|]. split; [exact Es|]. split; [exact SN|]. split; [exact CO|]. intros j sg Hj.
  assert (NE : l <> []) by (intros ->; cbn in L; lia).
  assert (LC : List.length (dr_corr d) = List.length (dr_signal d)).
  { destruct (drift_runs mn l NE MIN) as (rep' & d' & _ & _ & E' & _ & Es' & _ & _ & (x0 & xs & _ & Ec) & _ & _). rewrite E in E'. injection E' as <-. rewrite Es', Ec, !map_length. reflexivity. }
  assert (B : j < List.length (dr_corr d)) by (rewrite LC; apply nth_error_Some; rewrite Hj; discriminate).
  destruct (nth_error (dr_corr d) j) as [x|] eqn:Ex; [|apply nth_error_None in Ex; lia].
  destruct (proj1 (Forall_forall _ _) CO x (nth_error_In _ _ Ex)) as (k & -> & K1). destruct (OUT j sg k Hj Ex) as (o & Eo & Ho); [rewrite K1; discriminate|].
  exists o. split; [exact Eo|]. rewrite <- Ho, K1. ring.
Qed.

(** The correction factor is the ratio of the fitted illumination at the two
    times only in degenerate cases. *)
Lemma drift_ratio : forall i s g g0 x, ~ (i == 0)%Q -> ~ (i + s * g0 == 0)%Q -> (x * i == i + s * (g - g0))%Q ->
  ((x == (i + s * g) / (i + s * g0))%Q <-> (s == 0 \/ g0 == 0 \/ g == g0)%Q).
Proof.
  intros i s g g0 x NI ND H.
  assert (X : (x == (i + s * g) / (i + s * g0))%Q <-> (s * s * g0 * (g - g0) == 0)%Q).
  { split; intros E.
    - rewrite E in H. assert (H2 : ((i + s * g) * i == (i + s * (g - g0)) * (i + s * g0))%Q) by (rewrite <- H; field; exact ND). Lqa.lra.
    - apply (Qmult_inj_r _ _ i); [exact NI|]. apply (Qmult_inj_r _ _ (i + s * g0)); [exact ND|]. rewrite H. transitivity ((i + s * g) * i)%Q; [Lqa.lra|field; exact ND]. }
  rewrite X. split.
  - intros E. apply Qmult_integral in E. destruct E as [E|E]; [|right; right; Lqa.lra]. apply Qmult_integral in E. destruct E as [E|E]; [|right; left; exact E]. apply Qmult_integral in E. destruct E; left; assumption.
  - intros [E|[E|E]]; rewrite E; ring.
Qed.
