(** Proofs about kgain_dataset_2_list. *)
From Coq Require Import List Arith Bool QArith String Sorted Lia Lqa.
From Verif Require Import Base CosmicModel CosmicSpec DqModel DqProofs StackModel StackSpec StackProofs.
Import ListNotations.
Local Open Scope list_scope.
Local Open Scope nat_scope.

Section Kg.
Context {A : Type}.
Notation sframe := (sframe A).
Definition isO (f : sframe) : bool := negb (isM f).
Definition gain_ge1 (f : sframe) (c : Q) : Prop := h_gc (sf_h f) = Some c /\ (1 <= c)%Q.

Lemma others_cons : forall f (t : list sframe), others (f :: t) = if isM f then others t else f :: others t.
Proof. intros f t. unfold others. cbn. fold (@isM A). destruct (isM f); reflexivity. Qed.
Lemma means_cons : forall f (t : list sframe), means (f :: t) = if isM f then f :: means t else means t.
Proof. intros f t. unfold means. cbn. fold (@isM A). destruct (isM f); reflexivity. Qed.

Lemma kg_frames_fwd : forall n g (s s' : kst A), foldR (kg_frame n) s g = Ok s' ->
  (forall f, In f g -> sf_obs f <> None) /\ (forall f, In f (means g) -> unit_gain f) /\ (forall f, In f (others g) -> exists t, has_time f t)
  /\ exists ds gl es, Forall2 has_date (others g) ds /\ Forall2 gain_ge1 (others g) es /\ recf (y_flag s) (others g) gl (y_flag s')
     /\ y_stack s' = y_stack s /\ y_mean s' = y_mean s ++ map sf_px (means g) /\ y_dts s' = y_dts s ++ ds /\ y_ems s' = y_ems s ++ es
     /\ y_lens s' = y_lens s ++ (if y_rlen s && nonempty (others g) then [n] else []) /\ y_gains s' = y_gains s ++ gl /\ y_sub s' = y_sub s ++ map sf_px (others g).
Proof.
  intros n. induction g as [|f t IH]; intros s s' H; cbn [foldR] in H.
  - injection H as <-. split; [intros f []|]. split; [intros f []|]. split; [intros f []|]. exists [], [], []. cbn. rewrite andb_false_r, !app_nil_r.
    split; [constructor|]. split; [constructor|]. split; [destruct (y_flag s); constructor|]. repeat (split; [reflexivity|]). reflexivity.
  - destruct (kg_frame n s f) as [s1|] eqn:E; cbn [bind] in H; [|discriminate]. destruct (IH s1 s' H) as (K & U & T & ds & gl & es & F1 & F2 & R & C1 & C2 & C3 & C4 & C5 & C6 & C7). clear IH H.
    unfold kg_frame in E. destruct (sf_time f) as [q|] eqn:Et; cbn [getkey bind] in E; [|discriminate]. cbv zeta in E. destruct (negb (Qeq_bool q _)); [discriminate|].
    destruct (sf_obs f) as [obs|] eqn:Eo; cbn [getkey bind] in E; [|discriminate].
    assert (EM : isM f = String.eqb obs "MNFRAME") by (unfold isM, obs_is; rewrite Eo; cbn; rewrite orb_false_r; reflexivity). rewrite <- EM in E.
    rewrite means_cons, others_cons. destruct (isM f) eqn:Mf.
    + destruct (h_gc (sf_h f)) as [c|] eqn:Ec; cbn [getkey bind] in E; [|discriminate]. destruct (negb (Qeq_bool c 1)) eqn:E1; [discriminate|]. apply negb_false_iff, Qeq_bool_iff in E1.
      injection E as <-. cbn [y_stack y_mean y_dts y_ems y_lens y_gains y_sub y_rect y_rlen y_flag] in *.
      split; [intros g [<-|I]; [congruence|exact (K g I)]|]. split; [intros g [<-|I]; [exists c; split; assumption|exact (U g I)]|]. split; [exact T|].
      exists ds, gl, es. split; [exact F1|]. split; [exact F2|]. split; [exact R|]. split; [exact C1|]. split; [rewrite C2, <- app_assoc; reflexivity|].
      repeat (split; [assumption|]). assumption.
    + destruct (time_of f) as [q'|] eqn:Et2; cbn [bind] in E; [|discriminate]. apply time_of_iff in Et2.
      destruct (date_of f) as [d|] eqn:Ed; cbn [bind] in E; [|discriminate]. apply date_of_iff in Ed.
      destruct (h_gc (sf_h f)) as [c|] eqn:Ec; cbn [getkey bind] in E; [|discriminate]. destruct (negb (Qle_bool 1 c)) eqn:E1; [discriminate|]. apply negb_false_iff, Qle_bool_iff in E1.
      destruct (record (y_gains s) (y_flag s) f) as [[gs b]|] eqn:Er; cbn [bind] in E; [|discriminate]. apply record_fwd in Er. destruct Er as (g1 & -> & RR).
      injection E as <-. cbn [y_stack y_mean y_dts y_ems y_lens y_gains y_sub y_rect y_rlen y_flag fst snd andb] in *.
      split; [intros g [<-|I]; [congruence|exact (K g I)]|]. split; [exact U|]. split; [intros g [<-|I]; [exists q'; exact Et2|exact (T g I)]|].
      exists (d :: ds), (g1 ++ gl), (c :: es). split; [constructor; assumption|]. split; [constructor; [split; assumption|assumption]|]. split; [exact (RR _ _ _ R)|].
      split; [exact C1|]. split; [exact C2|]. split; [rewrite C3, <- app_assoc; reflexivity|]. split; [rewrite C4, <- app_assoc; reflexivity|].
      split; [rewrite C5, app_nil_r; unfold nonempty; cbn [List.length Nat.eqb negb]; rewrite andb_true_r; destruct (y_rlen s); [reflexivity|symmetry; apply app_nil_r]|].
      split; [rewrite C6, <- app_assoc; reflexivity|]. rewrite C7, <- app_assoc. reflexivity.
Qed.
Lemma kg_frames_total : forall n m g (s : kst A), (forall f, In f g -> sf_obs f <> None) -> (forall f, In f (means g) -> unit_gain f) -> (forall f, In f (others g) -> exists t, has_time f t) ->
  (forall f, In f g -> exists t, sf_time f = Some t /\ (t == m)%Q) -> (match y_rect s with Some x => (x == m)%Q | None => True end) ->
  (exists ds, Forall2 has_date (others g) ds) -> (exists es, Forall2 gain_ge1 (others g) es) -> (exists gl b, recf (y_flag s) (others g) gl b) -> exists s', foldR (kg_frame n) s g = Ok s'.
Proof.
  intros n m. induction g as [|f t IH]; intros s K U T TM TS [ds F1] [es F2] (gl & b & R); [exists s; reflexivity|]. cbn [foldR].
  destruct (TM f (or_introl eq_refl)) as (q & Et & Eq). unfold kg_frame at 1. rewrite Et. cbn [getkey bind]. cbv zeta.
  assert (E1 : Qeq_bool q match y_rect s with Some x => x | None => q end = true) by (apply Qeq_bool_iff; destruct (y_rect s); [Lqa.lra|reflexivity]). rewrite E1. cbn [negb].
  assert (TS' : (match y_rect s with Some x => x | None => q end == m)%Q) by (destruct (y_rect s); assumption).
  destruct (sf_obs f) as [o|] eqn:Eo; [|exfalso; apply (K f (or_introl eq_refl)); exact Eo]. cbn [getkey bind].
  assert (EM : isM f = String.eqb o "MNFRAME") by (unfold isM, obs_is; rewrite Eo; cbn; rewrite orb_false_r; reflexivity). rewrite <- EM.
  rewrite means_cons in U. rewrite others_cons in *. destruct (isM f) eqn:Mf.
  - destruct (U f (or_introl eq_refl)) as (c & Ec & Hc). rewrite Ec. cbn [getkey bind]. rewrite (proj2 (Qeq_bool_iff c 1) Hc). cbn [negb bind].
    apply IH; cbn [y_rect y_flag]; [intros g I; exact (K g (or_intror I))|intros g I; exact (U g (or_intror I))|exact T|intros g I; exact (TM g (or_intror I))|exact TS'|exists ds; exact F1|exists es; exact F2|exists gl, b; exact R].
  - inversion F1 as [|f1 d t1 ds' Hd F1']; subst. inversion F2 as [|f2 c t2 es' [Hc1 Hc2] F2']; subst. destruct (T f (or_introl eq_refl)) as (q' & Hq').
    destruct (record_total (y_gains s) _ _ _ _ _ R) as (gs & b' & gl' & Er & R').
    rewrite (proj2 (time_of_iff f q') Hq'). cbn [bind]. rewrite (proj2 (date_of_iff f d) Hd). cbn [bind]. rewrite Hc1. cbn [getkey bind].
    rewrite (proj2 (Qle_bool_iff 1 c) Hc2). cbn [negb]. rewrite Er. cbn [bind fst snd].
    apply IH; cbn [y_rect y_flag]; [intros g I; exact (K g (or_intror I))|exact U|intros g I; exact (T g (or_intror I))|intros g I; exact (TM g (or_intror I))|exact TS'|exists ds'; exact F1'|exists es'; exact F2'|exists gl', b; exact R'].
Qed.

Lemma kg_sets_fwd : forall gs (s s' : kst A), foldR kg_set s gs = Ok s' ->
  (forall f, In f (List.concat gs) -> sf_obs f <> None) /\ (forall f, In f (List.concat (map means gs)) -> unit_gain f) /\ (forall f, In f (List.concat (map others gs)) -> exists t, has_time f t)
  /\ exists ds gl es, Forall2 has_date (List.concat (map others gs)) ds /\ Forall2 gain_ge1 (List.concat (map others gs)) es /\ Forall2 recorded (map others gs) gl
     /\ y_stack s' = y_stack s ++ map (map sf_px) (filter nonempty (map others gs)) /\ y_mean s' = y_mean s ++ map sf_px (List.concat (map means gs))
     /\ y_dts s' = y_dts s ++ ds /\ y_ems s' = y_ems s ++ es
     /\ y_lens s' = y_lens s ++ map (@List.length _) (filter (fun g => nonempty (others g)) gs) /\ y_gains s' = y_gains s ++ List.concat gl.
Proof.
  induction gs as [|g t IH]; intros s s' H; cbn [foldR] in H.
  - injection H as <-. split; [intros f []|]. split; [intros f []|]. split; [intros f []|]. exists [], [], []. cbn. rewrite !app_nil_r.
    repeat (split; [constructor|]). repeat (split; [reflexivity|]). reflexivity.
  - destruct (kg_set s g) as [s2|] eqn:E; cbn [bind] in H; [|discriminate]. destruct (IH s2 s' H) as (K & U & T & ds & gl & es & F1 & F2 & R & C1 & C2 & C3 & C4 & C5 & C6). clear IH H.
    unfold kg_set in E. destruct (foldR (kg_frame _) _ g) as [s1|] eqn:Ef; cbn [bind] in E; [|discriminate]. apply kg_frames_fwd in Ef.
    cbn [y_stack y_mean y_dts y_ems y_lens y_gains y_sub y_rect y_rlen y_flag andb] in Ef. destruct Ef as (K1 & U1 & T1 & ds1 & gl1 & es1 & A1 & A2 & A3 & B1 & B2 & B3 & B4 & B5 & B6 & B7).
    assert (ES : y_stack s2 = y_stack s1 ++ map (map sf_px) (filter nonempty [others g]) /\ y_mean s2 = y_mean s1 /\ y_dts s2 = y_dts s1 /\ y_ems s2 = y_ems s1 /\ y_lens s2 = y_lens s1 /\ y_gains s2 = y_gains s1).
    { injection E as <-. cbn [app] in B7. destruct (others g) as [|c0 cs] eqn:Ecs; cbn [map] in B7; rewrite B7; cbn; rewrite ?app_nil_r; repeat (split; [reflexivity|]); reflexivity. }
    clear E. destruct ES as (D1 & D2 & D3 & D4 & D5 & D6).
    cbn [map List.concat]. split; [intros f I; apply in_app_or in I; destruct I as [I|I]; [exact (K1 f I)|exact (K f I)]|].
    split; [intros f I; apply in_app_or in I; destruct I as [I|I]; [exact (U1 f I)|exact (U f I)]|].
    split; [intros f I; apply in_app_or in I; destruct I as [I|I]; [exact (T1 f I)|exact (T f I)]|].
    exists (ds1 ++ ds), (gl1 :: gl), (es1 ++ es). split; [apply Forall2_app; assumption|]. split; [apply Forall2_app; assumption|].
    split; [constructor; [exact (recf_recorded _ _ _ A3)|exact R]|].
    split; [rewrite C1, D1, B1; cbn [filter]; destruct (nonempty (others g)); cbn; rewrite <- ?app_assoc; reflexivity|].
    split; [rewrite C2, D2, B2, map_app, <- app_assoc; reflexivity|]. split; [rewrite C3, D3, B3, <- app_assoc; reflexivity|].
    split; [rewrite C4, D4, B4, <- app_assoc; reflexivity|].
    split; [rewrite C5, D5, B5; cbn [filter]; destruct (nonempty (others g)); cbn [map]; rewrite <- app_assoc; reflexivity|].
    rewrite C6, D6, B6. cbn [List.concat]. rewrite <- app_assoc. reflexivity.
Qed.
Lemma kg_sets_total : forall gs (s : kst A), (forall f, In f (List.concat gs) -> sf_obs f <> None) -> (forall f, In f (List.concat (map means gs)) -> unit_gain f) ->
  (forall f, In f (List.concat (map others gs)) -> exists t, has_time f t) ->
  Forall (fun g => exists m, forall f, In f g -> exists t, sf_time f = Some t /\ (t == m)%Q) gs ->
  (exists ds, Forall2 has_date (List.concat (map others gs)) ds) -> (exists es, Forall2 gain_ge1 (List.concat (map others gs)) es) -> (exists gl, Forall2 recorded (map others gs) gl) -> exists s', foldR kg_set s gs = Ok s'.
Proof.
  induction gs as [|g t IH]; intros s K U T TM [ds F1] [es F2] (gl & R); [exists s; reflexivity|]. cbn [foldR]. cbn [map List.concat] in *.
  apply Forall2_split in F1. destruct F1 as [F1a F1b]. apply Forall2_split in F2. destruct F2 as [F2a F2b].
  inversion R as [|l0 r0 ls0 rs0 R1 R2]; subst. destruct (recorded_recf _ _ R1) as [b Rb]. inversion TM as [|g0 gs0 [m TM1] TM2]; subst.
  destruct (kg_frames_total (List.length g) m g (mkk (y_stack s) (y_mean s) (y_dts s) (y_ems s) (y_lens s) (y_gains s) [] None true true)) as [s1 E1].
  - intros f I. apply K. apply in_or_app. left. exact I.
  - intros f I. apply U. apply in_or_app. left. exact I.
  - intros f I. apply T. apply in_or_app. left. exact I.
  - exact TM1.
  - exact I.
  - exact F1a.
  - exact F2a.
  - exists r0, b. exact Rb.
  - unfold kg_set at 1. rewrite E1. cbn [bind].
    apply IH; [intros f I; apply K; apply in_or_app; right; exact I|intros f I; apply U; apply in_or_app; right; exact I|intros f I; apply T; apply in_or_app; right; exact I|exact TM2|exact F1b|exact F2b|exists rs0; exact R2].
Qed.

(** * Pieces *)
Lemma pieces_spec : forall n r (l : list A), List.length l = r * n -> Forall (fun p => List.length p = n) (pieces n r l) /\ List.concat (pieces n r l) = l.
Proof.
  intros n. induction r as [|r IH]; intros l H; cbn [pieces].
  - cbn in H. destruct l; [split; [constructor|reflexivity]|discriminate].
  - cbn in H. destruct (IH (skipn n l)) as [F C]; [rewrite skipn_length; lia|]. split; [constructor; [rewrite firstn_length; lia|exact F]|]. cbn. rewrite C. apply firstn_skipn.
Qed.
Lemma resplit_fwd : forall n stack out, 0 < n -> resplit n stack = Ok out ->
  Forall (fun s => exists k, List.length s = k * n) stack /\ Forall (fun p : list A => List.length p = n) out /\ List.concat out = List.concat stack.
Proof.
  intros n. induction stack as [|s t IH]; intros out Hn H; cbn [resplit] in H.
  - injection H as <-. split; [constructor|]. split; [constructor|reflexivity].
  - destruct (if Nat.eqb (List.length s) n then _ else _) as [here|] eqn:Eh; cbn [bind] in H; [|discriminate].
    destruct (resplit n t) as [rest|]; cbn [bind] in H; [|discriminate]. injection H as <-. destruct (IH rest Hn eq_refl) as (F1 & F2 & F3).
    assert (W : (exists k, List.length s = k * n) /\ Forall (fun p : list A => List.length p = n) here /\ List.concat here = s).
    { destruct (Nat.eqb (List.length s) n) eqn:E1.
      - apply Nat.eqb_eq in E1. injection Eh as <-. split; [exists 1; lia|]. split; [constructor; [exact E1|constructor]|apply app_nil_r].
      - destruct (negb (Nat.eqb (List.length s mod n) 0)) eqn:E2; [discriminate|]. injection Eh as <-. apply negb_false_iff, Nat.eqb_eq in E2.
        assert (L : List.length s = (List.length s / n) * n) by (rewrite Nat.mul_comm; apply Nat.div_exact; [lia|exact E2]).
        split; [exists (List.length s / n); exact L|]. exact (pieces_spec n _ s L). }
    destruct W as (W1 & W2 & W3). split; [constructor; assumption|]. split; [apply Forall_app; split; assumption|]. rewrite concat_app, W3, F3. reflexivity.
Qed.
Lemma resplit_total : forall n stack, 0 < n -> Forall (fun s : list A => exists k, List.length s = k * n) stack -> exists out, resplit n stack = Ok out.
Proof.
  intros n stack Hn F. induction F as [|s t [k Hk] F [out IH]]; [exists []; reflexivity|]. cbn [resplit]. rewrite IH.
  destruct (Nat.eqb (List.length s) n); [eexists; reflexivity|]. rewrite Hk, Nat.mod_mul by lia. eexists. reflexivity.
Qed.
Lemma pieces_unique : forall n (l m : list (list A)), 0 < n -> Forall (fun p => List.length p = n) l -> Forall (fun p => List.length p = n) m -> List.concat l = List.concat m -> l = m.
Proof.
  intros n l m Hn F. revert m. induction F as [|p t Hp F IH]; intros m G E.
  - destruct m as [|q u]; [reflexivity|]. inversion G as [|q' u' Hq Hu]; subst. cbn in E. destruct q; [cbn in Hn; lia|discriminate].
  - destruct m as [|q u]; [cbn in E; destruct p; [cbn in *; lia|discriminate]|]. inversion G as [|q' u' Hq Hu]; subst. cbn in E.
    assert (W : p = q /\ List.concat t = List.concat u).
    { clear - E Hq. revert q E Hq. induction p as [|a p IH]; intros [|b q] E Hq; try discriminate Hq; [split; [reflexivity|exact E]|].
      cbn in E. injection E as -> E. destruct (IH q E) as [-> E']; [cbn in Hq; lia|]. split; [reflexivity|exact E']. }
    destruct W as [-> W]. f_equal. exact (IH u Hu W).
Qed.
End Kg.

Lemma list_min_spec : forall l, match list_min l with Some n => In n l /\ forall x, In x l -> n <= x | None => l = [] end.
Proof.
  intros [|x t]; [reflexivity|]. cbn [list_min].
  assert (G : forall t x, In (fold_left Nat.min t x) (x :: t) /\ forall y, In y (x :: t) -> fold_left Nat.min t x <= y).
  { clear. induction t as [|a t IH]; intros x; cbn [fold_left]; [split; [left; reflexivity|intros y [->|[]]; lia]|].
    destruct (IH (Nat.min x a)) as [I L]. split.
    - destruct I as [I|I]; [|right; right; exact I]. rewrite <- I. destruct (Nat.min_dec x a) as [->| ->]; [left; reflexivity|right; left; reflexivity].
    - intros y [<-|[<-|J]]; [| |apply L; right; exact J]; assert (H := L (Nat.min x a) (or_introl eq_refl)); lia. }
  exact (G t x).
Qed.
Lemma quniq_one : forall l, List.length (quniq l) = 1 <-> exists c, l <> [] /\ forall x, In x l -> (x == c)%Q.
Proof.
  intros l. split.
  - intros H. destruct (quniq l) as [|c [|d u]] eqn:E; try discriminate H. exists c. split; [intros ->; discriminate E|].
    intros x I. destruct (proj2 (quniq_in l x)) as (k & Ik & Ek); [exists x; split; [exact I|reflexivity]|]. rewrite E in Ik. destruct Ik as [<-|[]]. symmetry. exact Ek.
  - intros (c & N & H). assert (St := quniq_sorted l).
    assert (M : forall k, In k (quniq l) -> (k == c)%Q).
    { intros k I. destruct (proj1 (quniq_in l k)) as (x & Ix & Ex); [exists k; split; [exact I|reflexivity]|]. rewrite <- Ex. exact (H x Ix). }
    destruct l as [|x t]; [contradiction|].
    destruct (quniq (x :: t)) as [|a [|b u]] eqn:E; [|reflexivity|].
    + assert (W : inq x (quniq (x :: t))) by (apply quniq_in; exists x; split; [left; reflexivity|reflexivity]). rewrite E in W. destruct W as (k & [] & _).
    + exfalso. inversion St as [|a' l' _ F]; subst. inversion F as [|b' l' L _]; subst. assert (Ha := M a (or_introl eq_refl)). assert (Hb := M b (or_intror (or_introl eq_refl))). Lqa.lra.
Qed.

Section KgMain.
Context {A : Type}.
Notation sframe := (sframe A).
Lemma others_concat : forall gs : list (list sframe), List.concat (map others gs) = others (List.concat gs).
Proof. intros gs. symmetry. apply filter_concat. Qed.
Lemma filter_map_others : forall gs : list (list sframe), filter nonempty (map others gs) = map others (filter (fun g => nonempty (others g)) gs).
Proof. induction gs as [|g t IH]; [reflexivity|]. cbn. destruct (nonempty (others g)); cbn; rewrite IH; reflexivity. Qed.

Lemma kg_fwd : forall (fs : list sframe) st mn ga, kgain_dataset_2_list fs = Ok (st, mn, ga) -> kg_result fs st mn ga.
Proof.
  intros fs st mn ga H. unfold kgain_dataset_2_list in H. destruct (qgroups _ fs) as [[ks gs]|] eqn:Eg; cbn [bind] in H; [|discriminate].
  apply qgroups_fwd in Eg. cbn [fst snd] in H. destruct (foldR kg_set k0 gs) as [s|] eqn:Es; cbn [bind] in H; [|discriminate].
  apply kg_sets_fwd in Es. cbn [k0 y_stack y_mean y_dts y_ems y_lens y_gains y_sub y_rect y_rlen y_flag app] in Es.
  destruct Es as (K & U & T & ds & gl & es & F1 & F2 & R & C1 & C2 & C3 & C4 & C5 & C6).
  assert (ML := list_min_spec (y_lens s)). destruct (list_min (y_lens s)) as [n|]; [|discriminate]. destruct ML as [MI ML]. rewrite C5 in MI, ML.
  assert (Hn : 0 < n).
  { apply in_map_iff in MI. destruct MI as (g & <- & Ig). apply filter_In in Ig. destruct Ig as [_ Ng]. destruct g as [|f t]; [discriminate|]. cbn. lia. }
  destruct (resplit n (y_stack s)) as [stack|] eqn:Er; cbn [bind] in H; [|discriminate]. apply resplit_fwd in Er; [|exact Hn]. destruct Er as (E1 & E2 & E3). rewrite C1 in E1, E3.
  destruct (negb (nodupb (y_dts s))) eqn:En; [discriminate|]. apply negb_false_iff, nodupb_iff in En. rewrite C3 in En.
  destruct (negb (Nat.eqb (List.length (quniq (y_ems s))) 1)) eqn:Eq; [discriminate|]. apply negb_false_iff, Nat.eqb_eq, quniq_one in Eq. rewrite C4 in Eq. destruct Eq as (c & NE & EC).
  destruct (existsb _ (y_gains s)) eqn:Ege; [discriminate|]. apply below_one in Ege. rewrite C6 in Ege.
  injection H as <- <- <-. exists ks, gs, n. split; [exact Eg|].
  split; [intros f I; apply K; apply (grouped_in _ _ _ _ f Eg); exact I|].
  split; [intros f I; apply U; rewrite means_concat; apply (in_filter_grouped _ _ _ _ _ f Eg); exact I|].
  split; [exact C2|].
  split; [intros f I; apply T; rewrite others_concat; apply (in_filter_grouped _ _ _ _ _ f Eg); exact I|].
  split; [exists ds; split; assumption|].
  split.
  { exists c. assert (W : forall l e, Forall2 (@gain_ge1 A) l e -> (forall x, In x e -> (x == c)%Q) -> (forall f, In f l -> exists c', h_gc (sf_h f) = Some c' /\ (c' == c)%Q) /\ (e <> [] -> (1 <= c)%Q)).
    { clear. intros l e F. induction F as [|f x l e [Hf Hx] F IH]; intros H; [split; [intros f []|intros N; contradiction]|]. destruct IH as [I1 _]; [intros y J; exact (H y (or_intror J))|].
      assert (Hc := H x (or_introl eq_refl)). split; [intros g [<-|I]; [exists x; split; [exact Hf|exact Hc]|exact (I1 g I)]|intros _; Lqa.lra]. }
    destruct (W _ _ F2 EC) as [W1 W2]. split; [exact (W2 NE)|]. intros f I. apply W1. rewrite others_concat. apply (in_filter_grouped _ _ _ _ _ f Eg). exact I. }
  split; [exact MI|].
  split. { intros g Ig Ng. apply ML. apply in_map. apply filter_In. split; [exact Ig|]. destruct (others g); [contradiction|reflexivity]. }
  split. { intros g Ig. destruct (others g) as [|f0 r0] eqn:Eo; [exists 0; reflexivity|]. rewrite Forall_forall in E1. 
    destruct (E1 (map sf_px (others g))) as [k Hk]; [|exists k; rewrite <- Eo; rewrite map_length in Hk; exact Hk].
    apply in_map. apply filter_In. split; [apply in_map; exact Ig|rewrite Eo; reflexivity]. }
  split; [exact E2|]. split; [rewrite E3, <- concat_map, concat_nonempty; reflexivity|].
  exists gl. split; [exact R|]. split; [exact Ege|]. split; [|unfold qmean, qsum; rewrite C6; reflexivity].
  (* a calibration frame records a gain *)
  apply in_map_iff in MI. destruct MI as (g & _ & Ig). apply filter_In in Ig. destruct Ig as [Ig Ng].
  intros N. clear - R Ig Ng N. revert gl R N. induction gs as [|g0 t IH]; intros gl R N; [contradiction|]. cbn [map] in R. inversion R as [|? r0 ? rs R1 R2]; subst. cbn in N.
  apply app_eq_nil in N. destruct N as [-> N]. destruct Ig as [->|Ig]; [|exact (IH Ig rs R2 N)]. destruct (others g); [discriminate|]. inversion R1.
Qed.

Lemma kg_total : forall (fs : list sframe) st mn ga, kg_result fs st mn ga -> exists r, kgain_dataset_2_list fs = Ok r.
Proof.
  intros fs st mn ga (ks0 & gs0 & n & G0 & K & U & _ & T & (ds & FD & ND) & (c & Hc & EC) & MI & ML & DIV & _ & _ & gl & R & GE & NE & _).
  destruct (qgroups_total (@sf_time A) fs) as [[ks gs] Eg].
  { intros f I. destruct G0 as (_ & H & _). destruct (H f I) as (q & Hq & _). exists q. exact Hq. }
  assert (G := qgroups_fwd _ _ _ _ Eg). destruct (grouped_unique _ _ _ _ _ _ G0 G) as [FQ <-].
  unfold kgain_dataset_2_list. rewrite Eg. cbn [bind fst snd].
  assert (OI : forall f, In f (List.concat (map others gs0)) -> In f (others fs)).
  { intros f I. rewrite others_concat in I. apply (in_filter_grouped _ _ _ _ _ f G). exact I. }
  assert (FE : exists es, Forall2 (@gain_ge1 A) (List.concat (map others gs0)) es).
  { assert (W : forall l : list sframe, (forall f, In f l -> exists c', h_gc (sf_h f) = Some c' /\ (c' == c)%Q) -> exists es, Forall2 (@gain_ge1 A) l es).
    { induction l as [|f t IH]; intros H; [exists []; constructor|]. destruct (H f (or_introl eq_refl)) as (c' & E1 & E2). destruct IH as [es F]; [intros g I; exact (H g (or_intror I))|].
      exists (c' :: es). constructor; [split; [exact E1|Lqa.lra]|exact F]. }
    apply W. intros f I. exact (EC f (OI f I)). }
  destruct (kg_sets_total gs0 k0) as [s Es].
  - intros f I. apply K. apply (grouped_in _ _ _ _ f G). exact I.
  - intros f I. apply U. rewrite means_concat in I. apply (in_filter_grouped _ _ _ _ _ f G). exact I.
  - intros f I. exact (T f (OI f I)).
  - destruct G as (_ & _ & G). clear - G. apply Forall_forall. intros g I. induction G as [|k g' ks gs [_ E] G IH]; [contradiction|]. destruct I as [->|I]; [|exact (IH I)].
    exists k. intros f If. rewrite E in If. apply filter_In in If. destruct If as [_ If]. destruct (sf_time f) as [q|]; [|discriminate]. exists q. split; [reflexivity|]. apply Qeq_bool_iff. exact If.
  - exists ds. exact FD.
  - exact FE.
  - exists gl. exact R.
  - rewrite Es. cbn [bind]. apply kg_sets_fwd in Es. cbn [k0 y_stack y_mean y_dts y_ems y_lens y_gains y_sub y_rect y_rlen y_flag app] in Es.
    destruct Es as (_ & _ & _ & ds' & gl' & es & A1 & A2 & A3 & C1 & C2 & C3 & C4 & C5 & C6).
    assert (ds' = ds) by (eapply Forall2_fun; [|exact A1|exact FD]; unfold has_date; congruence). subst ds'.
    assert (gl' = gl) by (apply (Forall2_fun _ _ recorded (map others gs0)); [exact recorded_unique|exact A3|exact R]). subst gl'.
    assert (LM := list_min_spec (y_lens s)). destruct (list_min (y_lens s)) as [n'|].
    2:{ exfalso. rewrite C5 in LM. change (In n (map (@List.length _) (filter (fun g => nonempty (others g)) gs0))) in MI. rewrite LM in MI. contradiction. }
    destruct LM as [LI LL]. rewrite C5 in LI, LL.
    assert (n' = n).
    { assert (n' <= n) by (apply LL; exact MI). apply in_map_iff in LI. destruct LI as (g & <- & Ig). apply filter_In in Ig. destruct Ig as [Ig Ng].
      assert (n <= List.length g) by (apply ML; [exact Ig|destruct (others g); [discriminate|discriminate]]). lia. }
    subst n'. assert (Hn : 0 < n).
    { apply in_map_iff in LI. destruct LI as (g & <- & Ig). apply filter_In in Ig. destruct Ig as [_ Ng]. destruct g as [|f t]; [discriminate|]. cbn. lia. }
    destruct (resplit_total n (y_stack s) Hn) as [out Eo].
    { rewrite C1. apply Forall_forall. intros l I. apply in_map_iff in I. destruct I as (l' & <- & I). apply filter_In in I. destruct I as [I _]. apply in_map_iff in I. destruct I as (g & <- & I).
      rewrite map_length. exact (DIV g I). }
    rewrite Eo. cbn [bind]. rewrite H, (proj2 (nodupb_iff ds) ND). cbn [negb].
    assert (Q1 : List.length (quniq (y_ems s)) = 1).
    { apply quniq_one. exists c. rewrite C4. split.
      - intros ->. apply NE. inversion A2 as [E0|]. clear - R E0. symmetry in E0. revert gl R. induction gs0 as [|g t IH]; intros gl R; inversion R as [|? r0 ? rs R1 R2]; subst; [reflexivity|].
        cbn in E0. apply app_eq_nil in E0. destruct E0 as [E1 E2]. rewrite E1 in R1. inversion R1; subst. cbn. apply IH; assumption.
      - intros x I. clear - A2 EC OI I. assert (W : exists f, In f (List.concat (map others gs0)) /\ gain_ge1 f x).
        { revert A2. generalize (List.concat (map others gs0)) as l. intros l A2. induction A2 as [|f y l es Hf A2 IH]; [contradiction|]. destruct I as [->|I]; [exists f; split; [left; reflexivity|exact Hf]|].
          destruct (IH I) as (f' & I' & H'). exists f'. split; [right; exact I'|exact H']. }
        destruct W as (f & If & Hf & _). destruct (EC f (OI f If)) as (c' & E1 & E2). rewrite Hf in E1. injection E1 as <-. exact E2. }
    rewrite Q1. cbn [Nat.eqb negb]. rewrite C6, (proj2 (below_one _) GE). eexists. reflexivity.
Qed.
Lemma kg_fun : forall (fs : list sframe) st mn ga st' mn' ga', kg_result fs st mn ga -> kg_result fs st' mn' ga' -> (st, mn, ga) = (st', mn', ga').
Proof.
  intros fs st mn ga st' mn' ga' (ks & gs & n & G & _ & _ & H1 & _ & _ & _ & H2 & H3 & _ & H4 & H5 & gl & H6 & _ & _ & H7)
    (ks' & gs' & n' & G' & _ & _ & H1' & _ & _ & _ & H2' & H3' & _ & H4' & H5' & gl' & H6' & _ & _ & H7').
  destruct (grouped_unique _ _ _ _ _ _ G G') as [_ <-].
  assert (gl = gl') by (apply (Forall2_fun _ _ recorded (map others gs)); [exact recorded_unique|exact H6|exact H6']). subst gl'.
  assert (n = n' /\ 0 < n).
  { apply in_map_iff in H2. destruct H2 as (g & <- & Ig). apply in_map_iff in H2'. destruct H2' as (g' & <- & Ig'). apply filter_In in Ig, Ig'. destruct Ig as [Ig Ng], Ig' as [Ig' Ng'].
    assert (B : List.length g <= List.length g') by (apply H3; [exact Ig'|intros E; rewrite E in Ng'; discriminate]).
    assert (B' : List.length g' <= List.length g) by (apply H3'; [exact Ig|intros E; rewrite E in Ng; discriminate]).
    split; [lia|]. destruct g; [discriminate|cbn; lia]. }
  destruct H as [<- Hn]. assert (st = st') by (apply (pieces_unique n); [exact Hn|exact H4|exact H4'|rewrite H5, H5'; reflexivity]). congruence.
Qed.
Lemma kg_iff : forall (fs : list sframe) st mn ga, kgain_dataset_2_list fs = Ok (st, mn, ga) <-> kg_result fs st mn ga.
Proof.
  intros fs st mn ga. split; [apply kg_fwd|]. intros H. destruct (kg_total fs st mn ga H) as [[[st' mn'] ga'] E]. rewrite E. f_equal.
  apply (kg_fun fs); [apply kg_fwd; exact E|exact H].
Qed.
End KgMain.
