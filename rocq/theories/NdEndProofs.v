(** create_nd_filter_cal. *)
From Coq Require Import List Arith Bool Reals String Sorted Permutation Lia Lra.
From Verif Require Import Base DqModel DqProofs AngleModel ComboSpec ComboProofs SplitSpec SortGroupProofs NdModel NdSpec NdProofs NdRunProofs NdTopProofs.
Import ListNotations.
Local Open Scope R_scope.

Section End_.
Variable D : Type.
Notation frame := (frame D).
Variable leb : string -> string -> bool.
Hypothesis Leb : total_order leb.
Variables aper_factor gauss_factor : frame -> result R.
Variables aper_phot gauss_phot : frame -> result (option R).
Variable centroid : D -> result (option (R * R)).
Variable irradiance : string -> string -> result posreal.
Notation calibrates := (calibrates leb aper_factor gauss_factor aper_phot gauss_phot centroid irradiance).
Notation measure := (measure D leb aper_factor gauss_factor aper_phot gauss_phot centroid irradiance).

Lemma group_by_total : forall key (fs : list frame), (forall f, In f fs -> key f <> None) -> exists gs, group_by D leb key fs = Ok gs.
Proof.
  intros key fs H. unfold group_by. destruct (mapR (fun f => getkey (key f)) fs) as [ks|e] eqn:M; cbn [bind]; [eauto|]. apply mapR_raise in M. destruct M as (f & I & G). specialize (H f I). destruct (key f); [discriminate G|congruence].
Qed.
Definition unlit (key : frame -> option string) (f : frame) : bool := negb (match key f with Some k => is_nd k | None => false end).
Lemma unlit_iff : forall key f, unlit key f = true <-> ~ filtered key f.
Proof.
  intros key f. unfold unlit, filtered. destruct (key f) as [k|]; cbn [negb].
  - destruct (is_nd k) eqn:E; cbn [negb].
    + apply prefix_iff in E. destruct E as [r ->]. split; [discriminate|]. intros H. exfalso. apply H. eauto.
    + split; [|reflexivity]. intros _ [r H]. assert (is_nd k = true) by (apply prefix_iff; exists r; congruence). congruence.
  - split; [|reflexivity]. intros _ [r H]. discriminate H.
Qed.
Lemma dim_perm : forall key (fs : list frame) ks, StronglySorted (slt leb) ks -> (forall k, In k ks <-> exists f, In f fs /\ key f = Some k) -> (forall f, In f fs -> key f <> None) ->
  Permutation (part D false (map (fun k => (k, filter (has_name D key k) fs)) ks)) (filter (unlit key) fs).
Proof.
  intros key fs ks S C K. rewrite part_map, flat_perm by (apply NoDup_filter; exact (slt_nodup leb ks S)).
  match goal with |- Permutation ?a ?b => replace a with b; [reflexivity|] end. apply filter_ext_in. intros f I. specialize (K f I). destruct (key f) as [k|] eqn:E; [|congruence]. assert (Ik : In k ks) by (apply C; eauto). unfold unlit. rewrite E.
  destruct (is_nd k) eqn:N; cbn [negb]; symmetry.
  - destruct (existsb _ _) eqn:X; [|reflexivity]. apply existsb_exists in X. destruct X as (k' & I' & H'). apply has_name_iff in H'. apply filter_In in I'. destruct I' as [_ I']. assert (k' = k) by congruence. subst. rewrite N in I'. discriminate I'.
  - apply existsb_exists. exists k. split; [|apply has_name_iff; exact E]. apply filter_In. split; [exact Ik|]. rewrite N. reflexivity.
Qed.

Lemma measure_iff : forall method thr factor fs p, measure method thr factor fs = Ok p <-> calibrates method thr factor fs p.
Proof.
  intros method thr factor fs p. unfold NdModel.measure.
  match goal with |- bind ?m _ = _ <-> _ => destruct m as [gs|e] eqn:CH end; cbn [bind].
  2:{ split; [discriminate|]. intros (key & out' & dim & cal & os & f0 & fl & t & NM & _). destruct (group_by_total key fs (proj2 NM)) as (gs & G). assert (X := proj2 (choose_iff D leb Leb fs gs) (ex_intro _ key (conj NM G))). congruence. }
  apply (choose_iff D leb Leb) in CH. destruct CH as (key & NM & G). assert (G' := G). apply (group_by_iff leb Leb) in G. destruct G as (K & ks & S & C & EG).
  assert (B : part D true gs = lit D key fs ks) by (rewrite EG; apply part_map). assert (DP := dim_perm key fs ks S C K). rewrite <- EG in DP.
  (* any other naming card gives the same groups *)
  assert (UN : forall key', naming fs key' -> key' = key).
  { intros key' NM'. destruct NM as [[->|[-> (f & I & N)]] A], NM' as [[->|[-> (f' & I' & N')]] A']; try reflexivity; exfalso; [exact (A f' I' N')|exact (A' f I N)]. }
  assert (DIM : forall dim, sieve (fun f => ~ filtered key f) fs dim <-> dim = filter (unlit key) fs) by (intros dim; apply (sieve_filter _ _ _ (unlit_iff key))).
  assert (DNE : part D false gs <> [] <-> filter (unlit key) fs <> []).
  { split; intros H X; apply H; [apply Permutation_nil; rewrite X in DP; symmetry; exact DP|apply Permutation_nil; rewrite X in DP; exact DP]. }
  assert (CAL : part D false gs <> [] -> forall cal, (match factor with Some c => Ok c | None => avg_factor D aper_factor gauss_factor method (part D false gs) end) = Ok cal <-> calibrated aper_factor gauss_factor method factor (filter (unlit key) fs) cal).
  { intros N cal. destruct factor as [c|]; [cbn; split; congruence|]. rewrite avg_iff by exact N. split; apply calibrated_perm; [exact DP|symmetry; exact DP]. }
  rewrite B.
  (* the stars *)
  assert (MAIN : forall cal, lit D key fs ks <> [] ->
    ((do stars <- group_by D leb (f_target D) (lit D key fs ks); do r <- bright_loop D aper_phot gauss_phot centroid irradiance method thr cal [] None None stars; finish r) = Ok p <->
     exists out os f0 fl t, arranged leb key fs out /\ nth_error out 0 = Some f0 /\ nth_error out (List.length out - 1) = Some fl /\ f_target D fl = Some t /\ agreeing out f0 /\ Forall2 (measured aper_phot gauss_phot centroid irradiance method cal) out os
      /\ sieve (fun o => o <> None) os (map Some (p_rows p)) /\ p_name p = f_fpam D f0 /\ p_h p = f_h D f0 /\ p_v p = f_v D f0 /\ (p_flag p = true <-> varying thr out os t))).
  { intros cal LN. destruct (group_by D leb (f_target D) (lit D key fs ks)) as [stars|e] eqn:GT; cbn [bind].
    - apply (group_by_iff leb Leb) in GT. destruct GT as (AIM & ts & TS & TC & ->). assert (TN : ts <> []).
      { intros ->. destruct (lit D key fs ks) as [|f l] eqn:E; [congruence|]. assert (AF := AIM f (or_introl eq_refl)). destruct (f_target D f) as [t|] eqn:T; [|congruence]. apply (proj2 (TC t)). exists f. split; [left; reflexivity|exact T]. }
      assert (AR := arranged_iff leb Leb D key fs ks ts S C TS TC AIM). assert (SI := stars_iff D leb aper_factor gauss_factor aper_phot gauss_phot centroid irradiance method thr cal (lit D key fs ks) ts TS TC AIM p TN).
      change (map (fun k => (k, filter (has_name D (f_target D) k) (lit D key fs ks))) ts) with (map (fun t => (t, files D (lit D key fs ks) t)) ts). rewrite SI. split.
      + intros (os & f0 & fl & t & H). exists (flat_map (files D (lit D key fs ks)) ts), os, f0, fl, t. split; [apply AR; reflexivity|exact H].
      + intros (o & os & f0 & fl & t & A & H). apply AR in A. subst o. exists os, f0, fl, t. exact H.
    - split; [discriminate|]. intros (o & os & f0 & fl & t & A & _). exfalso. destruct (group_by_total (f_target D) (lit D key fs ks)) as (x & X); [|congruence]. intros f I. apply (lit_in D key fs ks C) in I. destruct A as [A _]. apply A; apply I. }
  assert (LNE : forall out f0, arranged leb key fs out -> nth_error out 0 = Some f0 -> lit D key fs ks <> []).
  { intros o f0 A N X. assert (I : In f0 (lit D key fs ks)); [|rewrite X in I; exact I]. apply (lit_in D key fs ks C). destruct A as (_ & A2 & _ & A4). destruct (A2 f0 (nth_error_In _ _ N)) as [[r R] T]. destruct (f_target D f0) as [t|] eqn:ET; [|congruence].
    destruct (A4 t r) as (g & G1 & G2). apply (sieve_filter _ _ _ (classb_iff D key t ("ND" ++ r))) in G1, G2. assert (J : In f0 g) by (rewrite G2; apply filter_In; split; [exact (nth_error_In _ _ N)|apply classb_iff; split; assumption]). rewrite G1 in J. apply filter_In in J. split; [apply J|]. exists r. exact R. }
  split.
  - intros H. destruct (lit D key fs ks) as [|b0 bl] eqn:EB; [discriminate|]. destruct (part D false gs) as [|d0 dl] eqn:ED; [discriminate|]. rewrite <- EB in *. rewrite <- ED in *. assert (N : part D false gs <> []) by (rewrite ED; discriminate).
    match type of H with bind ?m _ = _ => destruct m as [cal|] eqn:EC end; cbn [bind] in H; [|discriminate]. clear EC. assert (EC := proj1 (CAL N cal) eq_refl). apply MAIN in H; [|rewrite EB; discriminate]. destruct H as (o & os & f0 & fl & t & A & H).
    exists key, o, (filter (unlit key) fs), cal, os, f0, fl, t. split; [exact NM|]. split; [exact A|]. split; [apply DIM; reflexivity|]. split; [apply DNE; exact N|]. split; [exact EC|exact H].
  - intros (key' & o & dim & cal & os & f0 & fl & t & NM' & A & DS & DN & CC & H). apply UN in NM'. subst key'. apply DIM in DS. subst dim. apply DNE in DN. assert (LN := LNE o f0 A (proj1 H)). apply (CAL DN) in CC.
    assert (X := proj2 (MAIN cal LN) (ex_intro _ o (ex_intro _ os (ex_intro _ f0 (ex_intro _ fl (ex_intro _ t (conj A H))))))).
    destruct (lit D key fs ks) as [|b0 bl] eqn:EB; [congruence|]. destruct (part D false gs) as [|d0 dl] eqn:ED; [congruence|]. rewrite CC. cbn [bind]. exact X.
Qed.
End End_.
