(** Consequences, and the example of two targets. *)
From Coq Require Import List Arith Bool Reals String Sorted Permutation Lia Lra.
From Verif Require NearProofs.
From Verif Require Import Base DqModel DqProofs AngleModel ComboSpec ComboProofs SplitSpec SplitProps SortGroupProofs NdModel NdSpec NdProofs NdRunProofs NdTopProofs NdEndProofs.
Import ListNotations.
Local Open Scope R_scope.

Lemma filter_all : forall A (p : A -> bool) l, (forall x, In x l -> p x = true) -> filter p l = l.
Proof. intros A p l H. induction l as [|x l IH]; [reflexivity|]. cbn [filter]. rewrite (H x (or_introl eq_refl)). f_equal. apply IH. intros y I. apply H. right. exact I. Qed.
Section Facts.
Variable D : Type.
Notation frame := (frame D).
Variable leb : string -> string -> bool.
Hypothesis Leb : total_order leb.
Variables aper_factor gauss_factor : frame -> result R.
Variables aper_phot gauss_phot : frame -> result (option R).
Variable centroid : D -> result (option (R * R)).
Variable irradiance : string -> string -> result posreal.
Notation calibrates := (calibrates leb aper_factor gauss_factor aper_phot gauss_phot centroid irradiance).
Notation create := (create_nd_filter_cal D leb aper_factor gauss_factor aper_phot gauss_phot centroid irradiance).

Lemma create_iff : forall method thr factor fs p, snd (create method thr factor fs) = Ok p <-> calibrates method thr factor fs p.
Proof.
  intros method thr factor fs p. rewrite <- (measure_iff D leb Leb). unfold create_nd_filter_cal. destruct fs as [|f fs]; [cbn; split; discriminate|]. destruct (measure _ _ _ _ _ _ _ _ method thr factor (f :: fs)); cbn [snd]; reflexivity.
Qed.
Lemma on_last_app : forall A (g : A -> A) pre x, on_last g (pre ++ [x]) = pre ++ [g x].
Proof. intros A g. induction pre as [|y pre IH]; intros x; [reflexivity|]. cbn [app]. destruct (pre ++ [x]) eqn:E; [destruct pre; discriminate|]. rewrite <- E. cbn [on_last]. rewrite E, <- E, IH. reflexivity. Qed.
Lemma create_inputs : forall method thr factor fs fs' r, create method thr factor fs = (fs', r) -> match r with Ok p => relabelled p fs fs' | Raise _ => fs' = fs end.
Proof.
  intros method thr factor fs fs' r H. unfold create_nd_filter_cal in H. destruct fs as [|f0 fs0]; [injection H as <- <-; reflexivity|]. destruct (measure _ _ _ _ _ _ _ _ method thr factor (f0 :: fs0)) as [p|e]; injection H as <- <-; [|reflexivity].
  assert (N : f0 :: fs0 <> []) by discriminate. destruct (exists_last N) as (pre & f & E). exists pre, f, (relabel D p f). split; [exact E|]. split; [change (on_last (relabel D p) (f0 :: fs0) = pre ++ [relabel D p f]); rewrite E; apply on_last_app|]. repeat split.
Qed.

(** One row per frame behind the filter whose centroid is a number. *)
Lemma out_perm : forall key fs o, naming fs key -> arranged leb key fs o -> Permutation o (filter (fun f => negb (unlit D key f)) fs).
Proof.
  intros key fs o NM A. destruct (group_by_total D leb key fs (proj2 NM)) as (gs & G). apply (group_by_iff leb Leb) in G. destruct G as (K & ks & S & C & _).
  assert (AIM : forall f, In f (lit D key fs ks) -> f_target D f <> None) by (intros f I; apply (lit_in D key fs ks C) in I; destruct A as [A _]; apply A; apply I).
  destruct (group_by_total D leb (f_target D) _ AIM) as (g2 & G2). apply (group_by_iff leb Leb) in G2. destruct G2 as (_ & ts & TS & TC & _). apply (arranged_iff leb Leb D key fs ks ts S C TS TC AIM) in A. subst o.
  unfold out. rewrite (flat_perm D) by exact (slt_nodup leb ts TS). transitivity (lit D key fs ks).
  - match goal with |- Permutation ?a ?b => replace a with b; [reflexivity|] end. symmetry. apply filter_all. intros f I. assert (AF := AIM f I). destruct (f_target D f) as [t|] eqn:T; [|congruence]. apply existsb_exists. exists t. split; [apply TC; eauto|apply has_name_iff; exact T].
  - unfold lit. rewrite (flat_perm D) by (apply NoDup_filter; exact (slt_nodup leb ks S)). match goal with |- Permutation ?a ?b => replace a with b; [reflexivity|] end. apply filter_ext_in. intros f I. apply eq_true_iff_eq. rewrite negb_true_iff, existsb_exists. split.
    + intros H. destruct (key f) as [k|] eqn:E; [|destruct (K f I E)]. exists k. split; [|apply has_name_iff; exact E]. apply filter_In. split; [apply C; eauto|]. unfold unlit in H. rewrite E in H. destruct (is_nd k); [reflexivity|discriminate].
    + intros (k & Kin & H). apply has_name_iff in H. apply filter_In in Kin. destruct Kin as [_ Kn]. unfold unlit. rewrite H. destruct (is_nd k); [reflexivity|discriminate].
Qed.
Lemma sieve_len : forall A (P : A -> Prop) (p : A -> bool) l m g, (forall x, p x = true <-> P x) -> Permutation l m -> sieve P m g -> List.length (filter p l) = List.length g.
Proof.
  intros A P p l m g H Pm S. apply (sieve_filter _ _ _ H) in S. subst g. clear H. induction Pm as [|x l m Pm IH|x y l|l m n P1 IH1 P2 IH2]; cbn [filter]; [reflexivity| | |congruence].
  - destruct (p x); cbn; congruence.
  - destruct (p x), (p y); reflexivity.
Qed.
Lemma lit_iff : forall key (x : frame), negb (unlit D key x) = true <-> filtered key x.
Proof.
  intros key x. unfold unlit, filtered. rewrite negb_involutive. destruct (key x) as [k|]; [|split; [discriminate|intros [r X]; discriminate X]]. rewrite prefix_iff. split; intros [r X]; exists r; congruence.
Qed.
Lemma rows_count : forall method thr factor fs p, calibrates method thr factor fs p -> exists key acc, naming fs key /\ sieve (fun f => filtered key f /\ centroid (f_data D f) <> Ok None) fs acc /\ List.length (p_rows p) = List.length acc.
Proof.
  intros method thr factor fs p (key & o & dim & cal & os & f0 & fl & t & NM & A & _ & _ & _ & _ & _ & _ & _ & M & RW & _).
  set (q := fun f : frame => match centroid (f_data D f) with Ok None => false | _ => true end). assert (Q : forall f, q f = true <-> centroid (f_data D f) <> Ok None) by (intros f; unfold q; destruct (centroid (f_data D f)) as [[c|]|]; intuition congruence). clearbody q.
  exists key, (filter q (filter (fun f => negb (unlit D key f)) fs)). split; [exact NM|]. split.
  - apply (NearProofs.sieve_twice _ fs (fun f => negb (unlit D key f)) q); [|reflexivity]. intros x. rewrite andb_true_iff, Q, lit_iff. reflexivity.
  - apply keep_iff in RW. rewrite RW. rewrite <- (sieve_len _ (fun f => centroid (f_data D f) <> Ok None) q o _ _ Q (out_perm key fs o NM A)); [|apply (sieve_filter _ _ _ Q); reflexivity].
    clear -M Q. induction M as [|f o l m (t & c & i & _ & _ & _ & H) M IH]; [reflexivity|]. cbn [filter]. destruct H as [[H ->]|(ph & x & y & pp & od & _ & H & _ & _ & ->)].
    + assert (E : q f = false) by (destruct (q f) eqn:E; [apply Q in E; congruence|reflexivity]). rewrite E. exact IH.
    + assert (E : q f = true) by (apply Q; congruence). rewrite E. cbn [keep List.length]. f_equal. exact IH.
Qed.

(** A calibration factor does not stand in for the frames without filter. *)
Lemma no_dim : forall method thr factor fs, (forall f, In f fs -> exists r, f_fpam D f = Some ("ND" ++ r)%string) -> create method thr factor fs = (fs, Raise ValueError).
Proof.
  intros method thr factor fs H. unfold create_nd_filter_cal. destruct fs as [|f0 fs0]; [reflexivity|]. set (fs := f0 :: fs0) in *. unfold measure.
  destruct (group_by_total D leb (f_fpam D) fs) as (gs & G); [intros f I; destruct (H f I) as [r ->]; discriminate|]. rewrite G. cbn [bind]. apply (group_by_iff leb Leb) in G. destruct G as (K & ks & S & C & ->).
  assert (P : part D false (map (fun k => (k, filter (has_name D (f_fpam D) k) fs)) ks) = []).
  { apply Permutation_nil. symmetry. rewrite (dim_perm D leb) by assumption. replace (filter (unlit D (f_fpam D)) fs) with (@nil frame); [reflexivity|]. symmetry. apply filter_none. intros f I. destruct (H f I) as [r E]. unfold unlit. rewrite E. destruct (is_nd ("ND" ++ r)) eqn:N; [reflexivity|]. assert (is_nd ("ND" ++ r) = true) by (apply prefix_iff; eauto). congruence. }
  rewrite P. destruct (part D true _); reflexivity.
Qed.
(** If the last frame is the only one without filter, a second run on the same frames fails. *)
Lemma second_run : forall method thr factor fs fs' p pre f, (forall x, In x fs -> f_fpam D x <> None) -> fs = pre ++ [f] -> (forall x, In x pre -> filtered (f_fpam D) x) -> create method thr factor fs = (fs', Ok p) ->
  forall method' thr' factor', create method' thr' factor' fs' = (fs', Raise ValueError).
Proof.
  intros method thr factor fs fs' p pre f ALL E F H method' thr' factor'. assert (R := create_inputs _ _ _ _ _ _ H). cbn in R. destruct R as (pre' & f' & g & E1 & -> & Gn & _). rewrite E in E1. apply app_inj_tail in E1. destruct E1 as [<- <-].
  assert (CL : calibrates method thr factor fs p) by (apply create_iff; rewrite H; reflexivity). destruct CL as (key & o & dim & cal & os & f0 & fl & t & NM & A & _ & _ & _ & N0 & _ & _ & _ & _ & _ & NM0 & _).
  assert (key = f_fpam D) by (destruct NM as [[->|[-> (x & I & N)]] _]; [reflexivity|destruct (ALL x I N)]). subst key. destruct A as (_ & A & _). destruct (A f0 (nth_error_In _ _ N0)) as [[r R] _].
  apply no_dim. intros x I. apply in_app_or in I. destruct I as [I|[<-|[]]]; [exact (F x I)|]. exists r. congruence.
Qed.
End Facts.

(** ** Two targets, the first of which varies *)
Definition nd_fr (name target : string) (d : R) : frame R := mkframe R (Some name) None (Some target) (Some "1F"%string) (Some 0) (Some 0) None "L3"%string d.
Definition nd_fs : list (frame R) := [nd_fr "ND225" "A" 0; nd_fr "ND225" "A" 2; nd_fr "ND225" "B" 1; nd_fr "OPEN" "C" 0]%string.
Definition nd_phot (f : frame R) : result (option R) := Ok (Some (Rpower 10 (- f_data R f))).
Definition nd_one (f : frame R) : result R := Ok 1.
Definition nd_here (d : R) : result (option (R * R)) := Ok (Some (d, 0)).
Definition nd_star (t c : string) : result posreal := Ok (mkposreal 1 Rlt_0_1).
Definition nd_prod (flag : bool) : product := mkproduct [(Some 0, 0, 0); (Some 2, 2, 0); (Some 1, 1, 0)] (Some "ND225"%string) (Some 0) (Some 0) flag.
Lemma nd_measured : forall name t d, measured nd_phot nd_phot nd_here nd_star "Aperture" 1 (nd_fr name t d) (Some (Some d, d, 0)).
Proof.
  intros name t d. exists t, "1F"%string, (mkposreal 1 Rlt_0_1). split; [reflexivity|]. split; [reflexivity|]. split; [reflexivity|]. right. exists nd_phot, d, 0, (Some (Rpower 10 (- d))), (Some d). split; [left; split; reflexivity|]. split; [reflexivity|]. split; [reflexivity|]. split; [|reflexivity]. cbn. lra.
Qed.
Lemma nd_arranged : arranged String.leb (f_fpam R) nd_fs [nd_fr "ND225" "A" 0; nd_fr "ND225" "A" 2; nd_fr "ND225" "B" 1]%string.
Proof.
  split; [intros f [<-|[<-|[<-|[<-|[]]]]] _; discriminate|]. split; [intros f [<-|[<-|[<-|[]]]]; (split; [exists "225"%string; reflexivity|discriminate])|]. split.
    - constructor; [constructor; [constructor; [constructor|constructor]|]|].
      + constructor; [|constructor]. exists "A"%string, "B"%string, "ND225"%string, "ND225"%string. split; [split; reflexivity|]. split; [split; reflexivity|]. left. split; [discriminate|reflexivity].
      + constructor; [|constructor; [|constructor]].
        * exists "A"%string, "A"%string, "ND225"%string, "ND225"%string. split; [split; reflexivity|]. split; [split; reflexivity|]. right. split; reflexivity.
        * exists "A"%string, "B"%string, "ND225"%string, "ND225"%string. split; [split; reflexivity|]. split; [split; reflexivity|]. left. split; [discriminate|reflexivity].
    - intros t r. exists (filter (classb R (f_fpam R) t ("ND" ++ r)) nd_fs). split; apply (sieve_filter _ _ _ (classb_iff R (f_fpam R) t ("ND" ++ r))); [reflexivity|]. unfold nd_fs. cbn [filter]. assert (E : classb R (f_fpam R) t ("ND" ++ r) (nd_fr "OPEN" "C" 0) = false).
      { destruct (classb R (f_fpam R) t ("ND" ++ r) (nd_fr "OPEN" "C" 0)) eqn:E; [|reflexivity]. apply classb_iff in E. destruct E as [_ E]. cbn in E. injection E as E. discriminate E. }
      rewrite E. reflexivity.
Qed.
Lemma nd_created : calibrates String.leb nd_one nd_one nd_phot nd_phot nd_here nd_star "Aperture" (1 / 10) None nd_fs (nd_prod false).
Proof.
  exists (f_fpam R), [nd_fr "ND225" "A" 0; nd_fr "ND225" "A" 2; nd_fr "ND225" "B" 1]%string, [nd_fr "OPEN" "C" 0]%string, 1, [Some (Some 0, 0, 0); Some (Some 2, 2, 0); Some (Some 1, 1, 0)], (nd_fr "ND225" "A" 0)%string, (nd_fr "ND225" "B" 1)%string, "B"%string.
  split; [split; [left; reflexivity|intros f [<-|[<-|[<-|[<-|[]]]]]; discriminate]|]. split.
  { exact nd_arranged. }
  split.
  { apply (sieve_filter _ _ _ (unlit_iff R (f_fpam R))). reflexivity. }
  split; [discriminate|]. split.
  { exists nd_one, [1]. split; [left; split; reflexivity|]. split; [repeat constructor|]. cbn. lra. }
  split; [reflexivity|]. split; [reflexivity|]. split; [reflexivity|]. split.
  { assert (Z : forall P : R -> Prop, P 0 -> apart P (Some 0) (Some 0)) by (intros P P0; exists 0, 0; split; [reflexivity|]; split; [reflexivity|]; rewrite Rminus_diag_eq by reflexivity; rewrite Rabs_R0; exact P0).
    intros f t f1 I T (g & S). assert (I1 : In f1 [nd_fr "ND225" "A" 0; nd_fr "ND225" "A" 2; nd_fr "ND225" "B" 1]%string).
    { apply (sieve_filter _ _ _ (has_name_iff R (f_target R) t)) in S. assert (J : In f1 (f1 :: g)) by (left; reflexivity). rewrite S in J. apply filter_In in J. apply J. }
    destruct I as [<-|[<-|[<-|[]]]]; destruct I1 as [<-|[<-|[<-|[]]]]; (split; [reflexivity|]; split; [reflexivity|]; split; [discriminate|]; repeat split; apply Z; lra). }
  split; [repeat apply Forall2_cons; try apply nd_measured; constructor|]. split; [apply keep_iff; reflexivity|]. split; [reflexivity|]. split; [reflexivity|]. split; [reflexivity|]. cbn [p_flag nd_prod]. split; [discriminate|].
  intros V. exfalso. change [nd_fr "ND225" "A" 0; nd_fr "ND225" "A" 2; nd_fr "ND225" "B" 1]%string with (([nd_fr "ND225" "A" 0; nd_fr "ND225" "A" 2]%string ++ [nd_fr "ND225" "B" 1]%string)%list) in V. change [Some (Some 0, 0, 0); Some (Some 2, 2, 0); Some (Some 1, 1, 0)] with ([Some (Some 0, 0, 0); Some (Some 2, 2, 0)] ++ [Some (Some 1, 1, 0)]) in V.
  apply (proj1 (varying_last R nd_one nd_one nd_phot nd_phot nd_star (1 / 10) [nd_fr "ND225" "A" 0; nd_fr "ND225" "A" 2]%string [nd_fr "ND225" "B" 1]%string [Some (Some 0, 0, 0); Some (Some 2, 2, 0)] [Some (Some 1, 1, 0)] "B"%string ltac:(intros f [<-|[<-|[]]]; discriminate) ltac:(intros f [<-|[]]; reflexivity) eq_refl eq_refl)) in V. destruct V as (ds & s & E & (_ & m & M & S0 & S2) & L). cbn in E. destruct ds as [|d [|d2 ds]]; try discriminate E. cbn in E. injection E as <-. cbn in M, S2. assert (m = 1) by lra. subst. assert (s * s = 0) by lra. assert (s = 0) by (apply Rsqr_0_uniq; exact H). lra.
Qed.
Lemma nd_varies : varying (1 / 10) [nd_fr "ND225" "A" 0; nd_fr "ND225" "A" 2; nd_fr "ND225" "B" 1]%string [Some (Some 0, 0, 0); Some (Some 2, 2, 0); Some (Some 1, 1, 0)] "A".
Proof.
  exists [(nd_fr "ND225" "A" 0, Some (Some 0, 0, 0)); (nd_fr "ND225" "A" 2, Some (Some 2, 2, 0))]%string, [0; 2], 1. split.
  - cbn [combine]. constructor; [split; [reflexivity|discriminate]|]. constructor; [split; [reflexivity|discriminate]|]. apply sieve_out; [intros [X _]; discriminate X|constructor].
  - split; [repeat apply Forall2_cons; try constructor; eexists; eexists; reflexivity|]. split; [|lra]. split; [discriminate|]. exists 1. cbn. repeat split; lra.
Qed.
