(** Proofs for the throughput of the PSF subtraction: the injections. *)
From Coq Require Import List Arith Bool Reals ZArith String Sorted Permutation Lia Lra.
From Verif Require Import Base DqModel AngleModel AngleSpec AngleProofs NearModel NearProofs CombineModel CombineSpec CombineProofs ComboSpec ComboProofs FindModel FlatModel FlatSpec FlatProofs CtDataProofs FluxRunProofs ThruModel ThruSpec ThruProofs.
Import ListNotations.
Local Open Scope R_scope.

Lemma loc_eqb_iff : forall a b, loc_eqb a b = true <-> a = b.
Proof.
  intros (a1 & a2) (b1 & b2). unfold loc_eqb, ThruModel.reqb. cbn [fst snd]. destruct (Req_EM_T a1 b1) as [->|N]; [|split; [discriminate|intro E; injection E; congruence]]. destruct (Req_EM_T a2 b2) as [->|N]; split; try reflexivity; try discriminate. intro E; injection E; congruence.
Qed.
Lemma known_iff : forall l sk, existsb (loc_eqb l) sk = true <-> In l sk.
Proof. intros l sk. rewrite existsb_exists. split; [intros (x & I & E); apply loc_eqb_iff in E; subst; exact I|]. intro I. exists l. split; [exact I|apply loc_eqb_iff; reflexivity]. Qed.
Lemma polar_distance : forall a b, get_polar_dist a b = distance (point_of (0, 0) a) (point_of (0, 0) b).
Proof. intros (s & a) (t & b). rewrite polar_dist. unfold dist, distance, seppa2dxdy, point_of. cbn [fst snd]. f_equal. ring. Qed.

Section Run.
Variable F : Type.
Variable inject : F -> val -> loc -> result (F * img).
Variables (rolls : list R) (cands : list loc) (res snr : R).
Hypothesis rolled : rolls <> [].
Notation tc := (too_close rolls cands res).

Lemma close_iff : forall t, negb (tc (fst t)) = true <-> free res cands t.
Proof using rolled.
  intros t. rewrite negb_true_iff, <- not_true_iff_false. unfold too_close, free. rewrite existsb_exists. split.
  - intros H c I. apply Rnot_lt_le. intro L. apply H. exists c. split; [exact I|]. apply existsb_exists. destruct rolls as [|r rs]; [congruence|]. exists r. split; [left; reflexivity|]. apply ltb_iff. rewrite polar_distance. exact L.
  - intros H (c & I & E). apply existsb_exists in E. destruct E as (r & _ & L). apply ltb_iff in L. rewrite polar_distance in L. exact (Rlt_not_le _ _ L (H c I)).
Qed.

(** One target after the other *)
Fixpoint run (first : bool) (st : state F) (ts : list target) : result (state F) :=
  match ts with
  | [] => Ok st
  | (l, v) :: r =>
    do st' <- (let '(f, skipped, done) := st in
               if existsb (loc_eqb l) skipped then Ok st
               else if (first && tc l)%bool then Ok (f, skipped ++ [l], done)
               else do q <- inject f v l; Ok (fst q, skipped, done ++ [mkplaced l v (snd q)]));
    run first st' r
  end.
Lemma bind_assoc : forall A B D (m : result A) (k : A -> result B) (k' : B -> result D), bind (bind m k) k' = bind m (fun x => bind (k x) k').
Proof using. intros A B D [a|e] k k'; reflexivity. Qed.
Lemma run_app : forall first a b st, run first st (a ++ b) = bind (run first st a) (fun st' => run first st' b).
Proof using. intros first. induction a as [|(l & v) a IH]; intros b st; [reflexivity|]. cbn [app run]. rewrite bind_assoc. destruct (let '(f, skipped, done) := st in _) as [st'|e]; cbn [bind]; [apply IH|reflexivity]. Qed.
Lemma visit_pas_run : forall first sep nz off pas st, visit_pas F inject first rolls cands res (vscale snr nz) sep off st pas = run first st (rowp snr pas off (sep, nz)).
Proof using.
  intros first sep nz off. induction pas as [|pa pas IH]; intros st; [reflexivity|]. cbn [visit_pas rowp map run]. unfold visit_pa at 1. destruct st as ((f & sk) & dn). cbn [fst snd]. cbv zeta. unfold rowp in IH. cbn [fst snd] in IH.
  destruct (existsb _ sk); cbn [bind]; [apply IH|]. destruct (first && _)%bool; cbn [bind]; [apply IH|]. rewrite !bind_assoc. destruct (inject f (vscale snr nz) (sep, pmod (pa + off) 360)) as [q|e]; cbn [bind]; [apply IH|reflexivity].
Qed.
Lemma visit_seps_run : forall first step pas seps off st, visit_seps F inject first rolls cands res snr step pas off st seps = run first st (List.concat (gridp snr step pas off seps)).
Proof using.
  intros first step pas. induction seps as [|(sep & nz) seps IH]; intros off st; [reflexivity|]. cbn [visit_seps gridp List.concat]. rewrite run_app, visit_pas_run. destruct (run first st (rowp snr pas off (sep, nz))) as [st'|e]; cbn [bind]; [apply IH|reflexivity].
Qed.

Notation keep := (filter (fun t : target => negb (tc (fst t)))).
Fixpoint sk_after (sk : list loc) (ts : list target) : list loc :=
  match ts with [] => sk | (l, _) :: r => sk_after (if existsb (loc_eqb l) sk then sk else if tc l then sk ++ [l] else sk) r end.
Lemma sk_after_in : forall ts sk l, In l (sk_after sk ts) <-> In l sk \/ (tc l = true /\ In l (map fst ts)).
Proof using.
  induction ts as [|(l0 & v) ts IH]; intros sk l; cbn [sk_after map fst In]; [tauto|]. rewrite IH. destruct (existsb (loc_eqb l0) sk) eqn:E; [apply known_iff in E; split; [tauto|]; intros [?|(? & [->|?])]; tauto|]. destruct (tc l0) eqn:T.
  - rewrite in_app_iff. cbn [In]. split; [intros [[?|[->|[]]]|(? & ?)]; tauto|]. intros [?|(? & [->|?])]; tauto.
  - split; [tauto|]. intros [?|(U & [->|?])]; [tauto|congruence|tauto].
Qed.
Lemma run_first : forall ts f sk dn, (forall l, In l sk -> tc l = true) -> forall f' sk' dn',
  run true (f, sk, dn) ts = Ok (f', sk', dn') <-> exists ds, chain F inject f (keep ts) f' ds /\ dn' = dn ++ ds /\ sk' = sk_after sk ts.
Proof using.
  induction ts as [|(l & v) ts IH]; intros f sk dn H f' sk' dn'.
  - cbn [run filter sk_after]. split; [intro E; injection E as <- <- <-; exists []; rewrite app_nil_r; repeat split; constructor|]. intros (ds & G & -> & ->). inversion G; subst. rewrite app_nil_r. reflexivity.
  - cbn [run filter sk_after fst]. destruct (existsb (loc_eqb l) sk) eqn:E.
    + cbn [bind]. rewrite IH by exact H. apply known_iff in E. rewrite (H l E). cbn [negb]. tauto.
    + cbn [andb]. destruct (tc l) eqn:T; cbn [negb].
      * cbn [bind]. rewrite IH; [tauto|]. intros l' I. apply in_app_iff in I. destruct I as [I|[->|[]]]; [apply H, I|exact T].
      * destruct (inject f v l) as [(f1 & m)|e] eqn:J; cbn [bind fst snd].
        -- rewrite IH by exact H. split.
           ++ intros (ds & G & -> & ->). exists (mkplaced l v m :: ds). split; [econstructor; eassumption|]. rewrite <- app_assoc. split; reflexivity.
           ++ intros (ds & G & -> & ->). inversion G as [|? ? ? f1' m' ? ? ds' J' G']; subst. rewrite J in J'. injection J' as <- <-. exists ds'. split; [exact G'|]. rewrite <- app_assoc. split; reflexivity.
        -- split; [discriminate|]. intros (ds & G & _). inversion G; subst. congruence.
Qed.
Lemma run_later : forall ts f sk dn, (forall l, In l (map fst ts) -> (In l sk <-> tc l = true)) -> forall f' sk' dn',
  run false (f, sk, dn) ts = Ok (f', sk', dn') <-> exists ds, chain F inject f (keep ts) f' ds /\ dn' = dn ++ ds /\ sk' = sk.
Proof using.
  induction ts as [|(l & v) ts IH]; intros f sk dn H f' sk' dn'.
  - cbn [run filter]. split; [intro E; injection E as <- <- <-; exists []; rewrite app_nil_r; repeat split; constructor|]. intros (ds & G & -> & ->). inversion G; subst. rewrite app_nil_r. reflexivity.
  - cbn [run filter fst]. pose proof (H l (or_introl eq_refl)) as HL. assert (HT : forall l, In l (map fst ts) -> (In l sk <-> tc l = true)) by (intros l' I; apply H; right; exact I). destruct (existsb (loc_eqb l) sk) eqn:E.
    + cbn [bind]. rewrite IH by exact HT. apply known_iff in E. apply HL in E. rewrite E. cbn [negb]. tauto.
    + cbn [andb]. destruct (tc l) eqn:T; [apply not_true_iff_false in E; exfalso; apply E, known_iff, HL; reflexivity|]. cbn [negb]. destruct (inject f v l) as [(f1 & m)|e] eqn:J; cbn [bind fst snd].
        -- rewrite IH by exact HT. split.
           ++ intros (ds & G & -> & ->). exists (mkplaced l v m :: ds). split; [econstructor; eassumption|]. rewrite <- app_assoc. split; reflexivity.
           ++ intros (ds & G & -> & ->). inversion G as [|? ? ? f1' m' ? ? ds' J' G']; subst. rewrite J in J'. injection J' as <- <-. exists ds'. split; [exact G'|]. rewrite <- app_assoc. split; reflexivity.
        -- split; [discriminate|]. intros (ds & G & _). inversion G; subst. congruence.
Qed.

Variable pas : list R.
Hypothesis some_pas : pas <> [].
Variable seps : list (R * val).
Notation g := (List.concat (gridp snr (360 / INR (List.length pas) / 3) pas 0 seps)).
Lemma later_frames : forall fs sk out, (forall l, In l (map fst g) -> (In l sk <-> tc l = true)) ->
  visit_frames F inject false rolls cands res snr pas seps sk fs = Ok out <-> Forall2 (fun f o => chain F inject f (keep g) (fst o) (snd o)) fs out.
Proof using some_pas.
  induction fs as [|f fs IH]; intros sk out H; cbn [visit_frames].
  - split; [intro E; injection E as <-; constructor|]. intro E. inversion E. reflexivity.
  - destruct pas as [|pa0 pas0] eqn:EP; [congruence|]. rewrite <- EP in *. clear EP. rewrite visit_seps_run. split.
    + destruct (run _ _ _) as [((f' & sk') & dn)|e] eqn:R0; cbn [bind fst snd]; [|discriminate]. apply (run_later _ _ _ _ H) in R0. destruct R0 as (ds & G & -> & ->). destruct (visit_frames _ _ _ _ _ _ _ _ _ sk fs) as [rest|e] eqn:V; cbn [bind]; [|discriminate]. intro E. injection E as <-. constructor; [exact G|]. apply (IH sk); assumption.
    + intro E. inversion E as [|? o ? rest G T]; subst. destruct o as (f' & ds). cbn [fst snd] in G. assert (R0 : run false (f, sk, []) g = Ok (f', sk, ds)) by (apply (run_later _ _ _ _ H); exists ds; repeat split; exact G). match goal with |- bind ?X _ = _ => replace X with (@Ok (state F) (f', sk, ds)) by (symmetry; exact R0) end. cbn [bind fst snd]. apply (IH sk) in T; [|exact H]. rewrite T. reflexivity.
Qed.
Lemma frames_iff : forall f fs out, visit_frames F inject true rolls cands res snr pas seps [] (f :: fs) = Ok out <->
  Forall2 (fun f o => chain F inject f (keep g) (fst o) (snd o)) (f :: fs) out.
Proof using some_pas.
  intros f fs out. cbn [visit_frames]. destruct pas as [|pa0 pas0] eqn:EP; [congruence|]. rewrite <- EP in *. clear EP. rewrite visit_seps_run.
  assert (SK : forall l, In l (map fst g) -> (In l (sk_after [] g) <-> tc l = true)) by (intros l I; rewrite sk_after_in; cbn [In]; tauto).
  assert (N : forall l : loc, In l [] -> tc l = true) by (intros l []). split.
  - destruct (run _ _ _) as [((f' & sk') & dn)|e] eqn:R0; cbn [bind fst snd]; [|discriminate]. apply (run_first _ _ _ _ N) in R0. destruct R0 as (ds & G & -> & ->). destruct (visit_frames _ _ _ _ _ _ _ _ _ (sk_after [] g) fs) as [rest|e] eqn:V; cbn [bind]; [|discriminate]. intro E. injection E as <-. constructor; [exact G|]. apply (later_frames _ _ _ SK), V.
  - intro E. inversion E as [|? o ? rest G T]; subst. destruct o as (f' & ds). cbn [fst snd] in G. assert (R0 : run true (f, [], []) g = Ok (f', sk_after [] g, ds)) by (apply (run_first _ _ _ _ N); exists ds; repeat split; exact G). match goal with |- bind ?X _ = _ => replace X with (@Ok (state F) (f', sk_after [] g, ds)) by (symmetry; exact R0) end. cbn [bind fst snd]. apply (later_frames _ _ _ SK) in T. rewrite T. reflexivity.
Qed.
Lemma targets_iff : forall ts, targets snr res cands pas seps ts <-> ts = keep g.
Proof using rolled.
  intros ts. unfold targets. split.
  - intros (g' & G & S). apply grid_iff in G. subst g'. apply (sieve_filter _ _ _ close_iff) in S. exact S.
  - intros ->. exists g. split; [apply grid_iff; reflexivity|]. apply (sieve_filter _ _ _ close_iff). reflexivity.
Qed.
(** The same sources are injected in every frame: all those of the pattern that are far enough from the known ones *)
Lemma injections_iff : forall f fs out, visit_frames F inject true rolls cands res snr pas seps [] (f :: fs) = Ok out <->
  exists ts, targets snr res cands pas seps ts /\ Forall2 (fun f o => chain F inject f ts (fst o) (snd o)) (f :: fs) out.
Proof using rolled some_pas.
  intros f fs out. rewrite frames_iff. split; [intro H; exists (keep g); split; [apply targets_iff; reflexivity|exact H]|]. intros (ts & T & H). apply targets_iff in T. subst ts. exact H.
Qed.
End Run.
Lemma chain_targets : forall F inject f ts f' ds, chain F inject f ts f' ds -> map (fun d => (p_loc d, p_peak d)) ds = ts.
Proof. intros F inject f ts f' ds H. induction H as [|? ? ? ? ? ? ? ? _ _ IH]; [reflexivity|]. cbn [map p_loc p_peak]. rewrite IH. reflexivity. Qed.
