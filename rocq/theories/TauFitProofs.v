From Coq Require Import List Arith Bool Reals ZArith Lra Lia.
From Verif Require Import Base.
From Verif Require PumpSpec PumpProofs PumpRunProofs PumpLawProofs.
From Verif Require Import TauModel TauSpec TauProofs TauLawProofs.
Import ListNotations.
Local Open Scope R_scope.
Local Opaque kE kB planck electron.

Lemma first_ok : forall P e l x, PumpSpec.refused_in ((P, e) :: l) x <-> (P /\ x = e) \/ (~ P /\ PumpSpec.refused_in l x).
Proof. exact PumpRunProofs.first_ok. Qed.
Lemma checks_iff : forall j, match checks (j_tau j) (j_err j) (j_T j) (j_lim j) with Ok _ => accepted j | Raise e => refused j e end.
Proof.
  intros [u e t [th [E1 E2] [c1 c2] T]]. unfold checks, accepted. change (refused (mkjob u e t (mklim th (E1, E2) (c1, c2) T))) with (PumpSpec.refused_in (refusals (mkjob u e t (mklim th (E1, E2) (c1, c2) T)))).
  unfold refusals. cbv zeta. cbn [j_tau j_err j_T j_lim l_thresh l_E l_cs l_T fst snd].
  destruct (Nat.eqb_spec (List.length t) (List.length u)) as [X|X]; cbn [negb]; [|rewrite first_ok; left; auto]. assert (N1 : ~ List.length t <> List.length u) by lia. clear X.
  destruct (Nat.eqb_spec (List.length e) (List.length u)) as [X|X]; cbn [negb]; [|do 1 (rewrite first_ok; right; split; [assumption|]); rewrite first_ok; left; auto]. assert (N2 : ~ List.length e <> List.length u) by lia. clear X.
  destruct (Rlt_dec th 0); [do 2 (rewrite first_ok; right; split; [assumption|]); rewrite first_ok; left; auto|].
  destruct (Rlt_dec 1 th); [do 3 (rewrite first_ok; right; split; [assumption|]); rewrite first_ok; left; auto|].
  destruct (Rlt_dec E1 0); [do 4 (rewrite first_ok; right; split; [assumption|]); rewrite first_ok; left; auto|].
  destruct (Rlt_dec E2 0); [do 5 (rewrite first_ok; right; split; [assumption|]); rewrite first_ok; left; auto|].
  destruct (Rle_dec E2 E1); [do 6 (rewrite first_ok; right; split; [assumption|]); rewrite first_ok; left; auto|].
  destruct (Rlt_dec c1 0); [do 7 (rewrite first_ok; right; split; [assumption|]); rewrite first_ok; left; auto|].
  destruct (Rlt_dec c2 0); [do 8 (rewrite first_ok; right; split; [assumption|]); rewrite first_ok; left; auto|].
  destruct (Rle_dec c2 c1); [do 9 (rewrite first_ok; right; split; [assumption|]); rewrite first_ok; left; auto|].
  destruct (Rle_dec T 0); [do 10 (rewrite first_ok; right; split; [assumption|]); rewrite first_ok; left; auto|].
  repeat (apply Forall_cons; [cbn [fst]; assumption|]). apply Forall_nil.
Qed.
Lemma accepted_not_refused : forall j e, accepted j -> refused j e -> False.
Proof.
  intros j e A (l1 & P & l2 & E & HP & _). unfold accepted in A. rewrite E in A. rewrite Forall_forall in A. apply (A (P, e)); [apply in_elt|assumption].
Qed.
Lemma few_iff : forall j, (List.length (nodup Req_EM_T (j_T j)) < 3)%nat <-> few j.
Proof.
  intros j. unfold few. split.
  - intros H. assert (I : incl (j_T j) (nodup Req_EM_T (j_T j))) by (intros x Hx; apply nodup_In; assumption). destruct (nodup Req_EM_T (j_T j)) as [|a [|b [|c l]]].
    + exists 0, 0. intros x Hx. destruct (I x Hx).
    + exists a, a. intros x Hx. destruct (I x Hx) as [->|[]]. left. reflexivity.
    + exists a, b. exact I.
    + cbn [List.length] in H. lia.
  - intros (a & b & I). enough (List.length (nodup Req_EM_T (j_T j)) <= List.length [a; b])%nat by (cbn [List.length] in *; lia).
    apply NoDup_incl_length; [apply NoDup_nodup|]. intros x Hx. apply I. apply nodup_In in Hx. assumption.
Qed.
Lemma many : forall j, ~ few j -> (3 <= List.length (j_T j))%nat.
Proof.
  intros j N. rewrite <- few_iff in N. enough (List.length (nodup Req_EM_T (j_T j)) <= List.length (j_T j))%nat by lia.
  apply NoDup_incl_length; [apply NoDup_nodup|]. intros x Hx. apply nodup_In in Hx. assumption.
Qed.

(** Goodness. *)
Lemma sstot_eq : forall u, sstot u = spread u.
Proof. intros u. unfold sstot, spread, sum. f_equal. apply map_ext. intros x. unfold Rsqr, mean, average, sum. ring. Qed.
Lemma varied_dec : forall u, varied u \/ ~ varied u.
Proof. exact PumpRunProofs.classic_varied. Qed.
Lemma spread_zero : forall u, u <> [] -> (spread u = 0 <-> ~ varied u).
Proof. exact PumpProofs.spread_zero. Qed.
Lemma misfit_warm : forall E c temps taus, List.length temps = List.length taus -> c <> 0 -> Forall warm temps -> misfit E c temps taus = Some (scatter (map (fun T => tau_f T E c) temps) taus).
Proof.
  intros E c temps. induction temps as [|T temps IH]; intros [|u taus] L C W; try discriminate; [reflexivity|]. apply Forall_cons_iff in W. destruct W as (W0 & W). cbn [misfit]. rewrite (tau_eq _ _ _ W0 C), (IH taus); [|cbn in L; lia|assumption|assumption].
  f_equal. unfold scatter. cbn [map combine sum fold_right fst snd]. unfold Rsqr. unfold sum. ring.
Qed.
Lemma misfit_none : forall E c temps taus, List.length temps = List.length taus -> (exists T, In T temps /\ ~ (warm T /\ c <> 0)) -> misfit E c temps taus = None.
Proof.
  intros E c temps. induction temps as [|T temps IH]; intros [|u taus] L (T' & I & N); try discriminate; [destruct I|]. cbn [misfit]. destruct I as [->|I].
  - rewrite (tau_none _ _ _ N). reflexivity.
  - rewrite (IH taus); [destruct (tau_temp T E c); reflexivity|cbn in L; lia|eauto].
Qed.
Lemma all_warm_dec : forall c temps, Forall (fun T => warm T /\ c <> 0) temps \/ exists T, In T temps /\ ~ (warm T /\ c <> 0).
Proof.
  intros c temps. induction temps as [|T temps IH]; [left; constructor|]. destruct (warm_dec T c) as [W|N]; [|right; exists T; split; [left; reflexivity|assumption]].
  destruct IH as [F|(T' & I & N)]; [left; constructor; assumption|right; exists T'; split; [right; assumption|assumption]].
Qed.
Lemma release_list : forall E c temps f, Forall2 (fun T t => release T E c (Some t)) temps f -> f = map (fun T => tau_f T E c) temps /\ Forall (fun T => warm T /\ c <> 0) temps.
Proof.
  intros E c temps f F. induction F as [|T t temps f R F IH]; [split; [reflexivity|constructor]|]. destruct IH as (-> & W). apply tau_iff in R. apply tau_some in R. destruct R as (W0 & C & ->). split; [reflexivity|constructor; auto].
Qed.
Lemma release_list_ok : forall E c temps, Forall (fun T => warm T /\ c <> 0) temps -> Forall2 (fun T t => release T E c (Some t)) temps (map (fun T => tau_f T E c) temps).
Proof.
  intros E c temps F. induction F as [|T temps (W & C) F IH]; constructor; [|exact IH]. apply tau_iff, tau_eq; assumption.
Qed.
Lemma r_sq_iff : forall E c temps taus r, List.length temps = List.length taus -> (3 <= List.length temps)%nat -> (r_sq E c temps taus = r <-> quality E c temps taus r).
Proof.
  intros E c temps taus r L N. assert (NE : taus <> []) by (intros ->; cbn in L; lia). unfold r_sq. rewrite sstot_eq. destruct (all_warm_dec c temps) as [F|X].
  - assert (C : c <> 0). { destruct temps as [|T temps]; [cbn in N; lia|]. apply Forall_inv in F. tauto. }
    rewrite misfit_warm; [|assumption|assumption|eapply Forall_impl; [|exact F]; cbn beta; tauto].
    destruct (Req_EM_T (spread taus) 0) as [Z|Z].
    + apply spread_zero in Z; [|assumption]. split; [intros <-; left; assumption|]. destruct r; cbn [quality]; [tauto|reflexivity].
    + assert (V : varied taus) by (destruct (varied_dec taus) as [V|V]; [assumption|apply spread_zero in V; [contradiction|assumption]]).
      assert (G : 1 - scatter (map (fun T => tau_f T E c) temps) taus / spread taus * (INR (List.length temps) - 1) / (INR (List.length temps) - 2) = goodness (map (fun T => tau_f T E c) temps) taus).
      { unfold goodness. rewrite <- L. apply le_INR in N. replace (INR 3) with 3 in N by (cbn; lra). field. repeat split; try assumption; lra. }
      rewrite G. split.
      * intros <-. cbn [quality]. split; [assumption|]. exists (map (fun T => tau_f T E c) temps). split; [apply release_list_ok; assumption|reflexivity].
      * destruct r as [x|]; cbn [quality].
        -- intros (_ & f & RL & ->). apply release_list in RL. destruct RL as (-> & _). reflexivity.
        -- intros [Q|(T & I & Q)]; [contradiction|]. rewrite Forall_forall in F. destruct (Q (F T I)).
  - rewrite misfit_none by assumption. split; [intros <-; right; assumption|]. destruct r as [x|]; [|reflexivity]. cbn [quality]. intros (_ & f & RL & _). apply release_list in RL. destruct RL as (_ & F). destruct X as (T & I & Q). rewrite Forall_forall in F. destruct (Q (F T I)).
Qed.

(** The choice of the covariance. *)
Lemma wider_iff : forall v w, at_least (total_dev v) (total_dev w) = true <-> wider v w.
Proof.
  intros [[a|] [b|]] [[c|] [d|]]; cbn [at_least total_dev wider]; try tauto; try (split; [discriminate|tauto]). destruct (Rle_dec (sqrt c + sqrt d) (sqrt a + sqrt b)); split; auto; try discriminate; try tauto.
Qed.
Section RUN.
Variable eps : R.
Variable curve : curve_t.
Definition answer (j : job) (p : pair2) (v : err * err) : fit :=
  Fit (fst p) (dev (fst v)) (snd p * / 10 ^ 15) (option_map (fun s => s * / 10 ^ 15) (dev (snd v))) (r_sq (fst p) (snd p) (j_T j) (j_tau j))
    (tau_temp (l_T (j_lim j)) (fst p) (snd p * / 10 ^ 15 * 10 ^ 15))
    (sig_tau_temp (l_T (j_lim j)) (fst p) (snd p * / 10 ^ 15 * 10 ^ 15) (dev (fst v)) (option_map (fun s => s * 10 ^ 15) (option_map (fun s => s * / 10 ^ 15) (dev (snd v))))).
Lemma answer_iff : forall j p v f, List.length (j_T j) = List.length (j_tau j) -> (3 <= List.length (j_T j))%nat -> (answer j p v = f <-> reported j p v f).
Proof using.
  intros j [E c] [v1 v2] f L N. unfold answer. cbn [fst snd]. assert (T15 := ten 15). assert (I : forall x, x * / 10 ^ 15 * 10 ^ 15 = x) by (intros; field; lra). rewrite I.
  replace (option_map (fun s => s * 10 ^ 15) (option_map (fun s => s * / 10 ^ 15) (dev v2))) with (dev v2) by (destruct v2; cbn [dev option_map]; [rewrite I|]; reflexivity).
  replace (option_map (fun s => s * / 10 ^ 15) (dev v2)) with (scaled (/ 10 ^ 15) (root v2)) by (destruct v2; cbn [dev option_map scaled root]; [f_equal; ring|reflexivity]).
  change (dev v1) with (root v1). change (dev v2) with (root v2). change (c * / 10 ^ 15) with (c / 10 ^ 15). split.
  - intros <-. apply (Reported j (E, c) (v1, v2)); cbn [fst snd]; [apply r_sq_iff; auto|apply tau_iff; reflexivity|apply sig_iff; reflexivity].
  - intros H. destruct H as [r t s Q R D]. cbn [fst snd] in *. apply (r_sq_iff _ _ _ _ _ L N) in Q. apply tau_iff in R. apply sig_iff in D. rewrite Q, R, D. reflexivity.
Qed.
Lemma run_eq : forall j, run eps curve j =
  match checks (j_tau j) (j_err j) (j_T j) (j_lim j) with
  | Raise e => Raise e
  | Ok _ => if (List.length (nodup Req_EM_T (j_T j)) <? 3)%nat then Ok NoFit else
            match asked eps curve j true with None => Ok NoFit | Some (pt, vt) =>
            match asked eps curve j false with None => Ok NoFit | Some (pf, vf) =>
            Ok (if at_least (total_dev vt) (total_dev vf) then answer j pt vt else answer j pf vf) end end
  end.
Proof using.
  intros [u e t l]. unfold run, fit_cs, asked, answer. cbn [j_tau j_err j_T j_lim]. destruct (checks u e t l) as [x|x]; cbn [bind]; [|reflexivity].
  replace (map (no_zero eps) e) with (map (fun e0 => match e0 with Some x0 => Some (if Req_EM_T x0 0 then eps else x0) | None => None end) e).
  2: { apply map_ext. intros [x0|]; [|reflexivity]. cbn [no_zero]. destruct (Req_EM_T x0 0); reflexivity. }
  destruct (List.length (nodup Req_EM_T t) <? 3)%nat; [reflexivity|]. destruct (curve t u _ _ _ _ true) as [[pt vt]|]; [|reflexivity]. destruct (curve t u _ _ _ _ false) as [[pf vf]|]; [|reflexivity].
  destruct (at_least (total_dev vt) (total_dev vf)); reflexivity.
Qed.
Lemma accepted_len : forall j, accepted j -> List.length (j_T j) = List.length (j_tau j) /\ List.length (j_err j) = List.length (j_tau j).
Proof using.
  intros j A. unfold accepted, refusals in A. cbv zeta in A. apply Forall_cons_iff in A. destruct A as (A & B). apply Forall_cons_iff in B. destruct B as (B & _). cbn [fst] in *. lia.
Qed.
Theorem run_ok : forall j f, run eps curve j = Ok f <-> accepted j /\ ends eps curve j f.
Proof using.
  intros j f. rewrite run_eq. pose proof (checks_iff j) as K. destruct (checks (j_tau j) (j_err j) (j_T j) (j_lim j)) as [x|e].
  2: { split; [discriminate|]. intros (A & _). destruct (accepted_not_refused _ _ A K). }
  destruct (accepted_len j K) as (L & _). destruct (Nat.ltb_spec (List.length (nodup Req_EM_T (j_T j))) 3) as [F|F].
  - rewrite few_iff in F. split.
    + intros X. injection X as <-. split; [assumption|]. apply E_few. assumption.
    + intros (_ & H). destruct H; [reflexivity|reflexivity|contradiction].
  - assert (NF : ~ few j) by (rewrite <- few_iff; lia). pose proof (many j NF) as M. destruct (asked eps curve j true) as [[p v]|] eqn:A1.
    + destruct (asked eps curve j false) as [[q w]|] eqn:A2.
      * split.
        -- intros X. injection X as X. split; [assumption|]. apply (E_fit _ _ _ p v q w); try assumption; intros W; apply answer_iff; try assumption.
           ++ apply wider_iff in W. rewrite W in X. assumption.
           ++ destruct (at_least (total_dev v) (total_dev w)) eqn:B; [apply wider_iff in B; contradiction|assumption].
        -- intros (_ & H). destruct H as [H|a H|p' v' q' w' f H1 H2 H3 H4 H5].
           ++ contradiction.
           ++ destruct a; congruence.
           ++ rewrite A1 in H2. rewrite A2 in H3. injection H2 as <- <-. injection H3 as <- <-. f_equal. destruct (at_least (total_dev v) (total_dev w)) eqn:B.
              ** apply answer_iff; [assumption|assumption|]. apply H4. apply wider_iff. assumption.
              ** apply answer_iff; [assumption|assumption|]. apply H5. intros W. apply wider_iff in W. congruence.
      * split.
        -- intros X. injection X as <-. split; [assumption|]. apply (E_failed _ _ _ false). assumption.
        -- intros (_ & H). destruct H as [H|a H|p' v' q' w' f H1 H2 H3 H4 H5]; [reflexivity|reflexivity|congruence].
    + split.
      * intros X. injection X as <-. split; [assumption|]. apply (E_failed _ _ _ true). assumption.
      * intros (_ & H). destruct H as [H|a H|p' v' q' w' f H1 H2 H3 H4 H5]; [reflexivity|reflexivity|congruence].
Qed.
Theorem run_raises : forall j e, run eps curve j = Raise e <-> refused j e.
Proof using.
  intros j e. rewrite run_eq. pose proof (checks_iff j) as K. destruct (checks (j_tau j) (j_err j) (j_T j) (j_lim j)) as [x|e'].
  - split.
    + destruct (List.length (nodup Req_EM_T (j_T j)) <? 3)%nat; [discriminate|]. destruct (asked eps curve j true) as [[p v]|]; [|discriminate]. destruct (asked eps curve j false) as [[q w]|]; discriminate.
    + intros R. destruct (accepted_not_refused _ _ K R).
  - split.
    + intros X. injection X as <-. assumption.
    + intros R. f_equal. destruct K as (l1 & P & l2 & E & HP & F). destruct R as (m1 & Q & m2 & E' & HQ & G). rewrite E in E'. clear E. revert m1 G E'. induction l1 as [|x l1 IH]; intros [|y m1] G E'; cbn [app] in E'.
      * injection E'. auto.
      * injection E' as E0 _. subst y. apply Forall_inv in G. contradiction.
      * injection E' as E0 _. subst x. apply Forall_inv in F. contradiction.
      * injection E' as E0 E1. apply Forall_inv_tail in F. apply Forall_inv_tail in G. exact (IH F m1 G E1).
Qed.

(** Laws. *)
Lemma origin : forall j E sE cs scs r t s, run eps curve j = Ok (Fit E sE cs scs r t s) ->
  accepted j /\ ~ few j /\ exists p v a, asked eps curve j a = Some (p, v) /\ E = fst p /\ cs = snd p / 10 ^ 15 /\ quality (fst p) (snd p) (j_T j) (j_tau j) r /\ release (l_T (j_lim j)) (fst p) (snd p) t.
Proof using.
  intros j E sE cs scs r t s H. apply run_ok in H. destruct H as (A & H). split; [assumption|]. inversion H as [| |p v q w f NF A1 A2 H1 H2]; subst. split; [assumption|].
  destruct (at_least (total_dev v) (total_dev w)) eqn:B.
  - apply wider_iff in B. specialize (H1 B). inversion H1; subst. exists p, v, true. auto.
  - assert (NB : ~ wider v w) by (intros W; apply wider_iff in W; congruence). specialize (H2 NB). inversion H2; subst. exists q, w, false. auto.
Qed.
Theorem within : forall j E sE cs scs r t s, bounded curve -> run eps curve j = Ok (Fit E sE cs scs r t s) ->
  let l := j_lim j in fst (l_E l) <= E <= snd (l_E l) /\ fst (l_cs l) / 10 ^ 15 <= cs <= snd (l_cs l) / 10 ^ 15.
Proof using.
  intros j E sE cs scs r t s B H. apply origin in H. destruct H as (_ & _ & p & v & a & A & -> & -> & _). apply B in A. cbn [fst snd] in A. cbv zeta. assert (T15 := ten 15). assert (I : 0 < / 10 ^ 15) by (apply Rinv_0_lt_compat; assumption).
  split; [tauto|]. unfold Rdiv. split; apply Rmult_le_compat_r; lra.
Qed.
Lemma not_few : forall j, ~ few j -> exists S T, S <> T /\ In S (j_T j) /\ In T (j_T j).
Proof using.
  intros j N. destruct (j_T j) as [|a l] eqn:E.
  - exfalso. apply N. exists 0, 0. rewrite E. intros x [].
  - destruct (Forall_Exists_dec (fun x => x = a) (fun x => Req_EM_T x a) l) as [F|X].
    + exfalso. apply N. exists a, a. rewrite E. intros x [->|I]; [left; reflexivity|]. rewrite Forall_forall in F. rewrite (F x I). left. reflexivity.
    + apply Exists_exists in X. destruct X as (x & I & Q). exists x, a. split; [assumption|]. split; [right; assumption|left; reflexivity].
Qed.
Lemma spread_pos : forall u, varied u -> 0 < spread u. Proof using. exact PumpLawProofs.varied_spread. Qed.
Lemma scatter_zero : forall f u, scatter f u = 0 <-> Forall (fun q => fst q = snd q) (combine f u).
Proof using.
  intros f u. unfold scatter. pose proof (PumpProofs.sum_sq_zero (fun q : R * R => fst q - snd q) (combine f u)) as Z.
  change (sum (map (fun q => Rsqr (fst q - snd q)) (combine f u)) = 0 <-> Forall (fun q : R * R => fst q - snd q = 0) (combine f u)) in Z. rewrite Z. split; apply Forall_impl; intros; lra.
Qed.
Lemma good_one : forall f u, (3 <= List.length u)%nat -> varied u -> (goodness f u = 1 <-> Forall (fun q => fst q = snd q) (combine f u)).
Proof using.
  intros f u N V. rewrite <- scatter_zero. unfold goodness. pose proof (spread_pos u V) as P. apply le_INR in N. replace (INR 3) with 3 in N by (cbn; lra). split.
  - intros E. assert (Z : scatter f u * ((INR (List.length u) - 1) / ((INR (List.length u) - 2) * spread u)) = 0).
    { replace (scatter f u * ((INR (List.length u) - 1) / ((INR (List.length u) - 2) * spread u))) with (scatter f u / (INR (List.length u) - 2) / (spread u / (INR (List.length u) - 1))) by (field; lra). lra. }
    apply Rmult_integral in Z. destruct Z as [Z|Z]; [assumption|]. exfalso. assert (0 < (INR (List.length u) - 1) / ((INR (List.length u) - 2) * spread u)) by (apply Rdiv_lt_0_compat; [lra|apply Rmult_lt_0_compat; lra]). lra.
  - intros ->. unfold Rdiv. rewrite !Rmult_0_l. ring.
Qed.
Lemma paired : forall (E c E0 c0 : R) temps taus, Forall2 (fun T t => release T E0 c0 (Some t)) temps taus ->
  Forall (fun q => fst q = snd q) (combine (map (fun T => tau_f T E c) temps) taus) -> forall T, In T temps -> tau_f T E c = tau_f T E0 c0.
Proof using.
  intros E c E0 c0 temps taus F. induction F as [|T t temps taus R F IH]; cbn [map combine In]; [intros _ ? []|]. intros G U [<-|I].
  - apply Forall_inv in G. cbn [fst snd] in G. apply tau_iff, tau_some in R. destruct R as (_ & _ & ->). assumption.
  - apply Forall_inv_tail in G. auto.
Qed.
(** A perfect fit of the release times of a trap is that trap. *)
Theorem recovered : forall j E sE cs scs t s E0 c0, Forall2 (fun T u => release T E0 c0 (Some u)) (j_T j) (j_tau j) ->
  run eps curve j = Ok (Fit E sE cs scs (Some 1) t s) -> E = E0 /\ cs = c0 / 10 ^ 15 /\ release (l_T (j_lim j)) E0 c0 t.
Proof using.
  intros j E sE cs scs t s E0 c0 F H. apply origin in H. destruct H as (A & NF & [E1 c1] & v & a & _ & -> & -> & Q & R). cbn [fst snd] in *. destruct Q as (V & f & RL & G). destruct (accepted_len j A) as (L & _). pose proof (many j NF) as M.
  destruct (release_list _ _ _ _ RL) as (-> & W). symmetry in G. apply good_one in G; [|lia|assumption]. pose proof (paired _ _ _ _ _ _ F G) as P.
  destruct (not_few j NF) as (S & T & N & IS & IT). pose proof (release_list _ _ _ _ F) as (_ & W0). rewrite Forall_forall in W, W0.
  assert (X : E1 = E0 /\ c1 = c0).
  { apply (determined S T E1 c1 E0 c0 (tau_f S E1 c1) (tau_f T E1 c1) N); apply tau_some; (split; [first [apply (W S IS)|apply (W T IT)]|]); (split; [first [apply (W S IS)|apply (W0 S IS)]|]); auto. }
  destruct X as (-> & ->). auto.
Qed.
(** And an exact fit is perfect. *)
Theorem perfect : forall j E sE cs scs r t s, Forall2 (fun T u => release T E (cs * 10 ^ 15) (Some u)) (j_T j) (j_tau j) -> varied (j_tau j) ->
  run eps curve j = Ok (Fit E sE cs scs r t s) -> r = Some 1.
Proof using.
  intros j E sE cs scs r t s F V H. apply origin in H. destruct H as (A & NF & [E1 c1] & v & a & _ & -> & -> & Q & R). cbn [fst snd] in *. destruct (accepted_len j A) as (L & _). pose proof (many j NF) as M.
  assert (T15 := ten 15). replace (c1 / 10 ^ 15 * 10 ^ 15) with c1 in F by (field; lra). symmetry. apply (r_sq_iff _ _ _ _ _ L M) in Q. rewrite <- Q. symmetry. apply (r_sq_iff _ _ _ _ _ L M). cbn [quality]. split; [assumption|].
  exists (j_tau j). split; [assumption|]. symmetry. apply good_one; [lia|assumption|]. generalize (j_tau j). intros l. induction l as [|x l IH]; cbn [combine]; constructor; auto.
Qed.
End RUN.

(** All the traps. *)
Lemma F2_fun : forall {A B} (P : A -> B -> Prop) l x y, (forall a b c, P a b -> P a c -> b = c) -> Forall2 P l x -> Forall2 P l y -> x = y.
Proof.
  intros A B P l x y H F. revert y. induction F as [|a b l x Q F IH]; intros y G; inversion G as [|a' b' l' y' Q' G']; subst; [reflexivity|]. rewrite (H _ _ _ Q Q'), (IH _ G'). reflexivity.
Qed.
Lemma kept_chosen : forall th f l v, chosen th l v -> chosen th (f :: l) (kept th f ++ v).
Proof.
  intros th f l v H. destruct f as [|E sE cs scs [r|] t s]; cbn [kept].
  - apply Ch_poor; [discriminate|assumption].
  - destruct (Rle_dec th r) as [L|L]; cbn [app]; [apply Ch_good; assumption|]. apply Ch_poor; [|assumption]. intros E' sE' cs' scs' r' t' s' X. injection X as _ _ _ _ <- _ _. lra.
  - apply Ch_poor; [discriminate|assumption].
Qed.
Lemma chosen_unique : forall th l v w, chosen th l v -> chosen th l w -> v = w.
Proof.
  intros th l v w H. revert w. induction H as [|E sE cs scs r t s l v L H IH|f l v N H IH]; intros w K; inversion K; subst; try reflexivity.
  - f_equal. auto.
  - specialize (H2 _ _ _ _ _ _ _ eq_refl). lra.
  - specialize (N _ _ _ _ _ _ _ eq_refl). lra.
  - auto.
Qed.
Theorem all_ok : forall eps curve K (l : limits) (d : list (K * trap)) fs v, fit_all eps curve l d = Ok (fs, v) <->
  Forall2 (fun q f => fst f = q /\ run eps curve (job_of l (snd q)) = Ok (snd f)) d fs /\ chosen (l_thresh l) (map snd fs) v.
Proof.
  intros eps curve K l d. induction d as [|[k t] d IH]; intros fs v; cbn [fit_all].
  - split.
    + intros E. injection E as <- <-. split; constructor.
    + intros (F & C). inversion F; subst. inversion C; subst. reflexivity.
  - change (fit_cs eps curve (t_tau t) (t_sig t) (t_T t) l) with (run eps curve (job_of l t)). destruct (run eps curve (job_of l t)) as [f|e] eqn:R; cbn [bind].
    + destruct (fit_all eps curve l d) as [[gs w]|e] eqn:A; cbn [bind fst snd].
      * destruct (IH gs w) as (I1 & _). destruct (I1 eq_refl) as (F & C). split.
        -- intros E. injection E as <- <-. split; [constructor; [split; [reflexivity|exact R]|exact F]|]. cbn [map snd]. apply kept_chosen. exact C.
        -- intros (F' & C'). inversion F' as [|q g d' gs' (Q1 & Q2) F2]; subst. destruct g as [q' f']. cbn [fst snd map] in *. subst q'. rewrite R in Q2. injection Q2 as <-.
           assert (G : gs' = gs).
           { eapply F2_fun; [|exact F2|exact F]. intros a [b1 b2] [b3 b4] (X & Y) (X' & Y'). cbn [fst snd] in *. congruence. }
           subst gs'. f_equal. f_equal. apply (chosen_unique (l_thresh l) (f :: map snd gs)); [apply kept_chosen; exact C|exact C'].
      * split; [discriminate|]. intros (F' & C'). inversion F' as [|q g d' gs' (Q1 & Q2) F2]; subst. exfalso. assert (X : exists w, chosen (l_thresh l) (map snd gs') w).
        { clear. induction (map snd gs') as [|f fs (w & H)]; [exists []; constructor|]. exists (kept (l_thresh l) f ++ w). apply kept_chosen. exact H. }
        destruct X as (w & C). assert (Y : Raise e = Ok (gs', w)) by (apply IH; auto). discriminate.
    + split; [discriminate|]. intros (F' & _). inversion F' as [|q g d' gs' (Q1 & Q2) F2]; subst. cbn [snd] in Q2. congruence.
Qed.
Theorem all_raises : forall eps curve K (l : limits) (d : list (K * trap)) e, fit_all eps curve l d = Raise e <->
  exists d1 q d2, d = d1 ++ q :: d2 /\ Forall (fun q => accepted (job_of l (snd q))) d1 /\ refused (job_of l (snd q)) e.
Proof.
  intros eps curve K l d. induction d as [|[k t] d IH]; intros e; cbn [fit_all].
  - split; [discriminate|]. intros (d1 & q & d2 & E & _). destruct d1; discriminate.
  - change (fit_cs eps curve (t_tau t) (t_sig t) (t_T t) l) with (run eps curve (job_of l t)). destruct (run eps curve (job_of l t)) as [f|e'] eqn:R; cbn [bind].
    + assert (A : accepted (job_of l t)) by (apply run_ok in R; tauto). destruct (fit_all eps curve l d) as [[gs w]|e'] eqn:Q; cbn [bind].
      * split; [discriminate|]. intros (d1 & q & d2 & E & F & X). exfalso. destruct d1 as [|q1 d1]; injection E as E0 E1; subst.
        -- exact (accepted_not_refused _ _ A X).
        -- assert (Y : Ok (gs, w) = Raise e) by (apply IH; apply Forall_inv_tail in F; exists d1, q, d2; auto). discriminate.
      * split.
        -- intros E. injection E as <-. destruct (IH e') as (I & _). destruct (I eq_refl) as (d1 & q & d2 & -> & F & X). exists ((k, t) :: d1), q, d2. split; [reflexivity|]. split; [constructor; assumption|assumption].
        -- intros (d1 & q & d2 & E & F & X). destruct d1 as [|q1 d1]; injection E as E0 E1; subst.
           ++ destruct (accepted_not_refused _ _ A X).
           ++ apply IH. apply Forall_inv_tail in F. exists d1, q, d2. auto.
    + apply run_raises in R. split.
      * intros E. injection E as <-. exists [], (k, t), d. split; [reflexivity|]. split; [constructor|assumption].
      * intros (d1 & q & d2 & E & F & X). destruct d1 as [|q1 d1]; injection E as E0 E1; subst.
        -- apply (run_raises eps curve) in R. apply (run_raises eps curve) in X. cbn [snd] in X. rewrite R in X. congruence.
        -- apply Forall_inv in F. destruct (accepted_not_refused _ _ F R).
Qed.
