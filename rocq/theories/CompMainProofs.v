(** The measurement of companions: the whole of it, and its refusals. *)
From Coq Require Import List Arith Bool Reals ZArith String Lra Lia.
From Verif Require Import Base DqModel CombineModel FlatModel FluxModel FluxSpec NearModel NearSpec NearProofs NearFactsProofs CardModel CtModel CtSpec CtProofs SortGroupProofs BendFitProofs CompModel CompSpec CompProofs.
Import ListNotations.
Local Open Scope R_scope.

Lemma need_ok : forall o x, need o = Ok x <-> o = Some x.
Proof. intros [y|] x; cbn; [split; intros Q; injection Q as ->; reflexivity|split; discriminate]. Qed.
Lemma magnitude_iff : forall host_mag (calspec : bool) zp n r m,
  (if calspec then do m <- host_mag; Ok (vsub m (vmul (Some (5 / 2)) (log10 r)))
   else match zp with None => Raise ValueError | Some None => Raise TypeError | Some (Some z) => Ok (vadd (vmul (Some (- (5 / 2))) (log10 n)) (Some z)) end) = Ok m
  <-> magnitude host_mag calspec zp n r m.
Proof.
  intros host_mag calspec zp n r m. unfold magnitude. destruct calspec.
  - split.
    + destruct host_mag as [h|]; cbn [bind]; [|discriminate]. intros Q. injection Q as <-. left. split; [reflexivity|]. exists h, (log10 r). split; [reflexivity|]. split; [apply log_iff; reflexivity|]. destruct h, (log10 r); reflexivity.
    + intros [(_ & h & l & -> & L & ->)|(Q & _)]; [|discriminate]. apply log_iff in L. subst. cbn [bind]. f_equal. destruct h, (log10 r); reflexivity.
  - split.
    + destruct zp as [[z|]|]; [|discriminate|discriminate]. intros Q. injection Q as <-. right. split; [reflexivity|]. exists z, (log10 n). split; [reflexivity|]. split; [apply log_iff; reflexivity|]. destruct (log10 n); [|reflexivity]. cbn. f_equal. ring.
    + intros [(Q & _)|(_ & z & l & -> & L & ->)]; [discriminate|]. apply log_iff in L. subst. f_equal. destruct (log10 n); [|reflexivity]. cbn. f_equal. ring.
Qed.
Lemma measured_iff : forall gauss psf_at host_mag aper gauss2d s ct k thrp mode m kws calspec zp c row, thru_ok s ->
  (measure_one gauss psf_at host_mag aper gauss2d s ct k thrp mode m kws calspec zp c = Ok row <-> measured gauss psf_at host_mag aper gauss2d s ct k thrp mode m kws calspec zp c row).
Proof.
  intros gauss psf_at host_mag aper gauss2d s ct k thrp mode m kws calspec zp c row TO. unfold measure_one, measured. change (fun p => times_img p k) with (multiplied k). split.
  - destruct (need (fst (s_star s))) as [xs|] eqn:E1; cbn [bind]; [|discriminate]. destruct (need (snd (s_star s))) as [ys|] eqn:E2; cbn [bind]; [|discriminate]. destruct (psf_at _ _) as [p|] eqn:E3; cbn [bind]; [|discriminate]. cbv zeta. destruct (fit_peak gauss _ _) as [h|] eqn:E4; cbn [bind]; [|discriminate]. destruct (if String.eqb thrp "L4" then _ else _) as [(n, r)|] eqn:E5; cbn [bind fst snd]; [|discriminate].
    match goal with |- (do m0 <- ?X; _) = _ -> _ => destruct X as [mg|] eqn:E6; cbn [bind]; [|discriminate] end. intros Q. injection Q as <-. apply need_ok in E1, E2. apply fitted_iff in E4. apply magnitude_iff in E6. exists xs, ys, p, h. split; [rewrite <- E1, <- E2; destruct (s_star s); reflexivity|]. split; [assumption|]. split; [exact E4|]. cbn [r_counts r_ratio r_mag r_id r_x r_y]. split; [|auto].
    destruct (String.eqb_spec thrp "L4") as [->|]; [left; split; [reflexivity|]; apply l4_iff; assumption|]. destruct (String.eqb_spec thrp "KLIP-FM"); [discriminate|]. destruct (String.eqb_spec thrp "None") as [->|]; [|discriminate]. right. split; [reflexivity|]. apply plain_iff. exact E5.
  - intros (xs & ys & p & h & S0 & P & H & M & MG & I & X & Y). rewrite S0. cbn [fst snd need bind]. rewrite P. cbn [bind]. apply fitted_iff in H. cbv zeta. change (times_img p k) with (multiplied k p). rewrite H. cbn [bind]. apply magnitude_iff in MG.
    assert (Q : (if String.eqb thrp "L4" then with_l4 gauss s xs ys mode h c else if String.eqb thrp "KLIP-FM" then Raise NotImplementedError else if String.eqb thrp "None" then without aper gauss2d s mode m kws (multiplied k p) c else Raise ValueError) = Ok (r_counts row, r_ratio row)).
    { destruct M as [(-> & M)|(-> & M)]; cbn [String.eqb Ascii.eqb Bool.eqb]; [apply l4_iff; assumption|apply plain_iff; assumption]. }
    rewrite Q. cbn [bind fst snd]. rewrite MG. cbn [bind]. rewrite <- I, <- X, <- Y. destruct row; reflexivity.
Qed.
Lemma companions_iff : forall gauss psf_at od host_mag aper gauss2d s thrp mode m kws calspec zp cand rows, thru_ok s ->
  (measure_companions gauss psf_at od host_mag aper gauss2d s thrp mode m kws calspec zp cand = Ok rows <->
   exists ct k l, scale_of gauss od s ct k /\ listed s cand l /\ Forall2 (measured gauss psf_at host_mag aper gauss2d s ct k thrp mode m kws calspec zp) l rows).
Proof.
  intros gauss psf_at od host_mag aper gauss2d s thrp mode m kws calspec zp cand rs TO. unfold measure_companions. split.
  - destruct (host_scale gauss od s) as [(ct, k)|] eqn:E1; cbn [bind fst snd]; [|discriminate]. destruct (companions s cand) as [l|] eqn:E2; cbn [bind]; [|discriminate]. intros E3. exists ct, k, l. split; [apply scale_iff; assumption|]. split; [apply listed_iff; assumption|]. apply mapR_iff in E3. clear - E3 TO. induction E3; constructor; auto. apply measured_iff; assumption.
  - intros (ct & k & l & S0 & L & F). apply scale_iff in S0. apply listed_iff in L. rewrite S0. cbn [bind fst snd]. rewrite L. cbn [bind]. apply mapR_iff. clear - F TO. induction F; constructor; auto. apply measured_iff; assumption.
Qed.

(** ** Refusals *)
Lemma fit_fails : forall gauss f w e, fit_peak gauss f w = Raise e <-> fit_refused gauss f w e.
Proof.
  intros gauss f w e. unfold fit_peak, fit_refused. destruct (brightest f) as [p|e'] eqn:E; cbn [bind].
  - apply brightest_iff in E. split; [intros Q; right; exists p; split; [assumption|exact Q]|]. intros [(N & _)|(p' & P & Q)]; [destruct E as (I & v & V & _); rewrite (N p I) in V; discriminate|]. assert (p' = p) by (apply (peak_one f); assumption). subst. exact Q.
  - pose proof E as E0. apply brightest_fails in E0. destruct E0 as (-> & N). split; [intros Q; injection Q as <-; left; auto|]. intros [(_ & ->)|(p & P & _)]; [reflexivity|]. apply brightest_iff in P. congruence.
Qed.
Lemma best_nil : forall i, ~ best [] i.
Proof. intros i B. apply argmax_iff in B. discriminate. Qed.
Lemma scale_fails : forall gauss od s e, host_scale gauss od s = Raise e <-> scale_refused gauss s e.
Proof.
  intros gauss od s e. unfold host_scale, scale_refused. destruct (fit_peak gauss (s_host s) (Some 3)) as [h|e'] eqn:E; cbn [bind].
  - assert (F := E). apply fitted_iff in F. assert (N : forall e', ~ fit_refused gauss (s_host s) (Some 3) e') by (intros e' Q; apply fit_fails in Q; congruence). destruct (argmax (s_ct s)) as [i|e'] eqn:A; cbn [bind].
    + assert (B := A). apply argmax_iff in B. assert (NE : s_ct s <> []) by (intros Q; rewrite Q in A; discriminate). destruct (nth_error (s_cube s) i) as [f|] eqn:C; cbn [bind].
      * destruct (fit_peak gauss f (Some 3)) as [c|e'] eqn:D; cbn [bind].
        -- split; [discriminate|]. intros [Q|(_ & [(Q & _)|(j & J & [(Q & _)|(f' & Q & Q')])])]; [destruct (N _ Q)|contradiction|assert (j = i) by (eapply best_unique; eassumption); congruence|]. assert (j = i) by (eapply best_unique; eassumption). subst. rewrite C in Q. injection Q as <-. apply fit_fails in Q'. congruence.
        -- split; [intros Q; injection Q as <-; right; split; [eauto|]; right; exists i; split; [assumption|]; right; exists f; split; [assumption|apply fit_fails; assumption]|]. intros [Q|(_ & [(Q & _)|(j & J & [(Q & _)|(f' & Q & Q')])])]; [destruct (N _ Q)|contradiction|assert (j = i) by (eapply best_unique; eassumption); congruence|]. assert (j = i) by (eapply best_unique; eassumption). subst. rewrite C in Q. injection Q as <-. apply fit_fails in Q'. congruence.
      * split; [intros Q; injection Q as <-; right; split; [eauto|]; right; exists i; split; [assumption|]; left; auto|]. intros [Q|(_ & [(Q & _)|(j & J & [(Q & ->)|(f' & Q & Q')])])]; [destruct (N _ Q)|contradiction|reflexivity|]. assert (j = i) by (eapply best_unique; eassumption). congruence.
    + destruct (s_ct s) as [|v t] eqn:Z; [|discriminate]. injection A as <-. split; [intros Q; injection Q as <-; right; split; [eauto|]; left; auto|]. intros [Q|(_ & [(_ & ->)|(j & J & _)])]; [destruct (N _ Q)|reflexivity|destruct (best_nil j J)].
  - split; [intros Q; injection Q as <-; left; apply fit_fails; assumption|]. intros [Q|((h & Q) & _)]; [apply fit_fails in Q; congruence|apply fitted_iff in Q; congruence].
Qed.
Lemma candidates_fail : forall star l i e, candidates_from star i l = Raise e <-> l <> [] /\ (fst star = None \/ snd star = None) /\ e = TypeError.
Proof.
  intros (ox, oy) l. induction l as [|(sep, pa) l IH]; intros i e; cbn [candidates_from fst snd]; [split; [discriminate|intros (N & _); destruct (N eq_refl)]|].
  destruct ox as [xs|]; cbn [need bind]; [|split; [intros Q; injection Q as <-; split; [discriminate|auto]|intros (_ & _ & ->); reflexivity]]. destruct oy as [ys|]; cbn [need bind]; [|split; [intros Q; injection Q as <-; split; [discriminate|auto]|intros (_ & _ & ->); reflexivity]].
  destruct (candidates_from (Some xs, Some ys) (S i) l) as [r|e'] eqn:E; cbn [bind]; [split; [discriminate|intros (_ & [Q|Q] & _); discriminate]|]. apply IH in E. destruct E as (_ & [Q|Q] & _); discriminate.
Qed.
Lemma list_fails : forall s cand e, companions s cand = Raise e <-> list_refused s cand e.
Proof.
  intros s cand e. unfold companions, list_refused, star_missing. destruct cand as [cs|].
  - rewrite candidates_fail. split; [intros (N & M & ->); right; split; [destruct cs as [|c cs]; [destruct (N eq_refl)|eauto]|auto]|]. intros [(Q & _)|((c & cs' & Q) & M & ->)]; [discriminate|]. injection Q as ->. split; [discriminate|auto].
  - destruct (parse_companions (s_header s)) as [q|e']; cbn [bind]; [split; [discriminate|intros [(_ & Q)|((c & cs & Q) & _)]; discriminate]|]. split; [intros Q; injection Q as <-; auto|intros [(_ & Q)|((c & cs & Q) & _)]; [congruence|discriminate]].
Qed.
Lemma row_at_fails : forall A (l : list A) z e, row_at l z = Raise e <-> (forall a, ~ named_by l z a) /\ e = IndexError.
Proof.
  intros A l z e. assert (K : forall e', row_at l z = Raise e' -> e' = IndexError).
  { intros e'. assert (PK : forall n e0, pick l n = Raise e0 -> e0 = IndexError) by (intros n e0; unfold pick; destruct (nth_error l n); congruence). unfold row_at. cbv zeta. destruct (_ && _); [apply PK|]. destruct (_ && _); [apply PK|congruence]. }
  split; [intros Q; split; [intros a N; apply row_at_iff in N; congruence|auto]|]. intros (N & ->). destruct (row_at l z) as [a|e'] eqn:E; [apply row_at_iff in E; destruct (N a E)|]. rewrite (K _ eq_refl). reflexivity.
Qed.
Lemma named_one : forall A (l : list A) z a b, named_by l z a -> named_by l z b -> a = b.
Proof. intros A l z a b H K. apply row_at_iff in H, K. congruence. Qed.
Lemma axis_fails : forall n z e, axis n z = Raise e <-> (forall k, ~ axis_names n z k) /\ e = IndexError.
Proof.
  intros n z e. assert (K : forall e', axis n z = Raise e' -> e' = IndexError) by (intros e'; unfold axis; destruct (_ && _); [discriminate|]; destruct (_ && _); congruence).
  split; [intros Q; split; [intros k N; apply axis_iff in N; congruence|auto]|]. intros (N & ->). destruct (axis n z) as [k|e'] eqn:E; [apply axis_iff in E; destruct (N k E)|]. rewrite (K _ eq_refl). reflexivity.
Qed.
Lemma interp_at_fails : forall seps row x e, List.length row = List.length seps -> (interp_at seps row x = Raise e <-> seps = [] /\ e = ValueError).
Proof. intros seps row x e L. unfold interp_at. destruct seps as [|a seps]; [cbn; split; [intros Q; injection Q as <-; auto|intros (_ & ->); reflexivity]|]. destruct row as [|b row]; [discriminate|]. cbn [combine]. split; [discriminate|intros (Q & _); discriminate]. Qed.
Lemma named_in : forall A (l : list A) z a, named_by l z a -> In a l.
Proof. intros A l z a [(k & _ & K)|(k & _ & K)]; apply nth_error_In in K; [assumption|apply in_rev; assumption]. Qed.
Lemma l4_fails : forall gauss s xs ys mode h c e, thru_ok s -> (with_l4 gauss s xs ys mode h c = Raise e <-> l4_refused gauss s mode h c e).
Proof.
  intros gauss s xs ys mode h c e TO. unfold with_l4, l4_refused, pixel. destruct (row_at (s_frames s) mode) as [f|e'] eqn:E1; cbn [bind].
  2: { apply row_at_fails in E1. destruct E1 as (N & ->). split; [intros Q; injection Q as <-; left; auto|]. intros [(_ & ->)|(f & zy & zx & F & _)]; [reflexivity|destruct (N f F)]. }
  apply row_at_iff in E1. transitivity (((((forall k, ~ axis_names (rows f) (rint (p_y c)) k) \/ (forall k, ~ axis_names (cols f) (rint (p_x c)) k)) /\ e = IndexError) \/
     exists iy ix, axis_names (rows f) (rint (p_y c)) iy /\ axis_names (cols f) (rint (p_x c)) ix /\
       (gauss f (Some (p_x c)) (Some (p_y c)) (f_fwhm h) (pix f iy ix) = Raise e \/
        (exists m, gauss f (Some (p_x c)) (Some (p_y c)) (f_fwhm h) (pix f iy ix) = Ok m) /\
        ((s_thru s = None /\ e = KeyError) \/
         exists seps modes, s_thru s = Some (seps, modes) /\
           (((forall row, ~ named_by modes mode row) /\ e = IndexError) \/ ((exists row, named_by modes mode row) /\ seps = [] /\ e = ValueError)))))).
  2: { split; [intros H; right; exists f, (rint (p_y c)), (rint (p_x c)); split; [assumption|]; split; [apply rint_rounds|]; split; [apply rint_rounds|exact H]|]. intros [(N & _)|(f' & zy & zx & F & RY & RX & H)]; [destruct (N f E1)|]. assert (f' = f) by (eapply named_one; eassumption). apply (rounds_fun _ _ _ (rint_rounds (p_y c))) in RY. apply (rounds_fun _ _ _ (rint_rounds (p_x c))) in RX. subst. exact H. }
  assert (AU : forall n z k k', axis_names n z k -> axis_names n z k' -> k = k') by (intros n z k k' H K; apply axis_iff in H, K; congruence).
  destruct (axis (rows f) (rint (p_y c))) as [iy|e'] eqn:E2; cbn [bind].
  2: { apply axis_fails in E2. destruct E2 as (N & ->). split; [intros Q; injection Q as <-; left; auto|]. intros [(_ & ->)|(iy & ix & Q & _)]; [reflexivity|destruct (N _ Q)]. }
  apply axis_iff in E2. destruct (axis (cols f) (rint (p_x c))) as [ix|e'] eqn:E3; cbn [bind].
  2: { apply axis_fails in E3. destruct E3 as (N & ->). split; [intros Q; injection Q as <-; left; auto|]. intros [(_ & ->)|(iy' & ix & _ & Q & _)]; [reflexivity|destruct (N _ Q)]. }
  apply axis_iff in E3. transitivity (gauss f (Some (p_x c)) (Some (p_y c)) (f_fwhm h) (pix f iy ix) = Raise e \/
        (exists m, gauss f (Some (p_x c)) (Some (p_y c)) (f_fwhm h) (pix f iy ix) = Ok m) /\
        ((s_thru s = None /\ e = KeyError) \/
         exists seps modes, s_thru s = Some (seps, modes) /\
           (((forall row, ~ named_by modes mode row) /\ e = IndexError) \/ ((exists row, named_by modes mode row) /\ seps = [] /\ e = ValueError)))).
  2: { split; [intros H; right; exists iy, ix; auto|]. intros [([N|N] & _)|(iy' & ix' & A & B & H)]; [destruct (N _ E2)|destruct (N _ E3)|]. rewrite (AU _ _ _ _ E2 A), (AU _ _ _ _ E3 B). exact H. }
  destruct (gauss f _ _ _ _) as [m|e'] eqn:E4; cbn [bind]; [|split; [intros Q; injection Q as <-; auto|intros [Q|((m & Q) & _)]; [congruence|discriminate]]].
  destruct (s_thru s) as [(seps, modes)|] eqn:E5; cbn [bind fst snd].
  2: { split; [intros Q; injection Q as <-; right; split; [eauto|left; auto]|]. intros [Q|(_ & [(_ & ->)|(? & ? & Q & _)])]; [discriminate|reflexivity|discriminate]. }
  destruct (TO seps modes E5) as (_ & L). destruct (row_at modes mode) as [row|e'] eqn:E6; cbn [bind].
  2: { apply row_at_fails in E6. destruct E6 as (N & ->). split; [intros Q; injection Q as <-; right; split; [eauto|]; right; exists seps, modes; auto|]. intros [Q|(_ & [(Q & _)|(? & ? & Q & [(_ & ->)|((row & K) & _)])])]; [discriminate|discriminate|reflexivity|]. injection Q as <- <-. destruct (N row K). }
  apply row_at_iff in E6. specialize (L row (named_in _ _ _ _ E6)).
  destruct (interp_at seps row _) as [t|e'] eqn:E7; cbn [bind].
  - split; [discriminate|]. intros [Q|(_ & [(Q & _)|(? & ? & Q & [(N & _)|(_ & Z & ->)])])]; [discriminate|discriminate|injection Q as <- <-; destruct (N row E6)|]. injection Q as <- <-. exfalso. match type of E7 with interp_at _ _ ?x = _ => assert (B : interp_at seps row x = Raise ValueError) by (apply interp_at_fails; auto) end. congruence.
  - apply interp_at_fails in E7; [|assumption]. destruct E7 as (Z & ->). split; [intros Q; injection Q as <-; right; split; [eauto|]; right; exists seps, modes; split; [reflexivity|]; right; eauto|]. intros [Q|(_ & [(Q & _)|(? & ? & Q & [(N & _)|(_ & _ & ->)])])]; [discriminate|discriminate|injection Q as <- <-; destruct (N row E6)|reflexivity].
Qed.
Lemma counts_fail : forall aper gauss2d m k f p e, measure_counts aper gauss2d f m p k = Raise e <-> count_refused aper gauss2d m k f p e.
Proof.
  intros aper gauss2d m k f p e. unfold measure_counts, count_refused, no_method. destruct (String.eqb_spec m "gauss2d") as [->|N1]; [split; [auto|intros [(_ & Q)|[(Q & _)|((Q & _) & _)]]; [assumption|discriminate|destruct (Q eq_refl)]]|].
  destruct (String.eqb_spec m "aperture") as [->|N2]; [split; [auto|intros [(Q & _)|[(_ & Q)|((_ & Q) & _)]]; [discriminate|assumption|destruct (Q eq_refl)]]|]. split; [intros Q; injection Q as <-; auto|intros [(Q & _)|[(Q & _)|(_ & ->)]]; [contradiction|contradiction|reflexivity]].
Qed.
Lemma kwargs_fail : forall m e, get_photometry_kwargs m = Raise e <-> no_method m /\ e = ValueError.
Proof.
  intros m e. unfold get_photometry_kwargs, no_method. destruct (String.eqb_spec m "gauss2d") as [->|N1]; [split; [discriminate|intros ((Q & _) & _); destruct (Q eq_refl)]|].
  destruct (String.eqb_spec m "aperture") as [->|N2]; [split; [discriminate|intros ((_ & Q) & _); destruct (Q eq_refl)]|]. split; [intros Q; injection Q as <-; auto|intros (_ & ->); reflexivity].
Qed.
Lemma counted_one : forall aper gauss2d m k f p a b, counted aper gauss2d m k f p a -> counted aper gauss2d m k f p b -> a = b.
Proof. intros. apply counted_iff in H, H0. congruence. Qed.
Lemma plain_fails : forall aper gauss2d s mode m kws g c e, without aper gauss2d s mode m kws g c = Raise e <-> plain_refused aper gauss2d s mode m kws g c e.
Proof.
  intros aper gauss2d s mode m kws g c e. unfold without, plain_refused.
  assert (K : forall k, match kws with [] => get_photometry_kwargs m | _ => Ok kws end = Ok k <-> (kws <> [] /\ k = kws) \/ (kws = [] /\ default_kwargs m k)).
  { intros k. destruct kws as [|a l]; [rewrite kwargs_iff; intuition congruence|]. split; [intros Q; injection Q as <-; left; split; [discriminate|reflexivity]|intros [(_ & ->)|(Q & _)]; [reflexivity|discriminate]]. }
  assert (KF : forall e', match kws with [] => get_photometry_kwargs m | _ => Ok kws end = Raise e' <-> kws = [] /\ no_method m /\ e' = ValueError) by (intros e'; destruct kws; [rewrite kwargs_fail; intuition congruence|split; [discriminate|intros (Q & _); discriminate]]).
  destruct (match kws with [] => get_photometry_kwargs m | _ => Ok kws end) as [k|e'] eqn:E0; cbn [bind].
  2: { pose proof (proj1 (KF e') eq_refl) as (Z & N & ->). split; [intros Q; injection Q as <-; left; auto|]. intros [(_ & _ & ->)|(k & Q & _)]; [reflexivity|]. apply K in Q. discriminate. }
  pose proof (proj1 (K k) eq_refl) as KK. assert (KU : forall k', (kws <> [] /\ k' = kws) \/ (kws = [] /\ default_kwargs m k') -> k' = k) by (intros k' Q; apply K in Q; congruence). assert (NK : ~ (kws = [] /\ no_method m /\ e = ValueError)) by (intros Q; apply KF in Q; discriminate).
  destruct (row_at (s_frames s) mode) as [f|e'] eqn:E1; cbn [bind].
  2: { apply row_at_fails in E1. destruct E1 as (N & ->). split; [intros Q; injection Q as <-; right; exists k; auto|]. intros [Q|(k' & _ & [(_ & ->)|(f & F & _)])]; [contradiction|reflexivity|destruct (N f F)]. }
  apply row_at_iff in E1. transitivity (count_refused aper gauss2d m k f (Some (p_x c, p_y c)) e \/ (exists n, counted aper gauss2d m k f (Some (p_x c, p_y c)) n) /\ count_refused aper gauss2d m k g None e).
  2: { split; [intros H; right; exists k; split; [assumption|]; right; exists f; auto|]. intros [Q|(k' & Q & [(N & _)|(f' & F & H)])]; [contradiction|destruct (N f E1)|]. apply KU in Q. assert (f' = f) by (eapply named_one; eassumption). subst. exact H. }
  rewrite <- !counts_fail. destruct (measure_counts aper gauss2d f m (Some (p_x c, p_y c)) k) as [a|e'] eqn:E2; cbn [bind].
  - destruct (measure_counts aper gauss2d g m None k) as [b|e'] eqn:E3; cbn [bind]; [split; [discriminate|intros [Q|(_ & Q)]; discriminate]|]. split; [intros Q; right; split; [exists a; apply counted_iff; assumption|congruence]|intros [Q|(_ & Q)]; [discriminate|congruence]].
  - split; [intros Q; left; congruence|intros [Q|((n & Q) & _)]; [congruence|]]. apply counted_iff in Q. congruence.
Qed.
Lemma measured_fails : forall gauss psf_at host_mag aper gauss2d s ct k thrp mode m kws calspec zp c e, thru_ok s ->
  (measure_one gauss psf_at host_mag aper gauss2d s ct k thrp mode m kws calspec zp c = Raise e <-> refused gauss psf_at host_mag aper gauss2d s ct k thrp mode m kws calspec zp c e).
Proof.
  intros gauss psf_at host_mag aper gauss2d s ct k thrp mode m kws calspec zp c e TO. unfold measure_one, refused, star_missing. destruct (s_star s) as (ox, oy). cbn [fst snd].
  destruct ox as [xs|]; cbn [need bind]; [|split; [intros Q; injection Q as <-; left; auto|intros [(_ & ->)|(? & ? & Q & _)]; [reflexivity|discriminate]]].
  destruct oy as [ys|]; cbn [need bind]; [|split; [intros Q; injection Q as <-; left; auto|intros [(_ & ->)|(? & ? & Q & _)]; [reflexivity|discriminate]]].
  set (P := psf_at (p_x c - xs) (p_y c - ys)).
  transitivity (P = Raise e \/ exists p, P = Ok p /\
     (fit_refused gauss (multiplied k p) (f_fwhm ct) e \/
      exists h, fitted gauss (multiplied k p) (f_fwhm ct) h /\
       ((thrp = "L4"%string /\ l4_refused gauss s mode h c e) \/
        (thrp = "None"%string /\ plain_refused aper gauss2d s mode m kws (multiplied k p) c e) \/
        (thrp = "KLIP-FM"%string /\ e = NotImplementedError) \/
        (thrp <> "L4"%string /\ thrp <> "None"%string /\ thrp <> "KLIP-FM"%string /\ e = ValueError) \/
        (exists n r, (thrp = "L4"%string /\ l4_measured gauss s xs ys mode h c n r) \/ (thrp = "None"%string /\ plain_measured aper gauss2d s mode m kws (multiplied k p) c n r)) /\
        mag_refused host_mag calspec zp e))).
  2: { split; [intros H; right; exists xs, ys; auto|]. intros [([Q|Q] & _)|(xs' & ys' & Q & H)]; [discriminate|discriminate|]. injection Q as <- <-. exact H. }
  destruct P as [p|e'] eqn:EP; cbn [bind]; [|split; [intros Q; left; congruence|intros [Q|(p & Q & _)]; [congruence|discriminate]]].
  transitivity (fit_refused gauss (multiplied k p) (f_fwhm ct) e \/
      exists h, fitted gauss (multiplied k p) (f_fwhm ct) h /\
       ((thrp = "L4"%string /\ l4_refused gauss s mode h c e) \/
        (thrp = "None"%string /\ plain_refused aper gauss2d s mode m kws (multiplied k p) c e) \/
        (thrp = "KLIP-FM"%string /\ e = NotImplementedError) \/
        (thrp <> "L4"%string /\ thrp <> "None"%string /\ thrp <> "KLIP-FM"%string /\ e = ValueError) \/
        (exists n r, (thrp = "L4"%string /\ l4_measured gauss s xs ys mode h c n r) \/ (thrp = "None"%string /\ plain_measured aper gauss2d s mode m kws (multiplied k p) c n r)) /\
        mag_refused host_mag calspec zp e)).
  2: { split; [intros H; right; exists p; auto|]. intros [Q|(p' & Q & H)]; [discriminate|]. injection Q as <-. exact H. }
  cbv zeta. change (times_img p k) with (multiplied k p). destruct (fit_peak gauss (multiplied k p) (f_fwhm ct)) as [h|e'] eqn:EF; cbn [bind].
  2: { split; [intros Q; left; apply fit_fails; congruence|]. intros [Q|(h & Q & _)]; [apply fit_fails in Q; congruence|apply fitted_iff in Q; congruence]. }
  assert (NF : ~ fit_refused gauss (multiplied k p) (f_fwhm ct) e) by (intros Q; apply fit_fails in Q; congruence). assert (F := EF). apply fitted_iff in F. assert (FU : forall h', fitted gauss (multiplied k p) (f_fwhm ct) h' -> h' = h) by (intros h' Q; apply fitted_iff in Q; congruence).
  transitivity ((thrp = "L4"%string /\ l4_refused gauss s mode h c e) \/
        (thrp = "None"%string /\ plain_refused aper gauss2d s mode m kws (multiplied k p) c e) \/
        (thrp = "KLIP-FM"%string /\ e = NotImplementedError) \/
        (thrp <> "L4"%string /\ thrp <> "None"%string /\ thrp <> "KLIP-FM"%string /\ e = ValueError) \/
        (exists n r, (thrp = "L4"%string /\ l4_measured gauss s xs ys mode h c n r) \/ (thrp = "None"%string /\ plain_measured aper gauss2d s mode m kws (multiplied k p) c n r)) /\
        mag_refused host_mag calspec zp e).
  2: { split; [intros H; right; exists h; auto|]. intros [Q|(h' & Q & H)]; [contradiction|]. rewrite (FU h' Q) in H. exact H. }
  clear NF F FU EF. assert (MG : forall n r, (do m0 <- (if calspec then do m1 <- host_mag; Ok (vsub m1 (vmul (Some (5 / 2)) (log10 r))) else match zp with None => Raise ValueError | Some None => Raise TypeError | Some (Some z) => Ok (vadd (vmul (Some (- (5 / 2))) (log10 n)) (Some z)) end); Ok (mkrow (p_id c) (p_x c) (p_y c) n r m0)) = Raise e <-> mag_refused host_mag calspec zp e).
  { intros n r. unfold mag_refused. destruct calspec; [destruct host_mag as [hm|e']; cbn [bind]|destruct zp as [[z|]|]; cbn [bind]]; intuition congruence. }
  destruct (String.eqb_spec thrp "L4") as [->|N1].
  { destruct (with_l4 gauss s xs ys mode h c) as [(n, r)|e'] eqn:E; cbn [bind fst snd].
    - rewrite MG. apply l4_iff in E; [|assumption]. split; [intros H; do 4 right; split; [exists n, r; auto|assumption]|]. intros [(_ & Q)|[(Q & _)|[(Q & _)|[(Q & _)|(_ & H)]]]]; [apply (l4_fails gauss s xs ys) in Q; [|assumption]; apply l4_iff in E; [congruence|assumption]|discriminate|discriminate|destruct (Q eq_refl)|exact H].
    - split; [intros Q; injection Q as <-; left; split; [reflexivity|]; apply (l4_fails gauss s xs ys); assumption|]. intros [(_ & Q)|[(Q & _)|[(Q & _)|[(Q & _)|((n & r & [(_ & Q)|(Q & _)]) & _)]]]]; [apply (l4_fails gauss s xs ys) in Q; [congruence|assumption]|discriminate|discriminate|destruct (Q eq_refl)|apply l4_iff in Q; [congruence|assumption]|discriminate]. }
  destruct (String.eqb_spec thrp "KLIP-FM") as [->|N2].
  { cbn [bind]. split; [intros Q; injection Q as <-; right; right; left; auto|]. intros [(Q & _)|[(Q & _)|[(_ & ->)|[(_ & _ & Q & _)|((n & r & [(Q & _)|(Q & _)]) & _)]]]]; try discriminate; [reflexivity|destruct (Q eq_refl)]. }
  destruct (String.eqb_spec thrp "None") as [->|N3].
  { destruct (without aper gauss2d s mode m kws (multiplied k p) c) as [(n, r)|e'] eqn:E; cbn [bind fst snd].
    - rewrite MG. split; [intros H; do 4 right; split; [exists n, r; right; split; [reflexivity|apply plain_iff; assumption]|assumption]|]. intros [(Q & _)|[(_ & Q)|[(Q & _)|[(_ & Q & _)|(_ & H)]]]]; [discriminate|apply plain_fails in Q; congruence|discriminate|destruct (Q eq_refl)|exact H].
    - split; [intros Q; injection Q as <-; right; left; split; [reflexivity|]; apply plain_fails; assumption|]. intros [(Q & _)|[(_ & Q)|[(Q & _)|[(_ & Q & _)|((n & r & [(Q & _)|(_ & Q)]) & _)]]]]; [discriminate|apply plain_fails in Q; congruence|discriminate|destruct (Q eq_refl)|discriminate|apply plain_iff in Q; congruence]. }
  cbn [bind]. split; [intros Q; injection Q as <-; right; right; right; left; auto|]. intros [(Q & _)|[(Q & _)|[(Q & _)|[(_ & _ & _ & ->)|((n & r & [(Q & _)|(Q & _)]) & _)]]]]; try contradiction. reflexivity.
Qed.
Lemma companions_fail : forall gauss psf_at od host_mag aper gauss2d s thrp mode m kws calspec zp cand e, thru_ok s ->
  (measure_companions gauss psf_at od host_mag aper gauss2d s thrp mode m kws calspec zp cand = Raise e <->
   scale_refused gauss s e \/
   exists ct k, scale_of gauss od s ct k /\
     (list_refused s cand e \/
      exists l1 c l2, listed s cand (l1 ++ c :: l2) /\ refused gauss psf_at host_mag aper gauss2d s ct k thrp mode m kws calspec zp c e /\
        forall b, In b l1 -> exists row, measured gauss psf_at host_mag aper gauss2d s ct k thrp mode m kws calspec zp b row)).
Proof.
  intros gauss psf_at od host_mag aper gauss2d s thrp mode m kws calspec zp cand e TO. unfold measure_companions. destruct (host_scale gauss od s) as [(ct, k)|e'] eqn:E1; cbn [bind fst snd].
  2: { split; [intros Q; left; apply (scale_fails gauss od); congruence|]. intros [Q|(ct & k & Q & _)]; [apply (scale_fails gauss od) in Q; congruence|apply scale_iff in Q; congruence]. }
  destruct (companions s cand) as [l|e'] eqn:E2; cbn [bind].
  2: { split; [intros Q; right; exists ct, k; split; [apply scale_iff; assumption|]; left; apply list_fails; congruence|]. intros [Q|(ct' & k' & _ & [Q|(l1 & c & l2 & Q & _)])]; [apply (scale_fails gauss od) in Q; congruence|apply list_fails in Q; congruence|apply listed_iff in Q; congruence]. }
  rewrite mapR_first_raise. split.
  - intros (l1 & c & l2 & -> & R0 & B). right. exists ct, k. split; [apply scale_iff; assumption|]. right. exists l1, c, l2. split; [apply listed_iff; assumption|]. split; [apply measured_fails; assumption|]. intros b I. destruct (B b I) as (y & Y). exists y. apply measured_iff; assumption.
  - intros [Q|(ct' & k' & S0 & H)]; [apply (scale_fails gauss od) in Q; congruence|]. apply scale_iff in S0. rewrite E1 in S0. injection S0 as <- <-. destruct H as [Q|(l1 & c & l2 & Q & R0 & B)]; [apply list_fails in Q; congruence|]. apply listed_iff in Q. rewrite E2 in Q. injection Q as ->. exists l1, c, l2. split; [reflexivity|]. split; [apply measured_fails; assumption|]. intros b I. destruct (B b I) as (y & Y). exists y. apply measured_iff; assumption.
Qed.
