From Coq Require Import List Arith Bool QArith ZArith String Reals Qreals Lqa Lra Lia.
From Verif Require Import Base DqModel DarkModel PcModel PcSpec PcMathProofs PcProofs PcBinProofs.
From Verif Require DqProofs DriftProofs DarkProofs GeomProofs.
Import ListNotations.

Ltac bnd E x H := match type of E with bind ?e _ = Ok _ => destruct e as [x|] eqn:H; [cbn [bind] in E|discriminate E] end.

Lemma q2r_nz : forall g, ~ (g == 0)%Q -> Q2R g <> 0%R.
Proof. intros g H E. apply H. apply eqR_Qeq. rewrite E. unfold Q2R. cbn. Lra.lra. Qed.
Lemma corr_total : forall niter t g cons kn, g <> 0%R -> (forall j k n, nth_error kn j = Some (k, n) -> (0 <= k <= n)%Z) ->
  List.length cons = List.length kn -> (exists j, nth_error cons j = Some true) ->
  (forall j k n, nth_error kn j = Some (k, n) -> nth_error cons j = Some true -> exists d v, estimate niter (t / g)%R k n d v /\ (0 <= d)%R) ->
  exists vs, corr_photon_count niter t g cons kn = Ok vs.
Proof.
  intros niter t g cons kn G B L C H. exists (map filled (map (fit_pixel niter t g) kn)). apply corr_spec; [exact G|exact B|]. split; [exact L|]. split; [exact C|]. split; [rewrite !map_length; reflexivity|].
  intros j k n E. destruct (fit_estimate niter t g k n G (B _ _ _ E)) as (d & v & ES & _ & F). exists d, v. split; [exact ES|]. split; [rewrite (map_nth_error filled _ _ (map_nth_error (fit_pixel niter t g) _ _ E)); congruence|].
  intros CJ. destruct (H _ _ _ E CJ) as (d' & v' & ES' & P). destruct (estimate_unique _ _ _ _ _ _ _ _ ES ES') as [-> _]. exact P.
Qed.

Section R.
Variables (niter : nat) (safemode : bool) (mode : string) (mask : option (list bool)) (dark : option pdark) (tf mx : Q).

Lemma dark_spec : forall i nsub thr npix a e q, List.length a = npix -> List.length e = npix -> List.length q = npix ->
  (dark_planes dark i nsub thr npix = Ok (a, e, q) <-> dark_for dark i nsub thr npix a e q).
Proof.
  intros i nsub thr npix a e q L1 L2 L3. unfold dark_planes. split.
  - intros E. destruct dark as [d|] eqn:D; [|injection E as <- <- <-; constructor; reflexivity]. destruct (pd_stat d) as [s|] eqn:S1; [|discriminate E]. destruct (String.eqb_spec s "photon-counted master dark") as [S2|S2]; cbn [negb] in E; [|discriminate E].
    destruct (pd_thresh d) as [t|] eqn:T; [|discriminate E]. destruct (Qeq_bool t thr) eqn:T2; cbn [negb] in E; [|discriminate E]. destruct (pd_num d) as [n|] eqn:N; [|discriminate E]. cbn [getkey bind] in E. destruct (Z.ltb_spec n (Z.of_nat nsub)) as [LT|LT]; [discriminate E|].
    destruct (nth_error (pd_slices d) _) as [p|] eqn:P; [|discriminate E]. injection E as ->. apply (df_some _ _ _ _ _ d t n); try assumption; [reflexivity|congruence|apply Qeq_bool_iff; exact T2].
  - intros [D|d t n a' e' q' D S1 T T2 N LT P A B C]; rewrite D; [reflexivity|]. rewrite S1, String.eqb_refl. cbn [negb]. rewrite T. apply Qeq_bool_iff in T2. rewrite T2. cbn [negb]. rewrite N. cbn [getkey bind]. destruct (Z.ltb_spec n (Z.of_nat nsub)) as [LT2|_]; [lia|]. rewrite P. reflexivity.
Qed.
Lemma dark_lens : forall i nsub thr npix a e q, dark_for dark i nsub thr npix a e q -> List.length a = npix /\ List.length e = npix /\ List.length q = npix.
Proof. intros i nsub thr npix a e q [D|d t n a' e' q' D S1 T T2 N LT P A B C]; [rewrite !repeat_length|]; auto. Qed.
Lemma dark_unique : forall i nsub thr npix a e q a' e' q', dark_for dark i nsub thr npix a e q -> dark_for dark i nsub thr npix a' e' q' -> a = a' /\ e = e' /\ q = q'.
Proof.
  intros i nsub thr npix a e q a' e' q' H1 H2. destruct (dark_lens _ _ _ _ _ _ _ H1) as (L1 & L2 & L3). destruct (dark_lens _ _ _ _ _ _ _ H2) as (M1 & M2 & M3).
  apply dark_spec in H1; try assumption. apply dark_spec in H2; try assumption. rewrite H1 in H2. injection H2 as -> -> ->. auto.
Qed.
Lemma cons_len : forall f0 npix, List.length (pf_data f0) = npix -> ((forall m, mask = Some m -> List.length m = npix) <-> List.length (cons_of mask f0) = npix).
Proof. intros f0 npix L. unfold cons_of. destruct mask as [m|]; [split; [intros H; apply H; reflexivity|intros H m' E; injection E as <-; exact H]|rewrite map_length; split; [intros _; exact L|intros _ m E; discriminate E]]. Qed.
Lemma cons_true : forall f0 npix j, List.length (pf_data f0) = npix -> (nth_error (cons_of mask f0) j = Some true <-> considers mask npix j).
Proof.
  intros f0 npix j L. unfold cons_of, considers. destruct mask as [m|]; [reflexivity|]. split.
  - intros E. rewrite <- L, <- (map_length (fun _ => true)). apply nth_error_Some. congruence.
  - intros J. destruct (nth_error (pf_data f0) j) as [x|] eqn:E; [|apply nth_error_None in E; lia]. apply (map_nth_error (fun _ => true) _ _ E).
Qed.

(** what the counting stage of a bin gives *)
Definition counted (above : pframe -> nat -> Prop) (npix : nat) (l : list pframe) (r : list (Z * Z)) : Prop :=
  List.length r = npix /\ forall j, (j < npix)%nat -> exists k n, nth_error r j = Some (k, n) /\ tally above j l k n.
Lemma counted_get : forall above npix l r j k n, counted above npix l r -> nth_error r j = Some (k, n) -> tally above j l k n.
Proof.
  intros above npix l r j k n (L & H) E. assert (J : (j < npix)%nat) by (rewrite <- L; apply nth_error_Some; congruence). destruct (H j J) as (k' & n' & E' & T). congruence.
Qed.
Lemma counted_bounds : forall above npix l r, counted above npix l r -> forall j k n, nth_error r j = Some (k, n) -> (0 <= k <= n)%Z.
Proof. intros above npix l r C j k n E. apply (tally_bounds _ _ _ _ _ (counted_get _ _ _ _ _ _ _ C E)). Qed.
Lemma coadd_counted : forall above thr npix (l : list pframe) ps (d : list px), Forall2 (stands above thr npix) l ps -> List.length d = npix ->
  exists r, coadd thr (map (fun _ => (0%Z, 0%Z)) d) ps = Ok r /\ counted above npix l r.
Proof.
  intros above thr npix l ps d F L. destruct (coadd_tally above thr npix l ps (map (fun _ => (0%Z, 0%Z)) d) F ltac:(rewrite map_length; exact L)) as (r & E & Lr & N). exists r. split; [exact E|]. split; [exact Lr|].
  intros j J. destruct (nth_error d j) as [x|] eqn:X; [|apply nth_error_None in X; lia]. destruct (N j 0%Z 0%Z (map_nth_error (fun _ => (0%Z, 0%Z)) _ _ X)) as (k & n & T & E2). exists k, n. split; [exact E2|exact T].
Qed.
Lemma plain_stands : forall thr npix l, Forall (shaped npix) l -> Forall2 (stands (brighter thr) thr npix) l (map (fun f => (pf_data f, pf_dq f)) l).
Proof. intros thr npix l F. induction F; [constructor|]. cbn [map]. constructor; [apply stands_plain; assumption|assumption]. Qed.

(** the three counts of a bin of shaped frames *)
Lemma counts_ok : forall thr npix f0 fs, Forall (shaped npix) (f0 :: fs) ->
  exists c ups lows cu cl, coadd thr (map (fun _ => (0%Z, 0%Z)) (pf_data f0)) (map (fun f => (pf_data f, pf_dq f)) (f0 :: fs)) = Ok c
   /\ mapR (fun f => do d <- zipR plus (pf_data f) (pf_err f); Ok (d, pf_dq f)) (f0 :: fs) = Ok ups
   /\ mapR (fun f => do d <- zipR minus (pf_data f) (pf_err f); Ok (d, pf_dq f)) (f0 :: fs) = Ok lows
   /\ coadd thr (map (fun _ => (0%Z, 0%Z)) (pf_data f0)) ups = Ok cu /\ coadd thr (map (fun _ => (0%Z, 0%Z)) (pf_data f0)) lows = Ok cl
   /\ counted (brighter thr) npix (f0 :: fs) c /\ counted (brighter_up thr) npix (f0 :: fs) cu /\ counted (brighter_low thr) npix (f0 :: fs) cl.
Proof.
  intros thr npix f0 fs F. assert (L0 : List.length (pf_data f0) = npix) by (apply Forall_inv in F; apply F).
  destruct (coadd_counted (brighter thr) thr npix (f0 :: fs) _ (pf_data f0) (plain_stands thr npix _ F) L0) as (c & Ec & Cc).
  destruct (ups_stand plus (brighter_up thr) thr npix (f0 :: fs) (stands_up thr npix) F) as (ups & Eu & Su). destruct (ups_stand minus (brighter_low thr) thr npix (f0 :: fs) (stands_low thr npix) F) as (lows & El & Sl).
  destruct (coadd_counted _ _ _ _ _ (pf_data f0) Su L0) as (cu & Ecu & Ccu). destruct (coadd_counted _ _ _ _ _ (pf_data f0) Sl L0) as (cl & Ecl & Ccl).
  exists c, ups, lows, cu, cl. auto 10.
Qed.
Lemma shapes_back : forall thr f0 fs c ups, coadd thr (map (fun _ => (0%Z, 0%Z)) (pf_data f0)) (map (fun f => (pf_data f, pf_dq f)) (f0 :: fs)) = Ok c ->
  mapR (fun f => do d <- zipR plus (pf_data f) (pf_err f); Ok (d, pf_dq f)) (f0 :: fs) = Ok ups -> Forall (shaped (List.length (pf_data f0))) (f0 :: fs).
Proof.
  intros thr f0 fs c ups E1 E2. destruct (coadd_raise _ _ _ _ E1) as [_ F]. rewrite map_length in F. apply ups_shape in E2. rewrite Forall_map in F. rewrite Forall_forall in *. intros f I. destruct (F f I) as [A B]. cbn [fst snd] in A, B. assert (C := E2 f I). split; [exact A|]. split; [congruence|exact B].
Qed.
Lemma zip3 : forall A B C (f : A -> B -> C) l m j x y r, zipR f l m = Ok r -> nth_error l j = Some x -> nth_error m j = Some y -> nth_error r j = Some (f x y).
Proof.
  intros A B C f l m j x y r E X Y. destruct (DarkProofs.zipR_ok _ _ _ _ _ _ _ E) as [L _]. destruct (DriftProofs.zipR_total _ _ _ f l m L) as (r' & E' & _ & N). rewrite E in E'. injection E' as <-. apply N; assumption.
Qed.
Lemma nth_some : forall A (l : list A) j, (j < List.length l)%nat -> exists x, nth_error l j = Some x.
Proof. intros A l j H. destruct (nth_error l j) as [x|] eqn:E; [exists x; reflexivity|apply nth_error_None in E; lia]. Qed.
Lemma last_cons : forall A (l : list A) a d, last (a :: l) d = last l a.
Proof. intros A l. induction l as [|b l IH]; intros a d; [reflexivity|]. change (last (b :: l) d = last (b :: l) a). rewrite !IH. reflexivity. Qed.
Lemma last_app : forall (l : list pframe) d, exists pre, d :: l = pre ++ [last l d].
Proof. induction l as [|a l IH]; intros d; [exists []; reflexivity|]. destruct (IH a) as (pre & E). exists (d :: pre). rewrite last_cons, E at 1. reflexivity. Qed.

Lemma bin_forward : forall i f0 fs v o, pc_bin niter safemode mode mask dark tf mx i f0 fs = Ok (v, o) ->
  bin_spec niter safemode mode mask dark tf mx i (f0 :: fs) o /\ pf_vis f0 = Some v.
Proof.
  intros i f0 fs v o E. unfold pc_bin in E. bnd E v0 CH. fold (cons_of mask f0) in E. cbv zeta in E. bnd E rn RN.
  destruct (qgt 0 (tf * rn)) eqn:T0; [discriminate E|]. bnd E g G. destruct (negb (qgt g (tf * rn)) && safemode) eqn:SG; [discriminate E|].
  bnd E vals CO. destruct (too_bright vals g mx && safemode) eqn:SB; [discriminate E|]. destruct (qgt rn 0) eqn:R0; cbn [negb] in E; [|discriminate E]. destruct (Qeq_bool g 0) eqn:G0; [discriminate E|].
  bnd E c HC. bnd E ups U. bnd E lows LW. bnd E cu CU. bnd E cl CL. bnd E m M. bnd E mu MU. bnd E ml ML. bnd E ul UL. bnd E nm NM. bnd E err ER. bnd E p P. bnd E mean ME. bnd E err2 E2. bnd E dq DQ. injection E as <- <-.
  assert (RN2 : pf_rn f0 = Some rn) by (destruct (pf_rn f0); [injection RN as ->; reflexivity|discriminate RN]).
  assert (SH := shapes_back _ _ _ _ _ HC U). set (npix := List.length (pf_data f0)) in *.
  destruct (counts_ok (tf * rn) npix f0 fs SH) as (c' & ups' & lows' & cu' & cl' & X1 & X2 & X3 & X4 & X5 & KC & KU & KL). rewrite HC in X1. injection X1 as <-. rewrite U in X2. injection X2 as <-. rewrite LW in X3. injection X3 as <-. rewrite CU in X4. injection X4 as <-. rewrite CL in X5. injection X5 as <-.
  assert (GZ : ~ (g == 0)%Q) by (intros H; apply Qeq_bool_iff in H; congruence). assert (GR := q2r_nz g GZ).
  apply (corr_spec _ _ _ _ _ _ GR (counted_bounds _ _ _ _ KC)) in M. apply (corr_spec _ _ _ _ _ _ GR (counted_bounds _ _ _ _ KU)) in MU. apply (corr_spec _ _ _ _ _ _ GR (counted_bounds _ _ _ _ KL)) in ML.
  destruct M as (LC & CT & LM & HM). destruct MU as (_ & _ & LMU & HMU). destruct ML as (_ & _ & LML & HML).
  apply collect_spec in CO. destruct CO as [CF ->]. apply checked_spec in CH. destruct CH as ((e1 & c1 & k1 & r1 & FS) & FV & AC & IS).
  assert (RQ : (r1 == rn)%Q) by (apply Forall_inv in FS; destruct FS as (_ & _ & _ & (rr & RR & RE)); rewrite RN2 in RR; injection RR as <-; symmetry; exact RE).
  destruct (DarkProofs.zipR_ok _ _ _ _ _ _ _ ME) as [LP1 LO1]. destruct (DarkProofs.zipR_ok _ _ _ _ _ _ _ E2) as [LP2 LO2]. destruct (DarkProofs.zipR_ok _ _ _ _ _ _ _ DQ) as [LP3 LO3]. rewrite map_length in LP3, LO3.
  destruct (DarkProofs.zipR_ok _ _ _ _ _ _ _ NM) as [LN1 LN2]. destruct (DarkProofs.zipR_ok _ _ _ _ _ _ _ ER) as [LE1 LE2]. destruct (DarkProofs.zipR_ok _ _ _ _ _ _ _ UL) as [LU1 LU2]. assert (Lc := proj1 KC). assert (Lcu := proj1 KU). assert (Lcl := proj1 KL).
  destruct p as [[b be] bq]. cbn [fst snd] in *.
  assert (DF : dark_for dark i (List.length (f0 :: fs)) (tf * rn) npix b be bq) by (apply dark_spec; [congruence|congruence|congruence|rewrite <- Lc; exact P]).
  split; [|exact (Forall_inv FV)].
  exists f0, npix, e1, c1, k1, rn, v0, g, b, be, bq. split; [reflexivity|]. split; [eapply Forall_impl; [|exact FS]; intros f; apply same_settings_eq; try reflexivity; exact RQ|]. split; [exact FV|]. split; [exact AC|]. split; [exact IS|]. split; [exact RN2|].
  split; [apply qgt_spec; exact R0|]. split; [reflexivity|]. split; [apply Qnot_lt_le; intros L; apply qgt_spec in L; congruence|]. split; [apply gain_spec; exact G|]. split; [exact GZ|]. split.
  { intros SM. rewrite SM, andb_true_r in SG. rewrite SM, andb_true_r in SB. split; [apply qgt_spec; apply negb_false_iff; exact SG|]. apply bright_spec. exact SB. }
  split; [exact SH|]. split; [destruct CT as [j CT]; exists j; apply (cons_true f0 npix j eq_refl); exact CT|]. split; [apply (cons_len f0 npix eq_refl); congruence|]. split; [exact DF|]. cbn [o_mean o_err o_dq]. split; [congruence|]. split; [congruence|]. split; [congruence|]. split.
  - intros j y ye yq B1 B2 B3. assert (J : (j < npix)%nat) by (replace npix with (List.length b) by congruence; apply nth_error_Some; congruence).
    destruct (proj2 KC j J) as (k & n & Ek & Tk). destruct (proj2 KU j J) as (ku & n2 & Eku & Tku). destruct (proj2 KL j J) as (kl & n3 & Ekl & Tkl). assert (n2 = n) by exact (tally_n _ _ _ _ _ _ _ _ Tku Tk). assert (n3 = n) by exact (tally_n _ _ _ _ _ _ _ _ Tkl Tk). subst n2 n3.
    destruct (HM _ _ _ Ek) as (d & vv & ES & EV & DP). destruct (HMU _ _ _ Eku) as (du & vu & ESu & EVu & DPu). destruct (HML _ _ _ Ekl) as (dl & vl & ESl & EVl & DPl).
    assert (N1 := zip3 _ _ _ _ _ _ _ _ _ _ UL EVu EVl). assert (N2 := zip3 _ _ _ _ _ _ _ _ _ _ NM Ek EV). cbn [snd] in N2. assert (N3 := zip3 _ _ _ _ _ _ _ _ _ _ ER N2 N1). cbn [fst snd] in N3.
    exists (sub_clip vv y), (quad2 (pc_error (Q2R g) (Q2R (tf * rn)) n vv vu vl) ye), (Z.lor (if Z.eqb n 0 then 1 else 0) yq). split; [exact (zip3 _ _ _ _ _ _ _ _ _ _ ME EV B1)|]. split; [exact (zip3 _ _ _ _ _ _ _ _ _ _ E2 N3 B2)|].
    split; [exact (zip3 _ _ _ _ _ _ _ _ _ _ DQ (map_nth_error (fun kn : Z * Z => if Z.eqb (snd kn) 0 then 1%Z else 0%Z) _ _ Ek) B3)|].
    exists k, ku, kl, n, d, du, dl, vv, vu, vl, (pc_error (Q2R g) (Q2R (tf * rn)) n vv vu vl). split; [exact Tk|]. split; [exact Tku|]. split; [exact Tkl|]. split; [exact ES|]. split; [exact ESu|]. split; [exact ESl|].
    split; [intros CJ; apply (cons_true f0 npix j eq_refl) in CJ; auto|]. split; [apply sub_clip_ok|]. split; [|split; [apply quad2_ok|reflexivity]]. apply uncertainty_ok; [exact GR|]. assert (TB := tally_bounds _ _ _ _ _ Tk). lia.
  - cbn [o_last]. apply last_app.
Qed.

Lemma pixel_unique : forall thr x npix c j y ye yq m s q m' s' q', pixel_spec niter thr x mask npix c j y ye yq m s q -> pixel_spec niter thr x mask npix c j y ye yq m' s' q' -> m = m' /\ s = s' /\ q = q'.
Proof.
  intros thr x npix c j y ye yq m s q m' s' q' (k & ku & kl & n & d & du & dl & v & vu & vl & u & T1 & T2 & T3 & S1 & S2 & S3 & _ & LD & UN & WD & Q1) (k' & ku' & kl' & n' & d' & du' & dl' & v' & vu' & vl' & u' & T1' & T2' & T3' & S1' & S2' & S3' & _ & LD' & UN' & WD' & Q1').
  destruct (tally_unique _ _ _ _ _ _ _ T1 T1') as [<- <-]. destruct (tally_unique _ _ _ _ _ _ _ T2 T2') as [<- _]. destruct (tally_unique _ _ _ _ _ _ _ T3 T3') as [<- _].
  destruct (estimate_unique _ _ _ _ _ _ _ _ S1 S1') as [_ <-]. destruct (estimate_unique _ _ _ _ _ _ _ _ S2 S2') as [_ <-]. destruct (estimate_unique _ _ _ _ _ _ _ _ S3 S3') as [_ <-].
  assert (X := uncertainty_unique _ _ _ _ _ _ _ UN UN'). subst u'. split; [exact (less_unique _ _ _ _ LD LD')|]. split; [exact (with_unique _ _ _ _ WD WD')|congruence].
Qed.
Lemma bin_unique : forall i c o o', bin_spec niter safemode mode mask dark tf mx i c o -> bin_spec niter safemode mode mask dark tf mx i c o' -> o = o'.
Proof.
  intros i c o o' (f0 & npix & e & cg & kg & rn & vis & g & b & be & bq & H0 & _ & _ & _ & _ & RN & _ & TH & _ & GN & _ & _ & SH & _ & _ & DF & L1 & L2 & L3 & PX & (pre & LA))
    (f0' & npix' & e' & cg' & kg' & rn' & vis' & g' & b' & be' & bq' & H0' & _ & _ & _ & _ & RN' & _ & TH' & _ & GN' & _ & _ & SH' & _ & _ & DF' & L1' & L2' & L3' & PX' & (pre' & LA')).
  rewrite H0 in H0'. injection H0' as <-. rewrite RN in RN'. injection RN' as <-. assert (X := gain_unique _ _ _ GN GN'). subst g'.
  destruct c as [|f c]; [discriminate H0|]. assert (NE : npix' = npix) by (apply Forall_inv in SH, SH'; destruct SH as (A & _), SH' as (B & _); congruence). rewrite NE in DF', L1', L2', L3', PX'.
  destruct (dark_unique _ _ _ _ _ _ _ _ _ _ DF DF') as (<- & <- & <-). destruct (dark_lens _ _ _ _ _ _ _ DF) as (M1 & M2 & M3).
  assert (K : forall j, nth_error (o_mean o) j = nth_error (o_mean o') j /\ nth_error (o_err o) j = nth_error (o_err o') j /\ nth_error (o_dq o) j = nth_error (o_dq o') j).
  { intros j. destruct (lt_dec j npix) as [J|J].
    - destruct (nth_some _ b j (eq_ind_r (fun z => (j < z)%nat) J M1)) as (y & Y1). destruct (nth_some _ be j (eq_ind_r (fun z => (j < z)%nat) J M2)) as (ye & Y2). destruct (nth_some _ bq j (eq_ind_r (fun z => (j < z)%nat) J M3)) as (yq & Y3).
      destruct (PX _ _ _ _ Y1 Y2 Y3) as (m & s & q & -> & -> & -> & P1). destruct (PX' _ _ _ _ Y1 Y2 Y3) as (m' & s' & q' & -> & -> & -> & P2). destruct (pixel_unique _ _ _ _ _ _ _ _ _ _ _ _ _ _ P1 P2) as (-> & -> & ->). auto.
    - assert (NN : forall A (l : list A), List.length l = npix -> nth_error l j = None) by (intros A l HL; apply nth_error_None; lia). rewrite !NN by assumption. auto. }
  destruct o as [om oe oq ot ol], o' as [om' oe' oq' ot' ol']. cbn [o_mean o_err o_dq o_thresh o_last] in *. rewrite LA in LA'. apply app_inj_tail in LA'. destruct LA' as [_ <-].
  assert (om = om') by (apply GeomProofs.list_ext; intros j; apply K). assert (oe = oe') by (apply GeomProofs.list_ext; intros j; apply K). assert (oq = oq') by (apply GeomProofs.list_ext; intros j; apply K). congruence.
Qed.
Lemma bin_total : forall i f0 fs o, bin_spec niter safemode mode mask dark tf mx i (f0 :: fs) o -> exists v o', pc_bin niter safemode mode mask dark tf mx i f0 fs = Ok (v, o').
Proof.
  intros i f0' fs o (f0 & npix & e & cg & kg & rn & vis & g & b & be & bq & H0 & FS & FV & AC & IS & RN & R0 & TH & T0 & GN & GZ & SM & SH & CT & ML & DF & L1 & L2 & L3 & PX & (pre & LA)).
  cbn [hd_error] in H0. injection H0 as ->. unfold pc_bin. rewrite (proj2 (checked_spec mode dark f0 fs vis)) by (split; [exists e, cg, kg, rn; exact FS|auto]). cbn [bind]. cbv zeta. fold (cons_of mask f0). rewrite RN. cbn [getkey bind].
  destruct (qgt 0 (tf * rn)) eqn:X1; [apply qgt_spec in X1; Lqa.lra|]. rewrite (proj2 (gain_spec f0 g) GN). cbn [bind].
  assert (L0 : List.length (pf_data f0) = npix) by (apply Forall_inv in SH; apply SH). assert (LC : List.length (cons_of mask f0) = npix) by exact (proj1 (cons_len f0 npix L0) ML).
  replace (negb (qgt g (tf * rn)) && safemode) with false by (symmetry; destruct safemode; [rewrite andb_true_r; apply negb_false_iff, qgt_spec, SM; reflexivity|apply andb_false_r]).
  rewrite (proj2 (collect_spec mask f0 (f0 :: fs) _)) by (split; [eapply Forall_impl; [|exact SH]; intros f (A & _); congruence|reflexivity]). cbn [bind].
  replace (too_bright (pool mask (f0 :: fs)) g mx && safemode) with false by (symmetry; destruct safemode; [rewrite andb_true_r; apply bright_spec, SM; reflexivity|apply andb_false_r]).
  apply qgt_spec in R0. rewrite R0. cbn [negb]. destruct (Qeq_bool g 0) eqn:X2; [apply Qeq_bool_iff in X2; contradiction|].
  destruct (counts_ok (tf * rn) npix f0 fs SH) as (c & ups & lows & cu & cl & -> & -> & -> & Y4 & Y5 & KC & KU & KL). cbn [bind]. rewrite Y4, Y5. cbn [bind].
  assert (GR := q2r_nz g GZ). assert (Lc := proj1 KC). assert (Lcu := proj1 KU). assert (Lcl := proj1 KL). destruct (dark_lens _ _ _ _ _ _ _ DF) as (M1 & M2 & M3).
  assert (CT2 : exists j, nth_error (cons_of mask f0) j = Some true) by (destruct CT as [j CJ]; exists j; apply (cons_true f0 npix j L0); exact CJ).
  assert (PIX : forall j, nth_error (cons_of mask f0) j = Some true -> exists k ku kl n d du dl v vu vl, tally (brighter (tf * rn)) j (f0 :: fs) k n /\ tally (brighter_up (tf * rn)) j (f0 :: fs) ku n /\ tally (brighter_low (tf * rn)) j (f0 :: fs) kl n
     /\ estimate niter (Q2R (tf * rn) / Q2R g)%R k n d v /\ estimate niter (Q2R (tf * rn) / Q2R g)%R ku n du vu /\ estimate niter (Q2R (tf * rn) / Q2R g)%R kl n dl vl /\ (0 <= d /\ 0 <= du /\ 0 <= dl)%R).
  { intros j CJ. assert (J : (j < npix)%nat) by (rewrite <- LC; apply nth_error_Some; congruence). destruct (nth_some _ b j (eq_ind_r (fun z => (j < z)%nat) J M1)) as (y & B1). destruct (nth_some _ be j (eq_ind_r (fun z => (j < z)%nat) J M2)) as (ye & B2). destruct (nth_some _ bq j (eq_ind_r (fun z => (j < z)%nat) J M3)) as (yq & B3).
    destruct (PX _ _ _ _ B1 B2 B3) as (m & s & q & _ & _ & _ & (k & ku & kl & n & d & du & dl & v & vu & vl & u & T1 & T2 & T3 & S1 & S2 & S3 & NN & _)). exists k, ku, kl, n, d, du, dl, v, vu, vl. apply (cons_true f0 npix j L0) in CJ. auto 10. }
  destruct (corr_total niter (Q2R (tf * rn)) (Q2R g) (cons_of mask f0) c GR (counted_bounds _ _ _ _ KC) ltac:(congruence) CT2) as (m & EM).
  { intros j k n E CJ. destruct (PIX j CJ) as (k1 & ku & kl & n1 & d & du & dl & v & vu & vl & T1 & _ & _ & S1 & _ & _ & D1 & _). destruct (tally_unique _ _ _ _ _ _ _ T1 (counted_get _ _ _ _ _ _ _ KC E)) as [<- <-]. exists d, v. auto. }
  destruct (corr_total niter (Q2R (tf * rn)) (Q2R g) (cons_of mask f0) cu GR (counted_bounds _ _ _ _ KU) ltac:(congruence) CT2) as (mu & EMU).
  { intros j k n E CJ. destruct (PIX j CJ) as (k1 & ku & kl & n1 & d & du & dl & v & vu & vl & _ & T1 & _ & _ & S1 & _ & _ & D1 & _). destruct (tally_unique _ _ _ _ _ _ _ T1 (counted_get _ _ _ _ _ _ _ KU E)) as [<- <-]. exists du, vu. auto. }
  destruct (corr_total niter (Q2R (tf * rn)) (Q2R g) (cons_of mask f0) cl GR (counted_bounds _ _ _ _ KL) ltac:(congruence) CT2) as (ml & EML).
  { intros j k n E CJ. destruct (PIX j CJ) as (k1 & ku & kl & n1 & d & du & dl & v & vu & vl & _ & _ & T1 & _ & _ & S1 & _ & _ & D1). destruct (tally_unique _ _ _ _ _ _ _ T1 (counted_get _ _ _ _ _ _ _ KL E)) as [<- <-]. exists dl, vl. auto. }
  rewrite EM, EMU, EML. cbn [bind].
  apply (corr_spec _ _ _ _ _ _ GR (counted_bounds _ _ _ _ KC)) in EM. apply (corr_spec _ _ _ _ _ _ GR (counted_bounds _ _ _ _ KU)) in EMU. apply (corr_spec _ _ _ _ _ _ GR (counted_bounds _ _ _ _ KL)) in EML.
  destruct EM as (_ & _ & LM & _). destruct EMU as (_ & _ & LMU & _). destruct EML as (_ & _ & LML & _).
  destruct (DriftProofs.zipR_total _ _ _ (fun u l : R => (u, l)) mu ml ltac:(congruence)) as (ul & -> & LU & _). cbn [bind].
  destruct (DriftProofs.zipR_total _ _ _ (fun (kn : Z * Z) (mm : R) => (snd kn, mm)) c m ltac:(congruence)) as (nm & -> & LN & _). cbn [bind].
  destruct (DriftProofs.zipR_total _ _ _ (fun x y => pc_error (Q2R g) (Q2R (tf * rn)) (fst x) (snd x) (fst y) (snd y)) nm ul ltac:(congruence)) as (err & -> & LE & _). cbn [bind].
  rewrite Lc. change (Datatypes.S (List.length fs)) with (List.length (f0 :: fs)). rewrite (proj2 (dark_spec i (List.length (f0 :: fs)) (tf * rn) npix b be bq M1 M2 M3) DF). cbn [bind fst snd].
  destruct (DriftProofs.zipR_total _ _ _ sub_clip m b ltac:(congruence)) as (me & -> & _). cbn [bind]. destruct (DriftProofs.zipR_total _ _ _ quad2 err be ltac:(congruence)) as (e2 & -> & _). cbn [bind].
  destruct (DriftProofs.zipR_total _ _ _ Z.lor (map (fun kn : Z * Z => if Z.eqb (snd kn) 0 then 1%Z else 0%Z) c) bq ltac:(rewrite map_length; congruence)) as (dq & -> & _). cbn [bind]. eauto.
Qed.
Lemma bin_iff : forall i f0 fs v o, pc_bin niter safemode mode mask dark tf mx i f0 fs = Ok (v, o) <-> bin_spec niter safemode mode mask dark tf mx i (f0 :: fs) o /\ pf_vis f0 = Some v.
Proof.
  intros i f0 fs v o. split; [apply bin_forward|]. intros [H V]. destruct (bin_total _ _ _ _ H) as (v' & o' & E). rewrite E. destruct (bin_forward _ _ _ _ _ E) as [H' V']. rewrite (bin_unique _ _ _ _ H H'). congruence.
Qed.
End R.
