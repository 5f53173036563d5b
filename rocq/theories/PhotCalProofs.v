(** The flux calibration factor. *)
From Coq Require Import List Arith Bool Reals ZArith String Lia Lra.
From Verif Require Import Base CombineModel FlatModel CtModel CtSpec CompModel PhotModel PhotSpec PhotProofs.
Import ListNotations.
Local Open Scope R_scope.

Lemma get_iff : forall k h v, get k h = Some v <-> card h k v.
Proof.
  intros k h v. induction h as [|(a, w) h IH]; cbn [get]; [split; [discriminate|intros C; inversion C]|]. destruct (String.eqb_spec a k) as [->|N].
  - split; [intros Q; injection Q as ->; constructor|]. intros C. inversion C; subst; [reflexivity|contradiction].
  - rewrite IH. split; [intros C; constructor; assumption|]. intros C. inversion C; subst; [contradiction|assumption].
Qed.
Lemma get_none : forall k h, get k h = None <-> no_card h k.
Proof.
  intros k h. unfold no_card. split; [intros E v C; apply get_iff in C; congruence|]. intros N. destruct (get k h) as [v|] eqn:E; [|reflexivity]. apply get_iff in E. destruct (N v E).
Qed.
Lemma get_put : forall k v h j, get j (put k v h) = if String.eqb k j then Some v else get j h.
Proof.
  intros k v h j. induction h as [|(a, w) h IH]; cbn [put get]; [reflexivity|]. destruct (String.eqb_spec a k) as [->|N]; cbn [get].
  - destruct (String.eqb k j); reflexivity.
  - rewrite IH. destruct (String.eqb_spec a j) as [->|M]; [|reflexivity]. destruct (String.eqb_spec k j) as [->|]; [contradiction|reflexivity].
Qed.
Lemma with_iff : forall new h h', (forall k, get k h' = match get k new with Some v => Some v | None => get k h end) -> with_cards new h h'.
Proof.
  intros new h h' H k v. rewrite <- !get_iff, <- get_none, H. destruct (get k new); intuition congruence.
Qed.
Lemma put_one : forall u h, with_cards [("BUNIT"%string, CText u)] h (put "BUNIT" (CText u) h).
Proof. intros u h. apply with_iff. intros k. rewrite get_put. cbn [get]. destruct (String.eqb "BUNIT" k); reflexivity. Qed.
Lemma put_all : forall u b h, with_cards (new_cards u b) h (match b with Some v => put "LOCBACK" (CNum v) (put "DATALVL" (CText "CAL") (put "DATATYPE" (CText "FluxcalFactor") (put "BUNIT" (CText u) h))) | None => put "DATALVL" (CText "CAL") (put "DATATYPE" (CText "FluxcalFactor") (put "BUNIT" (CText u) h)) end).
Proof.
  intros u b h. apply with_iff. intros k. destruct b as [v|]; cbn [new_cards app get]; rewrite !get_put; destruct (String.eqb_spec "BUNIT" k) as [<-|]; [reflexivity| |reflexivity|]; destruct (String.eqb_spec "DATATYPE" k) as [<-|]; [reflexivity| |reflexivity|]; destruct (String.eqb_spec "DATALVL" k) as [<-|]; try reflexivity; destruct (String.eqb "LOCBACK" k); reflexivity.
Qed.
Lemma with_other : forall new h h' k v, with_cards new h h' -> no_card new k -> (card h' k v <-> card h k v).
Proof. intros new h h' k v W N. rewrite (W k v). split; [intros [C|(_ & C)]; [destruct (N v C)|exact C]|auto]. Qed.
Lemma nd_iff : forall h nd, (exists n, match get "FPAMNAME" h with Some n => Some n | None => get "FSAMNAME" h end = Some n /\ nd_of n = nd) <-> density_name h nd.
Proof.
  intros h nd. unfold density_name. assert (C : forall n, match get "FPAMNAME" h with Some n => Some n | None => get "FSAMNAME" h end = Some n <-> card h "FPAMNAME" n \/ (no_card h "FPAMNAME" /\ card h "FSAMNAME" n)).
  { intros n. rewrite <- !get_iff, <- get_none. destruct (get "FPAMNAME" h); intuition congruence. }
  assert (N : forall n, nd_of n = nd <-> ((n = CText nd /\ String.prefix "ND" nd = true) \/ ((forall t, n = CText t -> String.prefix "ND" t = false) /\ nd = "ND0"%string))).
  { intros [t|v]; unfold nd_of; [|split; [intros <-; right; split; [discriminate|reflexivity]|intros [(Q & _)|(_ & ->)]; [discriminate|reflexivity]]]. destruct (String.prefix "ND" t) eqn:P.
    - split; [intros <-; auto|]. intros [(Q & _)|(Q & _)]; [congruence|]. rewrite (Q t eq_refl) in P. discriminate.
    - split; [intros <-; right; split; [intros t' Q; injection Q as <-; assumption|reflexivity]|]. intros [(Q & Q')|(_ & ->)]; [congruence|reflexivity]. }
  split; intros (n & A & B); exists n; (split; [apply C; assumption|apply N; assumption]).
Qed.
Definition labelled (unit : string) (s : shot) : shot := mkshot (t_data s) (t_err s) (t_dq s) (put "BUNIT" (CText unit) (t_ext s)) (put "BUNIT" (CText unit) (t_errh s)).
Lemma labelled_ok : forall u s, relabelled u s (labelled u s).
Proof. intros u s. split; [split; [reflexivity|split; reflexivity]|]. split; apply put_one. Qed.
Lemma bunit_other : forall u k, k <> "BUNIT"%string -> no_card [("BUNIT"%string, CText u)] k.
Proof. intros u k N v C. inversion C; subst; [contradiction|]. match goal with H : card [] _ _ |- _ => inversion H end. Qed.
Lemma what_cases : forall curve (bf bi : curve -> val) what c,
  (exists flux unit, (if String.eqb what "flux" then Some (bf c, "erg/(s * cm^2 * AA)/(electron/s)"%string) else if String.eqb what "irr" then Some (bi c, "erg/(s * cm^2)/(electron/s)"%string) else None) = Some (flux, unit) /\ band bf bi what c flux /\ unit_of what unit) \/
  ((if String.eqb what "flux" then Some (bf c, "erg/(s * cm^2 * AA)/(electron/s)"%string) else if String.eqb what "irr" then Some (bi c, "erg/(s * cm^2)/(electron/s)"%string) else None) = None /\ what <> "flux"%string /\ what <> "irr"%string).
Proof.
  intros curve bf bi what c. destruct (String.eqb_spec what "flux") as [->|N1]; [left; do 2 eexists; split; [reflexivity|]; split; left; auto|]. destruct (String.eqb_spec what "irr") as [->|N2]; [left; do 2 eexists; split; [reflexivity|]; split; right; auto|]. right. auto.
Qed.
Lemma band_one : forall curve (bf bi : curve -> val) what c a b, band bf bi what c a -> band bf bi what c b -> a = b.
Proof. intros curve bf bi what c a b [(-> & ->)|(-> & ->)] [(Q & ->)|(Q & ->)]; try discriminate; reflexivity. Qed.
Lemma unit_one : forall what a b, unit_of what a -> unit_of what b -> a = b.
Proof. intros what a b [(-> & ->)|(-> & ->)] [(Q & ->)|(Q & ->)]; try discriminate; reflexivity. Qed.
(** What is returned, and the image as it is left *)
Lemma calibrated : forall curve (curves : shot -> result curve) bf bi phot s what s' p, calibrate curve curves bf bi phot s what = (s', Ok p) ->
  exists c flux unit s1 n e b, curves s = Ok c /\ band bf bi what c flux /\ unit_of what unit /\ relabelled unit s s1 /\ phot s1 = Ok (n, e, b) /\
    f_fac p = quot flux n /\ f_err p = prod (quot flux (prod n n)) e /\ density_name (t_ext s) (f_nd p) /\ card (t_ext s) "CFAMNAME" (f_filter p) /\
    with_cards (new_cards unit b) (t_ext s) (f_ext p) /\ same_pixels s s' /\ t_ext s' = f_ext p /\ with_cards [("BUNIT"%string, CText unit)] (t_errh s) (t_errh s').
Proof.
  intros curve curves bf bi phot s what s' p E. unfold calibrate in E. destruct (curves s) as [c|] eqn:E1; [|discriminate]. destruct (what_cases curve bf bi what c) as [(flux & unit & W & B & U)|(W & _)]; rewrite W in E; [|discriminate]. cbv zeta in E. fold (labelled unit s) in E.
  destruct (phot (labelled unit s)) as [((n, e), b)|] eqn:E2; [|discriminate]. unfold new_factor in E. destruct (match get "FPAMNAME" (t_ext (labelled unit s)) with Some n => Some n | None => get "FSAMNAME" (t_ext (labelled unit s)) end) as [nm|] eqn:E3; [|discriminate]. destruct (get "CFAMNAME" (t_ext (labelled unit s))) as [cf|] eqn:E4; [|discriminate].
  injection E as <- <-. exists c, flux, unit, (labelled unit s), n, e, b. split; [reflexivity|]. split; [assumption|]. split; [assumption|]. split; [apply labelled_ok|]. split; [assumption|]. cbn [f_fac f_err f_nd f_filter f_ext t_ext t_data t_err t_dq t_errh]. split; [reflexivity|]. split; [reflexivity|]. cbn [t_ext labelled] in E3, E4. rewrite !get_put in E3. rewrite get_put in E4. cbn in E3, E4.
  split; [apply nd_iff; exists nm; auto|]. split; [apply get_iff; assumption|]. split; [destruct b as [v|]; [exact (put_all unit (Some v) (t_ext s))|exact (put_all unit None (t_ext s))]|]. split; [split; [reflexivity|split; reflexivity]|]. split; [reflexivity|]. apply put_one.
Qed.
Lemma density_some : forall h, (exists nd, density_name h nd) <-> exists v, card h "FPAMNAME" v \/ (no_card h "FPAMNAME" /\ card h "FSAMNAME" v).
Proof. intros h. split; [intros (nd & v & C & _); exists v; assumption|]. intros (v & C). exists (nd_of v). apply nd_iff. exists v. split; [|reflexivity]. rewrite <- !get_iff, <- get_none in C. destruct (get "FPAMNAME" h); intuition congruence. Qed.
(** When it is returned, and every refusal *)
Lemma calibrate_fails : forall curve (curves : shot -> result curve) bf bi phot s what e, (forall s1 s2 u, relabelled u s s1 -> relabelled u s s2 -> phot s1 = phot s2) ->
  ((exists s', calibrate curve curves bf bi phot s what = (s', Raise e)) <->
   curves s = Raise e \/ (exists c, curves s = Ok c) /\
   ((what <> "flux"%string /\ what <> "irr"%string /\ e = ValueError) \/
    exists unit s1, unit_of what unit /\ relabelled unit s s1 /\
      (phot s1 = Raise e \/ (exists r, phot s1 = Ok r) /\ ((forall nd, ~ density_name (t_ext s) nd) \/ no_card (t_ext s) "CFAMNAME") /\ e = ValueError))).
Proof.
  intros curve curves bf bi phot s what e PH. unfold calibrate. destruct (curves s) as [c|e'] eqn:E1.
  2: { split; [intros (s' & Q); injection Q as _ <-; auto|]. intros [Q|((c & Q) & _)]; [injection Q as <-; eauto|discriminate]. }
  destruct (what_cases curve bf bi what c) as [(flux & unit & W & B & U)|(W & N1 & N2)]; rewrite W.
  2: { split; [intros (s' & Q); injection Q as _ <-; right; split; [eauto|left; auto]|]. intros [Q|(_ & [(_ & _ & ->)|(u & s1 & [(Q & _)|(Q & _)] & _)])]; [discriminate|eauto|contradiction|contradiction]. }
  cbv zeta. fold (labelled unit s). transitivity (phot (labelled unit s) = Raise e \/ (exists r, phot (labelled unit s) = Ok r) /\ ((forall nd, ~ density_name (t_ext s) nd) \/ no_card (t_ext s) "CFAMNAME") /\ e = ValueError).
  2: { split; [intros H; right; split; [eauto|]; right; exists unit, (labelled unit s); split; [assumption|]; split; [apply labelled_ok|exact H]|]. intros [Q|(_ & [(N1 & N2 & _)|(u & s1 & U' & L & H)])]; [discriminate|destruct U as [(-> & _)|(-> & _)]; contradiction|]. assert (u = unit) by (eapply unit_one; eassumption). subst u. rewrite (PH _ _ _ (labelled_ok unit s) L). exact H. }
  destruct (phot (labelled unit s)) as [((n, er), b)|e'] eqn:E2.
  2: { split; [intros (s' & Q); injection Q as _ <-; auto|]. intros [Q|((r & Q) & _)]; [injection Q as <-; eauto|discriminate]. }
  unfold new_factor. cbn [t_ext labelled]. rewrite !get_put. cbn [String.eqb Ascii.eqb Bool.eqb].
  assert (ND : (forall nd, ~ density_name (t_ext s) nd) <-> match get "FPAMNAME" (t_ext s) with Some n => Some n | None => get "FSAMNAME" (t_ext s) end = None).
  { split.
    - intros H. destruct (match get "FPAMNAME" (t_ext s) with Some n => Some n | None => get "FSAMNAME" (t_ext s) end) as [nm|] eqn:E; [|reflexivity]. exfalso. apply (H (nd_of nm)). apply nd_iff. eauto.
    - intros H nd D. apply nd_iff in D. destruct D as (nm & D & _). congruence. }
  rewrite ND, <- get_none. destruct (match get "FPAMNAME" (t_ext s) with Some n => Some n | None => get "FSAMNAME" (t_ext s) end) as [nm|].
  2: { split; [intros (s' & Q); injection Q as _ <-; right; split; [eauto|auto]|]. intros [Q|(_ & _ & ->)]; [discriminate|eauto]. }
  destruct (get "CFAMNAME" (t_ext s)) as [cf|].
  - split; [intros (s' & Q); discriminate|]. intros [Q|(_ & [Q|Q] & _)]; discriminate.
  - split; [intros (s' & Q); injection Q as _ <-; right; split; [eauto|auto]|]. intros [Q|(_ & _ & ->)]; [discriminate|eauto].
Qed.
(** Pixels are never touched, and the image is relabelled as soon as the flux is known *)
Lemma left_pixels : forall curve (curves : shot -> result curve) bf bi phot s what s' r, calibrate curve curves bf bi phot s what = (s', r) -> same_pixels s s'.
Proof.
  intros curve curves bf bi phot s what s' r E. unfold calibrate in E. destruct (curves s) as [c|]; [|injection E as <- _; split; [reflexivity|split; reflexivity]]. destruct (what_cases curve bf bi what c) as [(flux & unit & W & _)|(W & _)]; rewrite W in E; [|injection E as <- _; split; [reflexivity|split; reflexivity]]. cbv zeta in E. fold (labelled unit s) in E.
  destruct (phot (labelled unit s)) as [((n, e), b)|]; [|injection E as <- _; split; [reflexivity|split; reflexivity]]. destruct (new_factor _ _ _) as (h, q). destruct q; injection E as <- _; split; [reflexivity|split; reflexivity|reflexivity|split; reflexivity].
Qed.
(** The factor turns the counts of the star into its flux, with the relative error of the counts *)
Lemma factor_law : forall flux n e, n <> 0 -> exists f d, quot (Some flux) (Some n) = Some f /\ prod (quot (Some flux) (prod (Some n) (Some n))) (Some e) = Some d /\ f * n = flux /\ d * n = f * e.
Proof.
  intros flux n e N. unfold quot, prod. destruct (Req_EM_T n 0); [contradiction|]. destruct (Req_EM_T (n * n) 0) as [Z|_]; [apply Rmult_integral in Z; lra|]. do 2 eexists. split; [reflexivity|]. split; [reflexivity|]. split; field; assumption.
Qed.
Lemma recovered : forall curve (curves : shot -> result curve) bf bi phot s what s' p n e b unit s1 c flux, calibrate curve curves bf bi phot s what = (s', Ok p) ->
  (forall s1 s2 u, relabelled u s s1 -> relabelled u s s2 -> phot s1 = phot s2) ->
  curves s = Ok c -> band bf bi what c (Some flux) -> unit_of what unit -> relabelled unit s s1 -> phot s1 = Ok (Some n, Some e, b) -> n <> 0 ->
  exists f d, f_fac p = Some f /\ f_err p = Some d /\ f * n = flux /\ d * n = f * e.
Proof.
  intros curve curves bf bi phot s what s' p n e b unit s1 c flux E PH C B U L P N. apply calibrated in E. destruct E as (c' & fl & u & s2 & n' & e' & b' & C' & B' & U' & L' & P' & F & D & _). rewrite C in C'. injection C' as <-. assert (fl = Some flux) by (eapply band_one; eassumption). assert (u = unit) by (eapply unit_one; eassumption). subst fl u. rewrite (PH _ _ _ L' L), P in P'. injection P' as <- <- <-. rewrite F, D. apply factor_law. assumption.
Qed.
(** The image given is left with the labels of the product *)
Lemma input_changed : forall curve (curves : shot -> result curve) bf bi phot s what s' p, calibrate curve curves bf bi phot s what = (s', Ok p) ->
  card (t_ext s') "DATATYPE" (CText "FluxcalFactor") /\ card (t_ext s') "DATALVL" (CText "CAL") /\ exists u, unit_of what u /\ card (t_ext s') "BUNIT" (CText u) /\ card (t_errh s') "BUNIT" (CText u).
Proof.
  intros curve curves bf bi phot s what s' p E. apply calibrated in E. destruct E as (c & flux & u & s1 & n & e & b & _ & _ & U & _ & _ & _ & _ & _ & _ & W & _ & EH & WE). rewrite EH. split; [|split; [|exists u; split; [assumption|split]]]; [apply W; left|apply W; left|apply W; left|apply WE; left]; apply get_iff; reflexivity.
Qed.
