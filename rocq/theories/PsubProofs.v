(** A PSF subtraction: proofs. *)
From Coq Require Import List Arith Bool Reals ZArith String Lia Lra FunctionalExtensionality.
From Verif Require Import Base DqModel DqProofs SortGroupProofs CombineModel ComboSpec ComboProofs FlatModel FlatSpec CtModel CtSpec PhotModel PhotSpec PhotCalProofs PsubModel PsubSpec.
Import ListNotations.
Local Open Scope R_scope.

(** ** Choice of frames *)
Lemma labelled_iff : forall x f, labelled_as x f = true <-> labelled x f.
Proof.
  intros x f. unfold labelled_as, labelled, psfref. rewrite <- get_iff. destruct (get "PSFREF" (s_pri f)) as [[t|[y|]]|]; cbn [number]; try (split; discriminate). destruct (Req_EM_T y x) as [->|N]; split; try reflexivity; try discriminate. intros Q. injection Q as ->. contradiction.
Qed.
Lemma cards_ok : forall fs, (exists vs, mapR ref_card fs = Ok vs) <-> forall f, In f fs -> exists v, psfref f v.
Proof.
  intros fs. induction fs as [|f fs IH]; cbn [mapR]; [split; [intros _ f []|eauto]|]. unfold ref_card at 1, psfref. destruct (get "PSFREF" (s_pri f)) as [v|] eqn:E; cbn [getkey bind].
  - destruct (mapR ref_card fs) as [vs|] eqn:M; cbn [bind].
    + split; [intros _ g [<-|I]; [exists v; apply get_iff; assumption|apply IH; eauto]|eauto].
    + split; [intros (vs & Q); discriminate|]. intros H. destruct IH as (_ & IH). destruct IH as (vs & Q); [intros g I; apply H; right; assumption|discriminate].
  - split; [intros (vs & Q); discriminate|]. intros H. destruct (H f (or_introl eq_refl)) as (v & Q). apply get_iff in Q. congruence.
Qed.
Lemma cards_fail : forall fs e, mapR ref_card fs = Raise e <-> (exists f, In f fs /\ forall v, ~ psfref f v) /\ e = KeyError.
Proof.
  intros fs e. destruct (mapR ref_card fs) as [vs|e'] eqn:M.
  - split; [discriminate|]. intros ((f & I & N) & _). destruct (proj1 (cards_ok fs) (ex_intro _ vs M) f I) as (v & Q). destruct (N v Q).
  - assert (e' = KeyError /\ exists f, In f fs /\ forall v, ~ psfref f v).
    { revert e' M. induction fs as [|f fs IH]; intros e' M; [discriminate|]. cbn [mapR] in M. unfold ref_card at 1 in M. destruct (get "PSFREF" (s_pri f)) as [v|] eqn:E; cbn [getkey bind] in M.
      - destruct (mapR ref_card fs) as [vs|e2] eqn:M2; cbn [bind] in M; [discriminate|]. destruct (IH e2 eq_refl) as (-> & g & I & N). injection M as <-. split; [reflexivity|]. exists g. split; [right; assumption|assumption].
      - injection M as <-. split; [reflexivity|]. exists f. split; [left; reflexivity|]. apply get_none. assumption. }
    destruct H as (-> & H). split; [intros Q; injection Q as <-; auto|intros (_ & ->); reflexivity].
Qed.
Lemma texts_iff : forall fs vs, mapR ref_card fs = Ok vs -> (existsb is_text vs = true <-> exists f t, In f fs /\ psfref f (CText t)).
Proof.
  intros fs. induction fs as [|f fs IH]; intros vs M; cbn [mapR] in M; [injection M as <-; split; [discriminate|intros (f & t & [] & _)]|]. unfold ref_card at 1 in M. destruct (get "PSFREF" (s_pri f)) as [v|] eqn:E; cbn [getkey bind] in M; [|discriminate]. destruct (mapR ref_card fs) as [ws|] eqn:M2; cbn [bind] in M; [|discriminate]. injection M as <-. cbn [existsb]. rewrite orb_true_iff, (IH ws eq_refl). split.
  - intros [T|(g & t & I & P)]; [|exists g, t; split; [right; assumption|assumption]]. destruct v as [t|]; [|discriminate]. exists f, t. split; [left; reflexivity|]. apply get_iff. assumption.
  - intros (g & t & [<-|I] & P); [left|right; eauto]. apply get_iff in P. rewrite E in P. injection P as ->. reflexivity.
Qed.
Lemma numbers_iff : forall fs, all_numbers fs <-> (forall f, In f fs -> exists v, psfref f v) /\ ~ exists f t, In f fs /\ psfref f (CText t).
Proof.
  intros fs. unfold all_numbers. rewrite Forall_forall. split.
  - intros H. split; [intros f I; destruct (H f I) as (v & P); eauto|]. intros (f & t & I & P). destruct (H f I) as (v & Q). unfold psfref in *. apply get_iff in P. apply get_iff in Q. congruence.
  - intros (H & N) f I. destruct (H f I) as ([t|v] & P); [exfalso; apply N; eauto|eauto].
Qed.
Lemma label_sieve : forall x fs m, sieve (labelled x) fs m <-> m = filter (labelled_as x) fs.
Proof. intros x fs m. apply sieve_filter. intros f. apply labelled_iff. Qed.
Lemma choose_iff : forall refs fs sci ref, choose refs fs = Ok (sci, ref) <-> chosen refs fs sci ref.
Proof.
  intros refs fs sci ref. unfold choose, chosen. destruct refs as [r|].
  { split; [intros Q; injection Q as <- <-; left; eauto|]. intros [(r' & Q & -> & ->)|(Q & _)]; [injection Q as <-; reflexivity|discriminate]. }
  rewrite numbers_iff. split.
  - destruct (mapR ref_card fs) as [vs|] eqn:M; cbn [bind]; [|discriminate]. destruct (existsb is_text vs) eqn:T; [discriminate|]. destruct (filter (labelled_as 0) fs) as [|f s] eqn:E0; [discriminate|]. intros Q. injection Q as <- <-. right. split; [reflexivity|]. split; [split; [apply cards_ok; eauto|intros P; apply (texts_iff fs vs M) in P; congruence]|]. split; [apply label_sieve; auto|]. split; [discriminate|]. eexists. split; [apply label_sieve; reflexivity|]. destruct (filter (labelled_as 1) fs); [left; auto|right; split; [discriminate|reflexivity]].
  - intros [(r & Q & _)|(_ & (P & N) & S0 & NE & rs & S1 & O)]; [discriminate|]. apply cards_ok in P. destruct P as (vs & M). rewrite M. cbn [bind]. destruct (existsb is_text vs) eqn:T; [exfalso; apply N; apply (texts_iff fs vs M); assumption|]. apply label_sieve in S0. apply label_sieve in S1. rewrite <- S0, <- S1. destruct sci as [|f s]; [contradiction|]. destruct O as [(-> & ->)|(NR & ->)]; [reflexivity|]. destruct rs; [contradiction|reflexivity].
Qed.
Lemma choose_fails : forall refs fs e, choose refs fs = Raise e <-> choice_refused refs fs e.
Proof.
  intros refs fs e. unfold choose, choice_refused. destruct refs as [r|]; [split; [discriminate|intros (Q & _); discriminate]|]. destruct (mapR ref_card fs) as [vs|e'] eqn:M; cbn [bind].
  2: { split; [intros Q; injection Q as <-; split; [reflexivity|]; left; apply cards_fail in M; exact M|]. intros (_ & [(P & ->)|(P & _)]); [apply cards_fail in M; destruct M as (_ & ->); reflexivity|]. apply cards_ok in P. destruct P as (vs & P). congruence. }
  assert (PV : forall f, In f fs -> exists v, psfref f v) by (apply cards_ok; eauto). assert (NK : ~ exists f, In f fs /\ forall v, ~ psfref f v) by (intros (f & I & N); destruct (PV f I) as (v & Q); exact (N v Q)).
  destruct (existsb is_text vs) eqn:T.
  { split; [intros Q; injection Q as <-; split; [reflexivity|]; right; split; [assumption|]; split; [left; apply (texts_iff fs vs M); assumption|reflexivity]|]. intros (_ & [(P & _)|(_ & _ & ->)]); [contradiction|reflexivity]. }
  destruct (filter (labelled_as 0) fs) as [|f s] eqn:E0.
  - split; [intros Q; injection Q as <-; split; [reflexivity|]; right; split; [assumption|]; split; [right|reflexivity]|intros (_ & [(P & _)|(_ & _ & ->)]); [contradiction|reflexivity]]. intros f I L. apply labelled_iff in L. assert (In f []) by (rewrite <- E0; apply filter_In; auto). destruct H.
  - split; [discriminate|]. intros (_ & [(P & _)|(_ & [P|P] & _)]); [contradiction| |].
    + apply (texts_iff fs vs M) in P. congruence.
    + exfalso. assert (I : In f (filter (labelled_as 0) fs)) by (rewrite E0; left; reflexivity). apply filter_In in I. destruct I as (I & L). apply labelled_iff in L. exact (P f I L).
Qed.
(** ** The mode *)
Lemma in_modes : forall m, existsb (String.eqb m) ["RDI"; "ADI+RDI"; "ADI"]%string = true <-> a_mode m.
Proof. intros m. cbn [existsb]. rewrite !orb_true_iff, !String.eqb_eq. unfold a_mode. intuition congruence. Qed.
Lemma mode_iff : forall mo s r m, mode_of mo (List.length s) r = Ok m <-> moded mo s r m.
Proof.
  intros mo s r m. unfold mode_of, moded. destruct mo as [m'|].
  - destruct (existsb (String.eqb m') ["RDI"; "ADI+RDI"; "ADI"]%string) eqn:E; (split; [intros Q|intros [(Q & A)|(Q & _)]]); try discriminate.
    + injection Q as <-. left. split; [reflexivity|]. apply in_modes. assumption.
    + injection Q as <-. reflexivity.
    + injection Q as <-. apply in_modes in A. congruence.
  - assert (O : List.length s = 1%nat <-> exists f, s = [f]) by (destruct s as [|f [|g s]]; cbn; split; try discriminate; try (intros (g' & Q); discriminate); [intros _; eauto|reflexivity]).
    destruct r as [r|].
    + destruct (Nat.eqb_spec (List.length s) 1) as [E|E]; (split; [intros Q; injection Q as <-; right; split; [reflexivity|]; right; split; [discriminate|]|intros [(Q & _)|(_ & [(Q & _)|(_ & [((f & Q) & ->)|(Q & ->)])])]]); try discriminate; try reflexivity.
      * left. split; [apply O; assumption|reflexivity].
      * apply O in E. destruct E as (f & E). destruct (Q f E).
      * right. split; [|reflexivity]. intros f Q. apply E, O. eauto.
      * exfalso. apply E, O. eauto.
    + split; [intros Q; injection Q as <-; right; split; [reflexivity|]; left; auto|]. intros [(Q & _)|(_ & [(_ & ->)|(Q & _)])]; [discriminate|reflexivity|destruct (Q eq_refl)].
Qed.
Lemma mode_fails : forall mo (s : list sframe) r e, mode_of mo (List.length s) r = Raise e <-> exists m, mo = Some m /\ ~ a_mode m /\ e = AssertionError.
Proof.
  intros mo s r e. unfold mode_of. destruct mo as [m|]; [|split; [discriminate|intros (m & Q & _); discriminate]]. destruct (existsb (String.eqb m) ["RDI"; "ADI+RDI"; "ADI"]%string) eqn:E.
  - split; [discriminate|]. intros (m' & Q & N & _). injection Q as <-. apply in_modes in E. contradiction.
  - split; [intros Q; injection Q as <-; exists m; split; [reflexivity|]; split; [intros A; apply in_modes in A; congruence|reflexivity]|]. intros (m' & _ & _ & ->). reflexivity.
Qed.
(** ** Frames given to pyklip *)
Lemma img_eq : forall f g, rows g = rows f -> cols g = cols f -> (forall i j, pix g i j = pix f i j) -> g = f.
Proof. intros (r, c, p) (r', c', p') R1 C1 H. cbn in *. subst. f_equal. extensionality i. extensionality j. apply H. Qed.
Lemma hides_iff : forall f g, hides f g <-> g = masked_frame f.
Proof.
  intros f g. unfold hides, masked_frame. split.
  - destruct g as (p, e, d, q, n). cbn [s_pri s_ext s_data s_dq s_name]. intros (-> & -> & -> & -> & R1 & C1 & H). f_equal. apply img_eq; [assumption|assumption|]. intros i j. cbn [pix]. destruct (H i j) as (A & B). destruct (Z.leb_spec 1 (s_dq f i j)); [apply A|apply B]; lia.
  - intros ->. cbn [s_pri s_ext s_data s_dq s_name rows cols pix]. repeat (split; [reflexivity|]). intros i j. split; intros L; destruct (Z.leb_spec 1 (s_dq f i j)); try reflexivity; lia.
Qed.
Lemma hidden_iff : forall l m, hidden l m <-> m = map masked_frame l.
Proof.
  intros l. unfold hidden. induction l as [|f l IH]; intros m; [split; [intros F; inversion F; reflexivity|intros ->; constructor]|]. cbn [map]. split; [intros F; inversion F as [|? ? ? m' H F']; subst; f_equal; [apply hides_iff; assumption|apply IH; assumption]|intros ->; constructor; [apply hides_iff; reflexivity|apply IH; reflexivity]].
Qed.
Lemma maybe_hidden : forall r m, maybe hidden r m <-> m = option_map (map masked_frame) r.
Proof. intros [l|] [m|]; cbn [maybe option_map]; [rewrite hidden_iff| | |]; split; intros H; try discriminate; try reflexivity; try contradiction; first [exact I|f_equal; assumption|injection H as ->; reflexivity]. Qed.
Lemma cropped_iff : forall crop b l m, crop_if crop b l = Ok m <-> cropped crop b l m.
Proof. intros crop b l m. unfold crop_if, cropped. destruct b; intuition congruence. Qed.
Lemma cropped_refs_iff : forall crop b r m, crop_refs crop b r = Ok m <-> maybe (cropped crop b) r m.
Proof.
  intros crop b [l|] m; cbn [crop_refs].
  - destruct (crop_if crop b l) as [l'|] eqn:E; cbn [bind]; (split; [intros Q|intros M]).
    + injection Q as <-. cbn [maybe]. apply cropped_iff. assumption.
    + destruct m as [m|]; [|destruct M]. cbn [maybe] in M. apply cropped_iff in M. congruence.
    + discriminate.
    + destruct m as [m|]; [|destruct M]. cbn [maybe] in M. apply cropped_iff in M. congruence.
  - destruct m as [m|]; cbn [maybe]; split; intros H; try discriminate; try destruct H; reflexivity.
Qed.
Definition prepare (crop : list sframe -> result (list sframe)) (o : opts) (fs : list sframe) : result (string * list sframe * option (list sframe)) :=
  if (p_kl o || p_core o) && negb (p_ct o) then Raise AssertionError else
  do sr <- choose (p_refs o) fs;
  if Nat.eqb (List.length (fst sr)) 0 then Raise AssertionError else
  do mode <- mode_of (p_mode o) (List.length (fst sr)) (snd sr);
  do sci <- crop_if crop (p_crop o) (fst sr);
  do ref <- crop_refs crop (p_crop o) (snd sr);
  Ok (mode, sci, ref).
Lemma checks_iff : forall o, (p_kl o || p_core o) && negb (p_ct o) = false <-> (p_kl o = true \/ p_core o = true -> p_ct o = true).
Proof. intros o. destruct (p_kl o), (p_core o), (p_ct o); cbn; intuition discriminate. Qed.
Lemma kept_iff : forall b l, modes_kept b l <-> l = basis_of b.
Proof. intros [n|m] l; reflexivity. Qed.
Lemma given_iff : forall crop o fs mode nb sci sm rm, given crop o fs mode nb sci sm rm <-> exists ref, prepare crop o fs = Ok (mode, sci, ref) /\ nb = basis_of (p_basis o) /\ sm = map masked_frame sci /\ rm = option_map (map masked_frame) ref.
Proof.
  intros crop o fs mode nb sci sm rm. unfold given, prepare. rewrite <- checks_iff. split.
  - intros (-> & s & r & r' & CH & NE & MO & KE & CR & CRR & H & HR). apply choose_iff in CH. rewrite CH. cbn [bind fst snd]. destruct (Nat.eqb_spec (List.length s) 0) as [Z|_]; [destruct s; [contradiction|discriminate]|]. apply mode_iff in MO. rewrite MO. cbn [bind]. apply cropped_iff in CR. rewrite CR. cbn [bind]. apply cropped_refs_iff in CRR. rewrite CRR. cbn [bind]. exists r'. apply kept_iff in KE. apply hidden_iff in H. apply maybe_hidden in HR. auto.
  - intros (ref & E & -> & -> & ->). destruct ((p_kl o || p_core o) && negb (p_ct o)); [discriminate|]. destruct (choose (p_refs o) fs) as [(s, r)|] eqn:E1; cbn [bind fst snd] in E; [|discriminate]. destruct (Nat.eqb_spec (List.length s) 0) as [Z|NZ]; [discriminate|]. destruct (mode_of _ _ _) as [m|] eqn:E2; cbn [bind] in E; [|discriminate]. destruct (crop_if _ _ _) as [s'|] eqn:E3; cbn [bind] in E; [|discriminate]. destruct (crop_refs _ _ _) as [r'|] eqn:E4; cbn [bind] in E; [|discriminate]. injection E as <- <- <-.
    split; [reflexivity|]. exists s, r, r'. split; [apply choose_iff; assumption|]. split; [intros ->; apply NZ; reflexivity|]. split; [apply mode_iff; assumption|]. split; [apply kept_iff; reflexivity|]. split; [apply cropped_iff; assumption|]. split; [apply cropped_refs_iff; assumption|]. split; [apply hidden_iff; reflexivity|apply maybe_hidden; reflexivity].
Qed.
Lemma not_given_iff : forall crop o fs e, not_given crop o fs e <-> prepare crop o fs = Raise e.
Proof.
  intros crop o fs e. unfold not_given, prepare. rewrite <- checks_iff. destruct ((p_kl o || p_core o) && negb (p_ct o)) eqn:E0.
  { split; [intros [(_ & _ & ->)|(Q & _)]; [reflexivity|discriminate]|]. intros Q. injection Q as <-. left. apply andb_true_iff in E0. rewrite orb_true_iff, negb_true_iff in E0. destruct E0. auto. }
  assert (NO : ~ ((p_kl o = true \/ p_core o = true) /\ p_ct o = false)) by (intros (A & B); apply checks_iff in E0; [congruence|assumption]).
  transitivity (choice_refused (p_refs o) fs e \/ exists s r, chosen (p_refs o) fs s r /\ ((s = [] /\ e = AssertionError) \/ (s <> [] /\ ((exists m, p_mode o = Some m /\ ~ a_mode m /\ e = AssertionError) \/ (exists m, moded (p_mode o) s r m) /\ p_crop o = true /\ (crop s = Raise e \/ (exists s', crop s = Ok s') /\ exists l, r = Some l /\ crop l = Raise e))))).
  { split; [intros [(A & B & _)|(_ & H)]; [exfalso; apply NO; auto|exact H]|intros H; right; auto]. }
  destruct (choose (p_refs o) fs) as [(s, r)|e'] eqn:E1; cbn [bind fst snd].
  2: { apply choose_fails in E1. split; [|intros Q; injection Q as <-; left; assumption]. intros [H|(s & r & H & _)]; [apply choose_fails in H; apply choose_fails in E1; congruence|apply choose_iff in H; apply choose_fails in E1; congruence]. }
  transitivity ((s = [] /\ e = AssertionError) \/ (s <> [] /\ ((exists m, p_mode o = Some m /\ ~ a_mode m /\ e = AssertionError) \/ (exists m, moded (p_mode o) s r m) /\ p_crop o = true /\ (crop s = Raise e \/ (exists s', crop s = Ok s') /\ exists l, r = Some l /\ crop l = Raise e)))).
  { split; [intros [H|(s' & r' & H & G)]|intros H; right; exists s, r; split; [apply choose_iff; assumption|exact H]]; [apply choose_fails in H; congruence|]. apply choose_iff in H. rewrite E1 in H. injection H as <- <-. exact G. }
  destruct (Nat.eqb_spec (List.length s) 0) as [Z|NZ].
  { destruct s; [|discriminate]. split; [intros [(_ & ->)|(N & _)]; [reflexivity|destruct (N eq_refl)]|intros Q; injection Q as <-; auto]. }
  assert (NE : s <> []) by (intros ->; apply NZ; reflexivity). rewrite <- (mode_fails (p_mode o) s r). transitivity (mode_of (p_mode o) (Datatypes.length s) r = Raise e \/ (exists m, moded (p_mode o) s r m) /\ p_crop o = true /\ (crop s = Raise e \/ (exists s', crop s = Ok s') /\ exists l, r = Some l /\ crop l = Raise e)).
  { split; [intros [(-> & _)|(_ & H)]; [contradiction|exact H]|auto]. }
  destruct (mode_of (p_mode o) (Datatypes.length s) r) as [m|e'] eqn:E2; cbn [bind].
  2: { split; [intros [Q|((m & M) & _)]; [injection Q as ->; reflexivity|apply mode_iff in M; congruence]|intros Q; injection Q as ->; auto]. }
  assert (MM : exists m, moded (p_mode o) s r m) by (exists m; apply mode_iff; assumption).
  unfold crop_if at 1. destruct (p_crop o) eqn:PC; cbn [bind].
  2: { destruct r as [l|]; cbn [crop_refs crop_if bind]; (split; [intros [Q|(_ & Q & _)]; discriminate|discriminate]). }
  destruct (crop s) as [s'|e'] eqn:E3; cbn [bind].
  2: { split; [intros [Q|(_ & _ & [Q|((s' & Q) & _)])]; try discriminate; injection Q as ->; reflexivity|intros Q; injection Q as ->; right; auto]. }
  destruct r as [l|]; cbn [crop_refs crop_if bind].
  - destruct (crop l) as [l'|e'] eqn:E4; cbn [bind].
    + split; [|discriminate]. intros [Q|(_ & _ & [Q|(_ & l'' & Q & Q')])]; try discriminate. injection Q as <-. congruence.
    + split; [intros [Q|(_ & _ & [Q|(_ & l'' & Q & Q')])]; try discriminate; injection Q as <-; rewrite E4 in Q'; injection Q' as ->; reflexivity|]. intros Q. injection Q as ->. right. split; [assumption|]. split; [reflexivity|]. right. split; [eauto|]. exists l. auto.
  - split; [|discriminate]. intros [Q|(_ & _ & [Q|(_ & l'' & Q & _)])]; discriminate.
Qed.
