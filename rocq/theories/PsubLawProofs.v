(** Laws of PSF subtractions, and what fails. *)
From Coq Require Import List Arith Bool Reals ZArith String Lia Lra.
From Verif Require Import Base DqModel CombineModel ComboSpec ComboProofs FlatModel FlatSpec CtModel CtSpec PhotModel PhotSpec PhotCalProofs PsubModel PsubSpec PsubProofs PsubMainProofs.
Import ListNotations.
Local Open Scope R_scope.

Section Laws.
  Variables K C : Type.
  Variable crop : list sframe -> result (list sframe).
  Variable klip : string -> list Z -> list sframe -> option (list sframe) -> result (list img * cards).
  Variable thrupt : string -> list Z -> list sframe -> option (list sframe) -> out K C -> result K.
  Variable seps_of : K -> list R.
  Variable core : out K C -> list R -> result C.
  Notation run := (do_psf_subtraction K C crop klip thrupt seps_of core).
  (** Reference frames in the dataset, or apart *)
  Lemma apart : forall o fs sci r, p_refs o = None -> all_numbers fs -> sieve (labelled 0) fs sci -> sci <> [] -> sieve (labelled 1) fs r -> r <> [] -> run o fs = run (sent (Some r) o) sci.
  Proof using.
    intros o fs sci r N A S0 NE S1 NR. unfold do_psf_subtraction. cbn [sent p_kl p_core p_ct p_refs p_mode p_basis p_crop]. assert (E : choose (p_refs o) fs = Ok (sci, Some r)) by (apply choose_iff; right; split; [assumption|]; split; [assumption|]; split; [assumption|]; split; [assumption|]; exists r; split; [assumption|]; right; auto). rewrite E. reflexivity.
  Qed.
  Lemma filter_sub : forall A (p q : A -> bool) l, (forall x, p x = true -> q x = true) -> filter p (filter q l) = filter p l.
  Proof using. intros A p q l H. induction l as [|x l IH]; [reflexivity|]. cbn [filter]. destruct (q x) eqn:Q; cbn [filter]; destruct (p x) eqn:P; try (rewrite IH; reflexivity). rewrite (H x P) in Q. discriminate. Qed.
  (** Frames of other labels do not matter *)
  Lemma others : forall o fs fs', p_refs o = None -> all_numbers fs -> sieve (fun f => labelled 0 f \/ labelled 1 f) fs fs' -> run o fs' = run o fs.
  Proof using.
    intros o fs fs' N A S. assert (E : fs' = filter (fun f => labelled_as 0 f || labelled_as 1 f) fs) by (revert S; apply sieve_filter; intros f; rewrite orb_true_iff, !labelled_iff; reflexivity).
    assert (A' : all_numbers fs') by (unfold all_numbers in *; rewrite Forall_forall in *; intros f I; apply A; rewrite E in I; apply filter_In in I; destruct I; assumption).
    unfold do_psf_subtraction. rewrite N. replace (choose None fs') with (choose None fs); [reflexivity|]. apply numbers_iff in A. apply numbers_iff in A'. destruct A as (P & T), A' as (P' & T'). apply cards_ok in P. apply cards_ok in P'. destruct P as (vs & M), P' as (vs' & M'). unfold choose. rewrite M, M'. cbn [bind].
    assert (X : existsb is_text vs = false) by (destruct (existsb is_text vs) eqn:Q; [exfalso; apply T; apply (texts_iff fs vs M); assumption|reflexivity]). assert (X' : existsb is_text vs' = false) by (destruct (existsb is_text vs') eqn:Q; [exfalso; apply T'; apply (texts_iff fs' vs' M'); assumption|reflexivity]). rewrite X, X', E, !filter_sub; [reflexivity| |]; intros f L; rewrite L; [apply orb_true_r|reflexivity].
  Qed.
  Lemma off_masked : forall f g, same_off f g -> masked_frame g = masked_frame f.
  Proof using.
    intros f g (A & B & D & N & R1 & C1 & H). apply hides_iff. unfold hides, masked_frame. cbn [s_pri s_ext s_dq s_name s_data rows cols pix]. repeat (split; [assumption|]). intros i j. rewrite D. split; intros L; destruct (Z.leb_spec 1 (s_dq f i j)); try reflexivity; try lia. apply H. assumption.
  Qed.
  Lemma offs_masked : forall l m, Forall2 same_off l m -> map masked_frame m = map masked_frame l.
  Proof using. intros l m F. induction F as [|f g l m H F IH]; [reflexivity|]. cbn [map]. rewrite IH, (off_masked _ _ H). reflexivity. Qed.
  Lemma off_filter : forall x l m, Forall2 same_off l m -> Forall2 same_off (filter (labelled_as x) l) (filter (labelled_as x) m).
  Proof using. intros x l m F. induction F as [|f g l m H F IH]; [constructor|]. cbn [filter]. replace (labelled_as x g) with (labelled_as x f) by (unfold labelled_as; destruct H as (-> & _); reflexivity). destruct (labelled_as x f); [constructor; assumption|assumption]. Qed.
  Lemma off_cards : forall l m, Forall2 same_off l m -> mapR ref_card m = mapR ref_card l.
  Proof using. intros l m F. induction F as [|f g l m H F IH]; [reflexivity|]. cbn [mapR]. rewrite IH. unfold ref_card at 1 3. destruct H as (-> & _). reflexivity. Qed.
  Lemma off_length : forall l m, Forall2 same_off l m -> List.length m = List.length l.
  Proof using. intros l m F. induction F; cbn; congruence. Qed.
  Lemma off_choose : forall r r' l m, maybe (Forall2 same_off) r r' -> Forall2 same_off l m ->
    match choose r l, choose r' m with Ok (s, t), Ok (s', t') => Forall2 same_off s s' /\ maybe (Forall2 same_off) t t' | Raise e, Raise e' => e' = e | _, _ => False end.
  Proof using.
    intros r r' l m R1 F. unfold choose. destruct r as [r|], r' as [r'|]; cbn [maybe] in R1; try contradiction; [split; [assumption|exact R1]|]. rewrite (off_cards _ _ F). destruct (mapR ref_card l) as [vs|]; cbn [bind]; [|reflexivity]. destruct (existsb is_text vs); [reflexivity|]. pose proof (off_filter 0 _ _ F) as F0. pose proof (off_filter 1 _ _ F) as F1. inversion F0 as [|f g s s' H F0']; [reflexivity|]. split; [constructor; assumption|]. inversion F1; [exact I|]. cbn [maybe]. constructor; assumption.
  Qed.
  Lemma off_crop : forall b l m, blind_crop crop -> Forall2 same_off l m -> match crop_if crop b l, crop_if crop b m with Ok a, Ok b => Forall2 same_off a b | Raise e, Raise e' => e' = e | _, _ => False end.
  Proof using. intros b l m BC F. unfold crop_if. destruct b; [apply BC; assumption|assumption]. Qed.
  Lemma off_out : forall mode s s' cube h, Forall2 same_off s s' -> new_out K C mode s' cube h = new_out K C mode s cube h.
  Proof using.
    intros mode s s' cube h F. unfold new_out. inversion F as [|f g l m H F']; [reflexivity|]. subst. assert (L : s_name (last (g :: m) g) = s_name (last (f :: l) f)).
    { clear - H F'. assert (G : forall a b, s_name b = s_name a -> s_name (last m b) = s_name (last l a)) by (induction F' as [|f' g' l m H' F' IH]; intros a b E; [assumption|]; destruct H' as (_ & _ & _ & N & _); inversion F'; subst; [cbn; assumption|exact (IH a b E)]).
      destruct H as (_ & _ & _ & N & _). destruct l, m; inversion F'; subst; [assumption|]. exact (G f g N). }
    rewrite L. destruct H as (-> & -> & _). reflexivity.
  Qed.
  Lemma off_crops : forall b t t', blind_crop crop -> maybe (Forall2 same_off) t t' -> match crop_refs crop b t, crop_refs crop b t' with Ok a, Ok b => maybe (Forall2 same_off) a b | Raise e, Raise e' => e' = e | _, _ => False end.
  Proof using.
    intros b t t' BC F. unfold crop_refs. destruct t as [t|], t' as [t'|]; cbn [maybe] in F; try contradiction; [|exact I]. pose proof (off_crop b _ _ BC F) as X. destruct (crop_if crop b t), (crop_if crop b t'); cbn [bind]; exact X.
  Qed.
  Lemma off_refs_masked : forall t t', maybe (Forall2 same_off) t t' -> option_map (map masked_frame) t' = option_map (map masked_frame) t.
  Proof using. intros [t|] [t'|] F; cbn [maybe] in F; try contradiction; [|reflexivity]. cbn [option_map]. rewrite (offs_masked _ _ F). reflexivity. Qed.
  Lemma off_mode : forall m n t t', maybe (Forall2 same_off) t t' -> mode_of m n t' = mode_of m n t.
  Proof using. intros m n [t|] [t'|] F; cbn [maybe] in F; try contradiction; reflexivity. Qed.
  (** The values of flagged pixels do not matter *)
  Lemma flagged : forall o r' fs gs, blind_crop crop -> maybe (Forall2 same_off) (p_refs o) r' -> Forall2 same_off fs gs -> run (sent r' o) gs = run o fs.
  Proof using.
    intros o r' fs gs BC R1 F. unfold do_psf_subtraction. cbn [sent p_kl p_core p_ct p_refs p_mode p_basis p_crop]. destruct (_ && _); [reflexivity|].
    pose proof (off_choose _ _ _ _ R1 F) as CH. destruct (choose (p_refs o) fs) as [(s, t)|], (choose r' gs) as [(s', t')|]; cbn [bind]; try contradiction; [|rewrite CH; reflexivity]. cbn [fst snd]. destruct CH as (FS & FT).
    rewrite (off_length _ _ FS), (off_mode _ _ _ _ FT). destruct (Nat.eqb _ _); [reflexivity|]. destruct (mode_of _ _ _) as [mode|]; cbn [bind]; [|reflexivity].
    pose proof (off_crop (p_crop o) _ _ BC FS) as CS. destruct (crop_if crop (p_crop o) s) as [a|], (crop_if crop (p_crop o) s') as [a'|]; cbn [bind]; try contradiction; [|rewrite CS; reflexivity].
    pose proof (off_crops (p_crop o) _ _ BC FT) as CT. destruct (crop_refs crop (p_crop o) t) as [u|], (crop_refs crop (p_crop o) t') as [u'|]; cbn [bind]; try contradiction; [|rewrite CT; reflexivity].
    rewrite (offs_masked _ _ CS), (off_refs_masked _ _ CT). destruct (klip _ _ _ _) as [kr|]; cbn [bind]; [|reflexivity]. rewrite (off_out _ _ _ _ _ CS). reflexivity.
  Qed.
  (** Science frames: all of the dataset when references are handed over *)
  Lemma all_science : forall o fs r mode nb sci sm rm, p_refs o = Some r -> p_crop o = false -> given crop o fs mode nb sci sm rm -> hidden fs sm.
  Proof using.
    intros o fs r mode nb sci sm rm R1 CR (_ & s & r1 & r2 & CH & _ & _ & _ & CS & _ & H & _). rewrite R1 in CH. destruct CH as [(x & E & -> & _)|(N & _)]; [|discriminate]. rewrite CR in CS. unfold cropped in CS. destruct CS as [(B & _)|(_ & ->)]; [discriminate|exact H].
  Qed.
End Laws.

Lemma dot_label : forall x y flag n, labelled_as y (dot x flag n) = if Req_EM_T x y then true else false.
Proof. intros. reflexivity. Qed.


(** Frames labelled as references of the dataset count as science when references are handed over *)
Lemma references_refuted : exists d d', trial (plain None (Some "ADI"%string)) [dot 0 0 "a"; dot 1 0 "b"] = Ok d /\ trial (plain (Some [dot 1 0 "c"]) (Some "ADI"%string)) [dot 0 0 "a"; dot 1 0 "b"] = Ok d' /\
  map (fun p => pix p 0%nat 0%nat) (o_planes _ _ d) = [Some 1] /\ map (fun p => pix p 0%nat 0%nat) (o_planes _ _ d') = [Some 2].
Proof.
  eexists; eexists. split; [|split; [|split]].
  - unfold trial, do_psf_subtraction, choose, plain. cbn [p_kl p_core p_ct p_refs p_mode p_basis p_crop orb andb negb]. change (mapR ref_card _) with (Ok [CNum (Some 0); CNum (Some 1)]). cbn [bind existsb is_text orb]. cbn [filter]. rewrite !dot_label. destruct (Req_EM_T 0 0) as [_|N]; [|lra]. destruct (Req_EM_T 1 0) as [N|_]; [lra|]. destruct (Req_EM_T 0 1) as [N|_]; [lra|]. destruct (Req_EM_T 1 1) as [_|N]; [|lra]. reflexivity.
  - reflexivity.
  - cbn. reflexivity.
  - cbn. reflexivity.
Qed.
(** A flag of a frame does not reach the product *)
Lemma flags_refuted : exists d, trial (plain None None) [dot 0 1 "a"; dot 0 1 "b"] = Ok d /\ s_dq (dot 0 1 "a") 0%nat 0%nat = 4%Z /\ s_dq (dot 0 1 "b") 0%nat 0%nat = 4%Z /\ map (fun g => g 0%nat 0%nat) (o_dq _ _ d) = [0%Z].
Proof.
  eexists. split; [|split; [|split]].
  - unfold trial, do_psf_subtraction, choose, plain. cbn [p_kl p_core p_ct p_refs p_mode p_basis p_crop orb andb negb]. change (mapR ref_card _) with (Ok [CNum (Some 0); CNum (Some 0)]). cbn [bind existsb is_text orb]. cbn [filter]. rewrite !dot_label. destruct (Req_EM_T 0 0) as [_|N]; [|lra]. destruct (Req_EM_T 0 1) as [N|_]; [lra|]. reflexivity.
  - cbn. destruct (Req_EM_T 1 0); [lra|reflexivity].
  - cbn. destruct (Req_EM_T 1 0); [lra|reflexivity].
  - reflexivity.
Qed.
(** Reference differential imaging without a reference is handed on *)
Lemma mode_refuted : exists d, trial (plain None (Some "RDI"%string)) [dot 0 0 "a"] = Ok d /\ card (o_pri _ _ d) "KLIP_ALG" (CText "RDI").
Proof.
  eexists. split.
  - unfold trial, do_psf_subtraction, choose, plain. cbn [p_kl p_core p_ct p_refs p_mode p_basis p_crop orb andb negb]. change (mapR ref_card _) with (Ok [CNum (Some 0)]). cbn [bind existsb is_text orb]. cbn [filter]. rewrite !dot_label. destruct (Req_EM_T 0 0) as [_|N]; [|lra]. destruct (Req_EM_T 0 1) as [N|_]; [lra|]. reflexivity.
  - apply get_iff. reflexivity.
Qed.
(** The product is named after the last science frame, its header is that of the first *)
Lemma name_refuted : exists d, trial (plain None None) [dot 0 0 "a"; dot 0 0 "b"] = Ok d /\ o_name _ _ d = "b"%string /\ card (o_pri _ _ d) "VISITID" (CText "a").
Proof.
  eexists. split; [|split].
  - unfold trial, do_psf_subtraction, choose, plain. cbn [p_kl p_core p_ct p_refs p_mode p_basis p_crop orb andb negb]. change (mapR ref_card _) with (Ok [CNum (Some 0); CNum (Some 0)]). cbn [bind existsb is_text orb]. cbn [filter]. rewrite !dot_label. destruct (Req_EM_T 0 0) as [_|N]; [|lra]. destruct (Req_EM_T 0 1) as [N|_]; [lra|]. reflexivity.
  - reflexivity.
  - apply get_iff. reflexivity.
Qed.

(** The laws, with nothing left open *)
Lemma apart_law : forall K C crop klip thrupt seps_of core o fs sci r, p_refs o = None -> all_numbers fs -> sieve (labelled 0) fs sci -> sci <> [] -> sieve (labelled 1) fs r -> r <> [] ->
  do_psf_subtraction K C crop klip thrupt seps_of core o fs = do_psf_subtraction K C crop klip thrupt seps_of core (sent (Some r) o) sci.
Proof. intros. apply apart; assumption. Qed.
Lemma others_law : forall K C crop klip thrupt seps_of core o fs fs', p_refs o = None -> all_numbers fs -> sieve (fun f => labelled 0 f \/ labelled 1 f) fs fs' ->
  do_psf_subtraction K C crop klip thrupt seps_of core o fs' = do_psf_subtraction K C crop klip thrupt seps_of core o fs.
Proof. intros. apply others; assumption. Qed.
Lemma flagged_law : forall K C crop klip thrupt seps_of core o r' fs gs, blind_crop crop -> maybe (Forall2 same_off) (p_refs o) r' -> Forall2 same_off fs gs ->
  do_psf_subtraction K C crop klip thrupt seps_of core (sent r' o) gs = do_psf_subtraction K C crop klip thrupt seps_of core o fs.
Proof. intros. apply flagged; assumption. Qed.
Lemma science_law : forall crop o fs r mode nb sci sm rm, p_refs o = Some r -> p_crop o = false -> given crop o fs mode nb sci sm rm -> hidden fs sm.
Proof. intros crop o fs r mode nb sci sm rm. apply all_science. Qed.
(** References in the dataset, in any order, between the science frames *)
Lemma order_law : forall K C crop klip thrupt seps_of core o fs gs sci r, p_refs o = None -> all_numbers fs -> all_numbers gs -> sieve (labelled 0) fs sci -> sieve (labelled 0) gs sci -> sieve (labelled 1) fs r -> sieve (labelled 1) gs r ->
  do_psf_subtraction K C crop klip thrupt seps_of core o gs = do_psf_subtraction K C crop klip thrupt seps_of core o fs.
Proof.
  intros K C crop klip thrupt seps_of core o fs gs sci r N A B S S' R1 R2. unfold do_psf_subtraction. rewrite N. replace (choose None gs) with (choose None fs); [reflexivity|].
  destruct sci as [|f sci].
  - assert (H : forall l, all_numbers l -> sieve (labelled 0) l [] -> choose None l = Raise PyException).
    { intros l X Y. apply choose_fails. split; [reflexivity|]. right. split; [|split; [|reflexivity]].
      - intros x I. unfold all_numbers in X. rewrite Forall_forall in X. destruct (X x I) as (v & V). exists (CNum v). exact V.
      - right. intros x I L. clear X. remember [] as z eqn:Z. induction Y; [destruct I|discriminate|]. destruct I as [->|I]; [contradiction|auto]. }
    rewrite (H fs A S), (H gs B S'). reflexivity.
  - assert (H : forall l, all_numbers l -> sieve (labelled 0) l (f :: sci) -> sieve (labelled 1) l r -> choose None l = Ok (f :: sci, match r with [] => None | _ => Some r end)).
    { intros l X Y Z. apply choose_iff. right. split; [reflexivity|]. split; [assumption|]. split; [assumption|]. split; [discriminate|]. exists r. split; [assumption|]. destruct r; [left; auto|right; split; [discriminate|reflexivity]]. }
    rewrite (H fs A S R1), (H gs B S' R2). reflexivity.
Qed.
