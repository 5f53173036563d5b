(** Proofs about guess_template and the filling of calibration entries. *)
From Coq Require Import List Arith Bool QArith String Ascii Lia.
From Verif Require Import Base WalkModel WalkSpec WalkStrProofs.
Import ListNotations.
Local Open Scope string_scope.
Local Open Scope list_scope.
Local Open Scope nat_scope.

(** * mapW *)
Lemma mapW_ok : forall {A B} (f : A -> result B) l r, mapW f l = Ok r <-> Forall2 (fun x y => f x = Ok y) l r.
Proof.
  intros A B f. induction l as [|x l IH]; intros r; cbn [mapW].
  - split; [intros H; injection H as <-; constructor|intros H; inversion H; reflexivity].
  - unfold bind at 1. destruct (f x) as [y|e] eqn:E.
    + destruct (mapW f l) as [t|e] eqn:Et; cbn [bind].
      * split; [intros H; injection H as <-; constructor; [exact E|apply IH; reflexivity]|]. intros H. inversion H as [|? y' ? t' E' F']; subst. rewrite E in E'. injection E' as <-. apply IH in F'. injection F' as <-. reflexivity.
      * split; [discriminate|]. intros H. inversion H as [|? y' ? t' E' F']; subst. apply IH in F'. discriminate.
    + split; [discriminate|]. intros H. inversion H as [|? y' ? t' E' F']; subst. congruence.
Qed.
Lemma mapW_raise : forall {A B} (f : A -> result B) l e, mapW f l = Raise e <-> exists pre x post, l = pre ++ x :: post /\ (forall y, In y pre -> exists z, f y = Ok z) /\ f x = Raise e.
Proof.
  intros A B f. induction l as [|x l IH]; intros e; cbn [mapW].
  - split; [discriminate|]. intros ([|] & ? & ? & H & _); discriminate.
  - unfold bind at 1. destruct (f x) as [y|e'] eqn:E.
    + destruct (mapW f l) as [t|e'] eqn:Et; cbn [bind].
      * split; [discriminate|]. intros (pre & z & post & H & P & F). destruct pre as [|p pre]; cbn in H; injection H as -> ->; [congruence|].
        assert (X : Ok t = Raise e); [|discriminate]. apply IH. exists pre, z, post. split; [reflexivity|]. split; [intros w Hw; apply P; right; exact Hw|exact F].
      * split.
        -- intros H. injection H as ->. destruct (proj1 (IH e) eq_refl) as (pre & z & post & -> & P & F). exists (x :: pre), z, post. split; [reflexivity|]. split; [|exact F]. intros w [<-|Hw]; [exists y; exact E|exact (P w Hw)].
        -- intros (pre & z & post & H & P & F). destruct pre as [|p pre]; cbn in H; injection H as -> ->; [congruence|]. assert (X : @Raise (list B) e' = Raise e); [|congruence]. apply IH. exists pre, z, post. split; [reflexivity|]. split; [intros w Hw; apply P; right; exact Hw|exact F].
    + split.
      * intros H. injection H as ->. exists [], x, l. split; [reflexivity|]. split; [intros y []|exact E].
      * intros (pre & z & post & H & P & F). destruct pre as [|p pre]; cbn in H; injection H as -> ->; [congruence|]. destruct (P p (or_introl eq_refl)) as [w Hw]. congruence.
Qed.

(** * guess_template *)
Lemma settings_ok : forall h r, settings h = Ok r <-> triple h r.
Proof.
  intros h r. unfold settings, triple. destruct (g_exp h) as [a|]; cbn [getkey bind]; [|split; [discriminate|intros (? & ? & ? & X & _); discriminate]].
  destruct (g_emc h) as [b|]; cbn [getkey bind]; [|split; [discriminate|intros (? & ? & ? & _ & X & _); discriminate]].
  destruct (g_kgp h) as [c|]; cbn [getkey bind]; [|split; [discriminate|intros (? & ? & ? & _ & _ & X & _); discriminate]].
  split; [intros H; injection H as <-; exists a, b, c; repeat split; reflexivity|]. intros (a' & b' & c' & A1 & A2 & A3 & ->). injection A1 as <-. injection A2 as <-. injection A3 as <-. reflexivity.
Qed.
Lemma settings_raise : forall h e, settings h = Raise e -> e = KeyError.
Proof. intros h e. unfold settings. destruct (g_exp h); [|cbn; congruence]. destruct (g_emc h); [|cbn; congruence]. destruct (g_kgp h); cbn; congruence. Qed.
Lemma settings_some : forall h, (exists r, triple h r) -> exists r, settings h = Ok r.
Proof. intros h [r H]. exists r. apply settings_ok. exact H. Qed.
Lemma rows_in : forall hs rows, Forall2 (fun x y => settings x = Ok y) hs rows -> forall r, In r rows <-> exists h, In h hs /\ triple h r.
Proof.
  induction 1 as [|h y hs rows E F IH]; intros r; [split; [intros []|intros (h & [] & _)]|]. cbn [In]. rewrite IH. split.
  - intros [<-|(h' & Hi & T)]; [exists h; split; [left; reflexivity|apply settings_ok; exact E]|exists h'; split; [right; exact Hi|exact T]].
  - intros (h' & [<-|Hi] & T); [left; apply settings_ok in T; congruence|right; exists h'; split; [exact Hi|exact T]].
Qed.
Lemma unique_ok : forall hs u, unique_vals hs = Ok u -> n_settings hs (List.length u).
Proof.
  intros hs u. unfold unique_vals, bind. destruct (mapW settings hs) as [rows|] eqn:E; [|discriminate]. intros H. injection H as <-. apply mapW_ok in E. split.
  - intros h Hi. clear - E Hi. induction E as [|x y l m Hx F IH]; [destruct Hi|]. destruct Hi as [<-|Hi]; [exists y; apply settings_ok; exact Hx|exact (IH Hi)].
  - exists (nodup (list_eq_dec string_dec) rows). split; [apply NoDup_nodup|]. split; [reflexivity|]. intros r. rewrite nodup_In. apply rows_in. exact E.
Qed.
Lemma unique_total : forall hs n, n_settings hs n -> exists u, unique_vals hs = Ok u /\ List.length u = n.
Proof.
  intros hs n (All & l & ND & Ln & Hl). destruct (mapW settings hs) as [rows|e] eqn:E.
  - exists (nodup (list_eq_dec string_dec) rows). split; [unfold unique_vals, bind; rewrite E; reflexivity|]. rewrite <- Ln. apply mapW_ok in E.
    apply Nat.le_antisymm; apply NoDup_incl_length; [apply NoDup_nodup| |exact ND|].
    + intros r Hr. apply nodup_In in Hr. apply Hl. apply (rows_in _ _ E). exact Hr.
    + intros r Hr. apply nodup_In. apply (rows_in _ _ E). apply Hl. exact Hr.
  - exfalso. apply (proj1 (mapW_raise _ _ _)) in E. destruct E as (pre & x & post & -> & _ & F). destruct (All x) as [r Hr]; [apply in_or_app; right; left; reflexivity|]. apply settings_ok in Hr. congruence.
Qed.
Lemma n_settings_pos : forall h hs n, n_settings (h :: hs) n -> 1 <= n.
Proof.
  intros h hs n (All & l & ND & <- & Hl). destruct (All h (or_introl eq_refl)) as [r Hr]. destruct l as [|x l]; [|cbn; lia]. exfalso. apply (proj2 (Hl r)). exists h. split; [left; reflexivity|exact Hr].
Qed.
Lemma n_settings_fun : forall hs n m, n_settings hs n -> n_settings hs m -> n = m.
Proof. intros hs n m H H'. destruct (unique_total _ _ H) as (u & E & <-). destruct (unique_total _ _ H') as (u' & E' & <-). congruence. Qed.
Lemma dark_ok : forall h hs pc many one l, dark_template (h :: hs) h pc many one = Ok l <-> dark_kind (h :: hs) h pc many one l.
Proof.
  intros h hs pc many one l. unfold dark_template. split.
  - unfold bind at 1. destruct (unique_vals (h :: hs)) as [u|] eqn:Eu; [|discriminate]. assert (NS := unique_ok _ _ Eu). unfold bind. destruct (g_ispc h) as [[|]|] eqn:Ei; cbn [getkey]; [| |discriminate].
    + intros H. injection H as <-. exact (dk_pc _ _ _ _ _ _ NS Ei).
    + destruct (Nat.ltb 1 (List.length u)) eqn:L; intros H; injection H as <-.
      * apply Nat.ltb_lt in L. exact (dk_many _ _ _ _ _ _ NS L Ei).
      * apply Nat.ltb_ge in L. assert (P := n_settings_pos _ _ _ NS). replace (List.length u) with 1 in NS by lia. exact (dk_one _ _ _ _ _ NS Ei).
  - intros H. inversion H as [n NS Ei|n NS L Ei|NS Ei]; subst; destruct (unique_total _ _ NS) as (u & Eu & Lu); rewrite Eu, Ei; cbn [getkey bind].
    + reflexivity.
    + rewrite Lu, (proj2 (Nat.ltb_lt _ _) L). reflexivity.
    + rewrite Lu. reflexivity.
Qed.
Lemma eng_iff : forall v, String.eqb (take 3 v) "ENG" = true <-> eng v.
Proof.
  intros v. rewrite String.eqb_eq. unfold eng. split.
  - intros H. destruct v as [|a [|b [|c w]]]; cbn in H; try discriminate. injection H as -> -> ->. exists w. reflexivity.
  - intros [w ->]. cbn. reflexivity.
Qed.
Ltac seq v c := let E := fresh "Eq" in destruct (String.eqb v c) eqn:E; [apply String.eqb_eq in E|apply String.eqb_neq in E].
Lemma guess_picks : forall h hs l, guess_template (h :: hs) = Ok l -> picks (h :: hs) h l.
Proof.
  intros h hs l. unfold guess_template. unfold bind at 1. destruct (g_lvl h) as [lvl|] eqn:El; cbn [getkey]; [|discriminate].
  seq lvl "L1"; [subst lvl|].
  { destruct (g_vis h) as [v|] eqn:Evs; [|intros H; injection H as <-; exact (p_l1_none _ _ El Evs)].
    destruct (String.eqb (take 3 v) "ENG") eqn:Ee; [intros H; injection H as <-; apply eng_iff in Ee; exact (p_l1_eng _ _ v El Evs Ee)|].
    assert (NE : ~ eng v) by (intros X; apply eng_iff in X; congruence).
    seq v "BORESITE"; [subst v; intros H; injection H as <-; exact (p_l1_bore _ _ El Evs)|].
    seq v "FFIELD"; [subst v; intros H; injection H as <-; exact (p_l1_flat _ _ El Evs)|].
    seq v "DARK"; [subst v; intros H; apply dark_ok in H; exact (p_l1_dark _ _ _ El Evs H)|].
    seq v "PUPILIMG"; [subst v; intros H; injection H as <-; exact (p_l1_pupil _ _ El Evs)|].
    intros H. injection H as <-. apply (p_l1_other _ _ v El Evs NE). intros [<-|[<-|[<-|[<-|[]]]]]; congruence. }
  seq lvl "L2a"; [subst lvl; unfold bind; destruct (g_vis h) as [v|] eqn:Evs; cbn [getkey]; [|discriminate]|].
  { seq v "DARK"; [subst v; intros H; apply dark_ok in H; exact (p_l2a_dark _ _ _ El Evs H)|].
    destruct (g_ispc h) as [[|]|] eqn:Ei; cbn [getkey]; [| |discriminate]; intros H; injection H as <-; [apply (p_l2a_pc _ _ v El Evs); assumption|apply (p_l2a_other _ _ v El Evs); assumption]. }
  seq lvl "L2b"; [subst lvl; unfold bind; destruct (g_vis h) as [v|] eqn:Evs; cbn [getkey]; [|discriminate]|].
  { seq v "ABSFLXFT"; [cbn [orb]; intros H; injection H as <-; apply (p_l2b_flux _ _ v El Evs); left; symmetry; assumption|].
    seq v "ABSFLXBT"; [cbn [orb]; intros H; injection H as <-; apply (p_l2b_flux _ _ v El Evs); right; left; symmetry; assumption|]. cbn [orb].
    seq v "CORETPUT"; [subst v; intros H; injection H as <-; exact (p_l2b_ct _ _ El Evs)|]. intros H. injection H as <-. apply (p_l2b_other _ _ v El Evs). intros [<-|[<-|[<-|[]]]]; congruence. }
  seq lvl "L3"; [subst lvl; unfold bind; destruct (g_fsm h) as [f|] eqn:Ef; cbn [getkey]; [|discriminate]|discriminate].
  destruct (Qeq_bool f 1) eqn:Ef1; intros H; injection H as <-; [apply (p_l3_coron _ _ f El Ef); apply Qeq_bool_iff; exact Ef1|apply (p_l3_other _ _ f El Ef); apply Qeq_bool_neq; exact Ef1].
Qed.
Ltac neqb := repeat match goal with |- context [String.eqb ?v ?c] => replace (String.eqb v c) with false by (symmetry; apply String.eqb_neq; intros ->; cbn in *; tauto) end.
Lemma eqbN : forall a b, a <> b -> String.eqb a b = false.
Proof. intros a b H. apply String.eqb_neq. exact H. Qed.
Lemma picks_guess : forall h hs l, picks (h :: hs) h l -> guess_template (h :: hs) = Ok l.
Proof.
  intros h hs l H. unfold guess_template.
  inversion H as [El Ev|v El Ev Ee|El Ev|El Ev|l' El Ev D|El Ev|v El Ev Ee N|l' El Ev D|v El Ev N Ei|v El Ev N Ei|v El Ev Hi|El Ev|v El Ev N|f El Ef Hq|f El Ef Hq]; subst; rewrite El; cbn [getkey bind].
  - rewrite Ev. reflexivity.
  - rewrite Ev. apply eng_iff in Ee. rewrite Ee. reflexivity.
  - rewrite Ev. reflexivity.
  - rewrite Ev. reflexivity.
  - rewrite Ev. apply dark_ok in D. exact D.
  - rewrite Ev. reflexivity.
  - rewrite Ev. replace (String.eqb (take 3 v) "ENG") with false by (symmetry; destruct (String.eqb (take 3 v) "ENG") eqn:E; [apply eng_iff in E; tauto|reflexivity]).
    rewrite (eqbN v "BORESITE"), (eqbN v "FFIELD"), (eqbN v "DARK"), (eqbN v "PUPILIMG"); [reflexivity| | | |]; intros ->; apply N; cbn; tauto.
  - rewrite Ev. apply dark_ok in D. exact D.
  - rewrite Ev. cbn [getkey bind]. rewrite (eqbN _ _ N), Ei. reflexivity.
  - rewrite Ev. cbn [getkey bind]. rewrite (eqbN _ _ N), Ei. reflexivity.
  - rewrite Ev. destruct Hi as [<-|[<-|[]]]; reflexivity.
  - rewrite Ev. reflexivity.
  - rewrite Ev. cbn [getkey bind]. assert (N1 : v <> "ABSFLXFT") by (intros ->; apply N; cbn; tauto). assert (N2 : v <> "ABSFLXBT") by (intros ->; apply N; cbn; tauto). assert (N3 : v <> "CORETPUT") by (intros ->; apply N; cbn; tauto).
    rewrite (eqbN _ _ N1), (eqbN _ _ N2), (eqbN _ _ N3). reflexivity.
  - rewrite Ef. cbn [getkey bind]. rewrite (proj2 (Qeq_bool_iff f 1) Hq). reflexivity.
  - rewrite Ef. cbn [getkey bind]. destruct (Qeq_bool f 1) eqn:E; [apply Qeq_bool_iff in E; contradiction|reflexivity].
Qed.
Lemma guess_iff : forall h hs l, guess_template (h :: hs) = Ok l <-> picks (h :: hs) h l.
Proof. intros h hs l. split; [apply guess_picks|apply picks_guess]. Qed.
Lemma dark_raise : forall hs h pc many one e, dark_template hs h pc many one = Raise e -> e = KeyError.
Proof.
  intros hs h pc many one e. unfold dark_template, unique_vals. destruct (mapW settings hs) as [rows|e'] eqn:E; cbn [bind].
  - destruct (g_ispc h) as [[|]|]; cbn [getkey bind]; [discriminate| |congruence]. destruct (Nat.ltb _ _); discriminate.
  - intros H. injection H as ->. apply (proj1 (mapW_raise _ _ _)) in E. destruct E as (pre & x & post & _ & _ & F). exact (settings_raise _ _ F).
Qed.
Lemma guess_unsupported : forall h hs, guess_template (h :: hs) = Raise NotImplementedError <-> exists lvl, g_lvl h = Some lvl /\ ~ In lvl ["L1"; "L2a"; "L2b"; "L3"].
Proof.
  intros h hs. unfold guess_template. unfold bind at 1. destruct (g_lvl h) as [lvl|] eqn:El; cbn [getkey]; [|split; [discriminate|intros (? & X & _); discriminate]].
  assert (D : forall pc many one, dark_template (h :: hs) h pc many one <> Raise NotImplementedError) by (intros pc many one X; apply dark_raise in X; discriminate).
  split.
  - intros H. exists lvl. split; [reflexivity|]. intros Hi. cbn [In] in Hi. revert H. destruct Hi as [<-|[<-|[<-|[<-|[]]]]].
    + rewrite String.eqb_refl. destruct (g_vis h) as [v|]; [|discriminate].
      destruct (String.eqb (take 3 v) "ENG"); [discriminate|]. destruct (String.eqb v "BORESITE"); [discriminate|]. destruct (String.eqb v "FFIELD"); [discriminate|]. destruct (String.eqb v "DARK"); [apply D|]. destruct (String.eqb v "PUPILIMG"); discriminate.
    + rewrite (eqbN "L2a" "L1") by discriminate. rewrite String.eqb_refl. unfold bind. destruct (g_vis h) as [v|]; cbn [getkey]; [|discriminate]. destruct (String.eqb v "DARK"); [apply D|]. destruct (g_ispc h) as [[|]|]; discriminate.
    + rewrite (eqbN "L2b" "L1"), (eqbN "L2b" "L2a") by discriminate. rewrite String.eqb_refl. unfold bind. destruct (g_vis h) as [v|]; cbn [getkey]; [|discriminate]. destruct (String.eqb v "ABSFLXFT" || String.eqb v "ABSFLXBT"); [discriminate|]. destruct (String.eqb v "CORETPUT"); discriminate.
    + rewrite (eqbN "L3" "L1"), (eqbN "L3" "L2a"), (eqbN "L3" "L2b") by discriminate. rewrite String.eqb_refl. unfold bind. destruct (g_fsm h) as [f|]; cbn [getkey]; [|discriminate]. destruct (Qeq_bool f 1); discriminate.
  - intros (lvl' & X & N). injection X as <-. rewrite (eqbN lvl "L1"), (eqbN lvl "L2a"), (eqbN lvl "L2b"), (eqbN lvl "L3"); [reflexivity| | | |]; intros ->; apply N; cbn; tauto.
Qed.
Lemma guess_raise : forall h hs e, guess_template (h :: hs) = Raise e -> e = KeyError \/ e = NotImplementedError.
Proof.
  intros h hs e. unfold guess_template. unfold bind at 1. destruct (g_lvl h) as [lvl|]; cbn [getkey]; [|intros H; injection H as <-; left; reflexivity].
  destruct (String.eqb lvl "L1").
  { destruct (g_vis h) as [v|]; [|discriminate]. destruct (String.eqb (take 3 v) "ENG"); [discriminate|]. destruct (String.eqb v "BORESITE"); [discriminate|]. destruct (String.eqb v "FFIELD"); [discriminate|].
    destruct (String.eqb v "DARK"); [intros H; left; exact (dark_raise _ _ _ _ _ _ H)|]. destruct (String.eqb v "PUPILIMG"); discriminate. }
  destruct (String.eqb lvl "L2a").
  { destruct (g_vis h) as [v|]; cbn [getkey bind]; [|intros H; injection H as <-; left; reflexivity]. destruct (String.eqb v "DARK"); [intros H; left; exact (dark_raise _ _ _ _ _ _ H)|].
    destruct (g_ispc h) as [[|]|]; cbn; try discriminate. intros H; injection H as <-; left; reflexivity. }
  destruct (String.eqb lvl "L2b").
  { destruct (g_vis h) as [v|]; cbn [getkey bind]; [|intros H; injection H as <-; left; reflexivity]. destruct (String.eqb v "ABSFLXFT" || String.eqb v "ABSFLXBT"); [discriminate|]. destruct (String.eqb v "CORETPUT"); discriminate. }
  destruct (String.eqb lvl "L3").
  { destruct (g_fsm h) as [f|]; cbn [getkey bind]; [|intros H; injection H as <-; left; reflexivity]. destruct (Qeq_bool f 1); discriminate. }
  intros H. injection H as <-. right. reflexivity.
Qed.
(** the other frames matter only through the number of settings *)
Lemma dark_same : forall h hs hs' pc many one, (forall n, n_settings (h :: hs) n <-> n_settings (h :: hs') n) -> forall l, dark_kind (h :: hs) h pc many one l <-> dark_kind (h :: hs') h pc many one l.
Proof.
  intros h hs hs' pc many one E l. split; intros H; (inversion H as [n NS Ei|n NS L Ei|NS Ei]; subst; apply E in NS); [exact (dk_pc _ _ _ _ _ _ NS Ei)|exact (dk_many _ _ _ _ _ _ NS L Ei)|exact (dk_one _ _ _ _ _ NS Ei)|exact (dk_pc _ _ _ _ _ _ NS Ei)|exact (dk_many _ _ _ _ _ _ NS L Ei)|exact (dk_one _ _ _ _ _ NS Ei)].
Qed.
Lemma picks_same1 : forall h hs hs', (forall n, n_settings (h :: hs) n <-> n_settings (h :: hs') n) -> forall l, picks (h :: hs) h l -> picks (h :: hs') h l.
Proof.
  intros h hs hs' E l H. destruct H; try (econstructor; eassumption); [eapply p_l1_dark|eapply p_l2a_dark]; try eassumption; apply (dark_same h hs hs' _ _ _ E); assumption.
Qed.
Lemma guess_other_frames : forall h hs hs' l, (forall n, n_settings (h :: hs) n <-> n_settings (h :: hs') n) -> (guess_template (h :: hs) = Ok l <-> guess_template (h :: hs') = Ok l).
Proof. intros h hs hs' l E. rewrite !guess_iff. split; apply picks_same1; [exact E|intros n; symmetry; apply E]. Qed.
Lemma guess_not_dark : forall h hs hs' v, g_vis h = Some v -> v <> "DARK" -> guess_template (h :: hs) = guess_template (h :: hs').
Proof. intros h hs hs' v E N. unfold guess_template. rewrite E. cbn [getkey bind]. rewrite (eqbN _ _ N). reflexivity. Qed.

(** * Filling *)
Section Fill.
Context {Dt : Type}.
Variable known : string -> bool.
Variable find : string -> result string.
Variable sm : bool.

Lemma entry_ok : forall k v v' b, fill_entry known sm find k v = Ok (v', b) <-> filled known sm find (k, v) (k, v') b.
Proof.
  intros k [s|] v' b; cbn [fill_entry]; [|split; [discriminate|intros H; inversion H]].
  destruct (contains "AUTOMATIC" (upper s)) eqn:Ea.
  - apply mentions_iff in Ea. destruct (known k) eqn:Ek; cbn [negb]; [|split; [discriminate|intros H; inversion H; subst; congruence]].
    destruct (find k) as [p|e] eqn:Ef.
    + split; [intros H; injection H as <- <-; exact (f_found _ _ _ _ _ _ Ea Ek Ef)|intros H; inversion H; subst; try congruence; contradiction].
    + destruct e; try (split; [discriminate|intros H; inversion H; subst; try congruence; contradiction]).
      destruct (contains "OPTIONAL" (upper s)) eqn:Eo.
      * apply mentions_iff in Eo. split; [intros H; injection H as <- <-; exact (f_optional _ _ _ _ _ Ea Ek Ef Eo)|intros H; inversion H; subst; try congruence; contradiction].
      * apply not_mentions in Eo. destruct sm eqn:Es; [split; [intros H; injection H as <- <-; exact (f_skip _ _ _ _ _ Ea Ek Ef Eo eq_refl)|intros H; inversion H; subst; try congruence; contradiction]|].
        split; [discriminate|intros H; inversion H; subst; try congruence; contradiction].
  - apply not_mentions in Ea. split; [intros H; injection H as <- <-; exact (f_keep _ _ _ _ _ Ea)|intros H; inversion H; subst; try reflexivity; contradiction].
Qed.
Lemma entry_raise : forall k v e, fill_entry known sm find k v = Raise e <-> unfilled known sm find (k, v) e.
Proof.
  intros k [s|] e; cbn [fill_entry]; [|split; [intros H; injection H as <-; constructor|intros H; inversion H; reflexivity]].
  destruct (contains "AUTOMATIC" (upper s)) eqn:Ea.
  - apply mentions_iff in Ea. destruct (known k) eqn:Ek; cbn [negb]; [|split; [intros H; injection H as <-; constructor; assumption|intros H; inversion H; subst; congruence]].
    destruct (find k) as [p|e'] eqn:Ef; [split; [discriminate|intros H; inversion H; subst; congruence]|].
    assert (O : e' <> ValueError -> (@Raise (option string * bool) e' = Raise e <-> unfilled known sm find (k, Some s) e)).
    { intros N. split; [intros H; injection H as <-; apply u_other; assumption|intros H; inversion H; subst; congruence]. }
    destruct e'; try (apply O; discriminate). clear O. destruct (contains "OPTIONAL" (upper s)) eqn:Eo.
    + apply mentions_iff in Eo. split; [discriminate|intros H; inversion H; subst; congruence].
    + apply not_mentions in Eo. destruct sm eqn:Es; [split; [discriminate|intros H; inversion H; subst; congruence]|]. split; [intros H; injection H as <-; apply u_missing; try assumption; reflexivity|intros H; inversion H; subst; congruence].
  - apply not_mentions in Ea. split; [discriminate|intros H; inversion H; subst; contradiction].
Qed.
Lemma list_ok : forall l l' b, fill_list known sm find l = (l', b, None) <-> filled_all known sm find l l' b.
Proof.
  induction l as [|[k v] t IH]; intros l' b; cbn [fill_list].
  - split; [intros H; injection H as <- <-; constructor|intros H; inversion H; reflexivity].
  - destruct (fill_entry known sm find k v) as [[v' b1]|e] eqn:E.
    + destruct (fill_list known sm find t) as [[t' b2] e2] eqn:Et. split.
      * intros H. injection H as <- <- ->. constructor; [apply entry_ok; exact E|apply IH; reflexivity].
      * intros H. inversion H as [|x x' b0 l0 l0' b' F FA]; subst. destruct x' as [k' w]. assert (k' = k) by (inversion F; reflexivity). subst k'. apply entry_ok in F. rewrite E in F. injection F as <- <-. apply IH in FA. injection FA as <- <- <-. reflexivity.
    + split; [discriminate|]. intros H. inversion H as [|x x' b0 l0 l0' b' F FA]; subst. destruct x' as [k' w]. assert (k' = k) by (inversion F; reflexivity). subst k'. apply entry_ok in F. congruence.
Qed.
Lemma list_raise : forall l l' b e, fill_list known sm find l = (l', b, Some e) <->
  exists pre pre' x post, l = pre ++ x :: post /\ l' = pre' ++ x :: post /\ filled_all known sm find pre pre' b /\ unfilled known sm find x e.
Proof.
  induction l as [|[k v] t IH]; intros l' b e; cbn [fill_list].
  - split; [discriminate|]. intros ([|] & ? & ? & ? & H & _); discriminate.
  - destruct (fill_entry known sm find k v) as [[v' b1]|e1] eqn:E.
    + destruct (fill_list known sm find t) as [[t' b2] e2] eqn:Et. split.
      * intros H. injection H as <- <- ->. destruct (proj1 (IH t' b2 e) eq_refl) as (pre & pre' & x & post & -> & -> & F & U). exists ((k, v) :: pre), ((k, v') :: pre'), x, post. split; [reflexivity|]. split; [reflexivity|]. split; [constructor; [apply entry_ok; exact E|exact F]|exact U].
      * intros (pre & pre' & x & post & H & -> & F & U). destruct pre as [|p pre]; cbn in H; injection H as <- ->; [apply entry_raise in U; congruence|].
        inversion F as [|x0 x' b0 l0 l0' b' F1 FA]; subst. destruct x' as [k' w]. assert (k' = k) by (inversion F1; reflexivity). subst k'. apply entry_ok in F1. rewrite E in F1. injection F1 as <- <-.
        assert (X : (t', b2, e2) = (l0' ++ x :: post, b', Some e)); [|injection X as -> -> ->; reflexivity]. apply IH. exists pre, l0', x, post. split; [reflexivity|]. split; [reflexivity|]. split; assumption.
    + split.
      * intros H. injection H as <- <- <-. exists [], [], (k, v), t. split; [reflexivity|]. split; [reflexivity|]. split; [constructor|apply entry_raise; exact E].
      * intros (pre & pre' & x & post & H & -> & F & U). destruct pre as [|p pre]; cbn in H; injection H as <- ->; [inversion F; subst; apply entry_raise in U; rewrite E in U; injection U as ->; reflexivity|].
        inversion F as [|x0 x' b0 l0 l0' b' F1 FA]; subst. destruct x' as [k' w]. assert (k' = k) by (inversion F1; reflexivity). subst k'. apply entry_ok in F1. congruence.
Qed.
Lemma fill_ok : forall s s', fill_step known sm find s = (s', None) <-> fill_spec known sm find s s'.
Proof.
  intros s s'. unfold fill_step, fill_spec. destruct (s_calibs s) as [l|]; [|split; [intros H; injection H as <-; reflexivity|intros ->; reflexivity]].
  destruct (fill_list known sm find l) as [[l' b] e] eqn:E. split.
  - intros H. injection H as <- ->. exists l', b. split; [apply list_ok; exact E|reflexivity].
  - intros (l1 & b1 & F & ->). apply list_ok in F. rewrite E in F. injection F as -> -> ->. reflexivity.
Qed.
Lemma fill_raise : forall s s' e, fill_step known sm find s = (s', Some e) <->
  exists pre pre' x post b, s_calibs s = Some (pre ++ x :: post) /\ s' = with_calibs s (pre' ++ x :: post) b /\ filled_all known sm find pre pre' b /\ unfilled known sm find x e.
Proof.
  intros s s' e. unfold fill_step. destruct (s_calibs s) as [l|]; [|split; [discriminate|intros (? & ? & ? & ? & ? & X & _); discriminate]].
  destruct (fill_list known sm find l) as [[l' b] e'] eqn:E. split.
  - intros H. injection H as <- ->. apply list_raise in E. destruct E as (pre & pre' & x & post & -> & -> & F & U). exists pre, pre', x, post, b. split; [reflexivity|]. split; [reflexivity|]. split; assumption.
  - intros (pre & pre' & x & post & b1 & H & -> & F & U). injection H as ->. assert (X : (l', b, e') = (pre' ++ x :: post, b1, Some e)); [|injection X as -> -> ->; reflexivity]. rewrite <- E. apply list_raise. exists pre, pre', x, post. repeat split; assumption.
Qed.
(** the spec is a function; what filling leaves *)
Lemma filled_all_fun : forall l l1 b1 l2 b2, filled_all known sm find l l1 b1 -> filled_all known sm find l l2 b2 -> l1 = l2 /\ b1 = b2.
Proof. intros l l1 b1 l2 b2 H1 H2. apply list_ok in H1, H2. rewrite H1 in H2. injection H2 as -> ->. split; reflexivity. Qed.
Lemma filled_all_keys : forall l l' b, filled_all known sm find l l' b -> map fst l' = map fst l.
Proof. intros l l' b. induction 1 as [|x x' b l l' b' F _ IH]; [reflexivity|]. cbn. rewrite IH. f_equal. inversion F; reflexivity. Qed.
Lemma filled_skip : forall l l' b, filled_all known sm find l l' b -> (b = true <-> exists k s, In (k, Some s) l /\ mentions "AUTOMATIC" s /\ find k = Raise ValueError /\ ~ mentions "OPTIONAL" s /\ sm = true).
Proof.
  intros l l' b. induction 1 as [|x x' b l l' b' F _ IH]; [split; [discriminate|intros (? & ? & [] & _)]|]. rewrite orb_true_iff, IH. split.
  - intros [Hb|(k & s & Hi & R)]; [|exists k, s; split; [right; exact Hi|exact R]]. inversion F; subst; try discriminate. exists k, s. split; [left; reflexivity|]. split; [assumption|]. split; [assumption|]. split; [assumption|reflexivity].
  - intros (k & s & [->|Hi] & M & Fd & No & Hs); [left|right; exists k, s; repeat split; assumption]. inversion F; subst; try reflexivity; try contradiction; congruence.
Qed.
(** nothing automatic: nothing changes *)
Lemma filled_fixed : forall l, (forall k v, In (k, v) l -> exists s, v = Some s /\ ~ mentions "AUTOMATIC" s) -> filled_all known sm find l l false.
Proof.
  induction l as [|[k v] t IH]; intros H; [constructor|]. destruct (H k v (or_introl eq_refl)) as (s & -> & N). change false with (false || false). constructor; [constructor; exact N|]. apply IH. intros k' v' Hi. apply (H k'). right. exact Hi.
Qed.
End Fill.

Lemma fill_marked : forall known sm find s s' l, fill_spec known sm find s s' -> s_calibs s = Some l -> ~ skipped s ->
  (skipped s' <-> exists k a, In (k, Some a) l /\ mentions "AUTOMATIC" a /\ find k = Raise ValueError /\ ~ mentions "OPTIONAL" a /\ sm = true).
Proof.
  intros known sm find s s' l F C NK. unfold fill_spec in F. rewrite C in F. destruct F as (l' & b & F & ->). rewrite <- (filled_skip _ _ _ _ _ _ F). unfold skipped, with_calibs. cbn [s_skip]. destruct b; split; try reflexivity; [|discriminate]. intros X. contradiction.
Qed.
Lemma fill_none : forall known sm find s l k, s_calibs s = Some l -> In (k, None) l -> forall s', fill_step known sm find s <> (s', None).
Proof.
  intros known sm find s l k C Hi s' H. apply fill_ok in H. unfold fill_spec in H. rewrite C in H. destruct H as (l' & b & F & _). clear C. induction F as [|x x' b l l' b' Fx _ IH]; [destruct Hi|]. destruct Hi as [->|Hi]; [inversion Fx|exact (IH Hi)].
Qed.

Lemma fill_now_iff : forall cfg g, fill_now cfg g = true <-> assoc "jit_calib_id" cfg = Some false \/ (assoc "jit_calib_id" cfg = None /\ g "jit_calib_id" = false).
Proof.
  intros cfg g. unfold fill_now. destruct (assoc "jit_calib_id" cfg) as [[|]|]; cbn; [|tauto|].
  - split; [discriminate|]. intros [H|[H _]]; discriminate.
  - rewrite negb_true_iff. split; [intros H; right; split; [reflexivity|exact H] | intros [H|[_ H]]; [discriminate|exact H]].
Qed.
