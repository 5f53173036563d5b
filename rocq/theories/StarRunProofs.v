(** Proofs on the search for the star: single calls and sequences of calls. *)
From Coq Require Import List Arith Bool ZArith String Lia.
From Verif Require Import Base DqModel DqProofs SortGroupProofs ComboSpec ComboProofs StarModel StarSpec StarProofs.
Import ListNotations.

Section Frames.
  Context {D L : Type}.
  Implicit Types fs : list (frame D L).
  Lemma sat_iff : forall z (f : frame D L), is_sat z f = true <-> f_sat f = Some z.
  Proof. intros z f. unfold is_sat. destruct (f_sat f) as [s|]; [rewrite Z.eqb_eq; split; congruence|split; discriminate]. Qed.
  Lemma mode_iff : forall (f : frame D L) m, mode_of f = Ok m <-> f_mode f = Some m /\ (f_sat f = Some 0%Z \/ f_sat f = Some 1%Z).
  Proof.
    intros f m. unfold mode_of. destruct (f_sat f) as [s|]; [|split; [discriminate|intros (_ & [H|H]); discriminate H]]. destruct (Z.eqb s 0 || Z.eqb s 1) eqn:E.
    - apply orb_true_iff in E. rewrite !Z.eqb_eq in E. destruct (f_mode f); split; intros H; try discriminate H.
      + split; [congruence|destruct E as [-> | ->]; auto].
      + destruct H as (H & _). congruence.
      + destruct H as (H & _). discriminate H.
    - apply orb_false_iff in E. rewrite !Z.eqb_neq in E. split; [discriminate|]. intros (_ & [H|H]); injection H as ->; tauto.
  Qed.
  (** frames of one mode, each science or spots *)
  Definition uniform fs (m : string) : Prop := (forall f, In f fs -> f_mode f = Some m) /\ (forall f, In f fs -> f_sat f = Some 0%Z \/ f_sat f = Some 1%Z).
  Lemma modes_iff : forall fs m, fs <> [] -> (uniform fs m <-> exists ms, mapR mode_of fs = Ok (m :: ms) /\ forallb (fun m' => String.eqb m' m) (m :: ms) = true).
  Proof.
    intros fs m NE. split.
    - intros (M & S0). destruct fs as [|f fs]; [congruence|].
      assert (MR : forall l : list (frame D L), (forall f, In f l -> f_mode f = Some m /\ (f_sat f = Some 0%Z \/ f_sat f = Some 1%Z)) -> mapR mode_of l = Ok (map (fun _ => m) l)).
      { induction l as [|x l IH]; intros H; [reflexivity|]. cbn [mapR map]. rewrite (proj2 (mode_iff x m) (H x (or_introl eq_refl))). cbn [bind]. rewrite (IH (fun y I => H y (or_intror I))). reflexivity. }
      exists (map (fun _ => m) fs). split; [apply (MR (f :: fs)); intros x I; split; [apply M; exact I|apply S0; exact I]|]. apply forallb_forall. intros x I. change (m :: map (fun _ : frame D L => m) fs) with (map (fun _ : frame D L => m) (f :: fs)) in I. apply in_map_iff in I. destruct I as (y & <- & _). apply String.eqb_refl.
    - intros (ms & MR & FB). apply mapR_iff in MR. rewrite forallb_forall in FB. split; intros f I; destruct (Forall2_in _ _ _ _ _ _ MR I) as (m' & I' & E); apply mode_iff in E; [|tauto]. apply FB in I'. apply String.eqb_eq in I'. subst. tauto.
  Qed.
  Lemma sieve_sat : forall fs z, sieve (fun f => f_sat f = Some z) fs (filter (is_sat z) fs).
  Proof. intros fs z. apply (sieve_filter _ _ (is_sat z)); [intros f; apply sat_iff|reflexivity]. Qed.
  Lemma sieve_sat_iff : forall fs z m, sieve (fun f => f_sat f = Some z) fs m <-> m = filter (is_sat z) fs.
  Proof. intros fs z m. apply sieve_filter. intros f. apply sat_iff. Qed.
  Lemma admissible_iff : forall fs m sci spots, admissible fs m sci spots <-> uniform fs m /\ sci = filter (is_sat 0) fs /\ spots = filter (is_sat 1) fs /\ sci <> [] /\ spots <> [].
  Proof. intros fs m sci spots. unfold admissible, uniform. rewrite !sieve_sat_iff. tauto. Qed.
  Lemma admissible_mode : forall fs m m' a b a' b', admissible fs m a b -> admissible fs m' a' b' -> m = m' /\ a = a' /\ b = b'.
  Proof.
    intros fs m m' a b a' b' H H'. apply admissible_iff in H, H'. destruct H as ((U & _) & A & B & NA & _). destruct H' as ((U' & _) & A' & B' & _). split; [|split; congruence]. destruct fs as [|f fs]; [cbn in A; congruence|]. pose proof (U f (or_introl eq_refl)). pose proof (U' f (or_introl eq_refl)). congruence.
  Qed.
  Lemma mark_located : forall loc fs, Forall2 (located loc) fs (map (mark loc) fs).
  Proof. intros loc. induction fs as [|f fs IH]; constructor; [|exact IH]. repeat split. Qed.
  Lemma located_mark : forall loc fs out, Forall2 (located loc) fs out <-> out = map (mark loc) fs.
  Proof.
    intros loc fs out. split; [|intros ->; apply mark_located]. intros F. induction F as [|f g fs out (A & B & E & H & I) F IH]; [reflexivity|]. cbn. rewrite <- IH. f_equal. destruct g. cbn in *. unfold mark. congruence.
  Qed.
End Frames.

Section Calls.
  Context {V D G L : Type}.
  Variable locate : G -> list D -> list D -> params V -> result L.
  Implicit Types (fs : list (frame D L)) (df : defaults V).
  Notation find_star := (find_star locate).
  Notation run := (run locate).
  Notation run1 := (run1 locate).
  Definition left_by (p : params V) (over : option (params V)) : params V * result unit := match over with None => (p, Ok tt) | Some new => update_parameters p new end.
  (** What a call does to admissible frames of a known mode *)
  Lemma find_star_case : forall df fs g over drop m sci spots p, NoDup (map fst df) -> admissible fs m sci spots -> In (m, p) df ->
    find_star df fs g over drop = (put df m (fst (left_by p over)),
      match snd (left_by p over) with Raise e => Raise e | Ok _ => match locate g (map f_data sci) (map f_data spots) (fst (left_by p over)) with Raise e => Raise e | Ok loc => Ok (map (mark loc) (if drop then sci else fs)) end end).
  Proof.
    intros df fs g over drop m sci spots p W AD I. pose proof AD as AD'. apply admissible_iff in AD'. destruct AD' as (U & ES & EP & NS & NP). assert (NF : fs <> []) by (intros ->; cbn in ES; congruence).
    apply (modes_iff fs m NF) in U. destruct U as (ms & MR & FB). unfold StarModel.find_star. rewrite MR, FB. cbn [negb]. rewrite <- ES, <- EP. destruct sci as [|f1 sci]; [congruence|]. destruct spots as [|f2 spots]; [congruence|]. rewrite (proj2 (find_iff df m p W) I). unfold left_by. destruct over as [new|].
    - destruct (update_parameters p new) as (p' & [u|e]); cbn [fst snd]; [|reflexivity]. destruct (locate _ _ _ _); reflexivity.
    - cbn [fst snd]. rewrite (put_same df m p W I). destruct (locate _ _ _ _); reflexivity.
  Qed.
  Lemma find_star_bad : forall df fs g over drop, NoDup (map fst df) -> ~ (exists m sci spots p, admissible fs m sci spots /\ In (m, p) df) -> exists e, find_star df fs g over drop = (df, Raise e).
  Proof.
    intros df fs g over drop W N. unfold StarModel.find_star. destruct (mapR mode_of fs) as [[|m ms]|e] eqn:MR; [eauto| |eauto]. destruct (forallb (fun m' => String.eqb m' m) (m :: ms)) eqn:FB; cbn [negb]; [|eauto].
    destruct (filter (is_sat 0) fs) as [|f1 sci] eqn:ES; [eauto|]. destruct (filter (is_sat 1) fs) as [|f2 spots] eqn:EP; [eauto|]. destruct (find m df) as [p|] eqn:F; [|eauto]. exfalso. apply N. exists m, (f1 :: sci), (f2 :: spots), p. split; [|apply find_iff; assumption]. apply admissible_iff. split; [|split; [auto|split; [auto|split; discriminate]]].
    apply modes_iff; [intros ->; discriminate ES|eauto].
  Qed.
  Theorem find_star_one_kind : forall df fs g over drop m, fs <> [] -> (forall f, In f fs -> f_mode f = Some m) -> ((forall f, In f fs -> f_sat f = Some 0%Z) \/ (forall f, In f fs -> f_sat f = Some 1%Z)) ->
    find_star df fs g over drop = (df, Raise ValueError).
  Proof.
    intros df fs g over drop m NE M K. assert (U : uniform fs m) by (split; [exact M|intros f I; destruct K as [K|K]; [left|right]; exact (K f I)]).
    apply (modes_iff fs m NE) in U. destruct U as (ms & MR & FB). unfold StarModel.find_star. rewrite MR, FB. cbn [negb].
    assert (Z : forall z z', z <> z' -> (forall f, In f fs -> f_sat f = Some z) -> filter (is_sat z') fs = []).
    { intros z z' N A. destruct (filter (is_sat z') fs) as [|f l] eqn:E; [reflexivity|exfalso]. assert (I : In f (filter (is_sat z') fs)) by (rewrite E; left; reflexivity). apply filter_In in I. destruct I as (I & S0). apply sat_iff in S0. pose proof (A f I). congruence. }
    destruct K as [K|K]; [rewrite (Z 0%Z 1%Z ltac:(lia) K)|rewrite (Z 1%Z 0%Z ltac:(lia) K); reflexivity]. destruct (filter (is_sat 0) fs); reflexivity.
  Qed.
  Theorem find_star_two_modes : forall df fs g over drop f f' m m', (forall f, In f fs -> exists m, f_mode f = Some m) -> (forall f, In f fs -> f_sat f = Some 0%Z \/ f_sat f = Some 1%Z) ->
    In f fs -> In f' fs -> f_mode f = Some m -> f_mode f' = Some m' -> m <> m' -> find_star df fs g over drop = (df, Raise AssertionError).
  Proof.
    intros df fs g over drop f f' m m' M S0 I I' E E' N. unfold StarModel.find_star. destruct (mapR mode_of fs) as [l|e] eqn:MR.
    - pose proof MR as F. apply mapR_iff in F. destruct l as [|m0 ms]; [inversion F; subst; destruct I|]. destruct (forallb (fun m1 => String.eqb m1 m0) (m0 :: ms)) eqn:FB; [exfalso|reflexivity]. rewrite forallb_forall in FB.
      destruct (Forall2_in _ _ _ _ _ _ F I) as (a & A & X). destruct (Forall2_in _ _ _ _ _ _ F I') as (b & B & Y). apply mode_iff in X, Y. apply FB, String.eqb_eq in A. apply FB, String.eqb_eq in B. destruct X as (X & _), Y as (Y & _). congruence.
    - exfalso. assert (T : exists l, mapR (@mode_of D L) fs = Ok l) by (apply mapR_total; intros x X; destruct (M x X) as (mx & MX); exists mx; apply mode_iff; split; [exact MX|exact (S0 x X)]). destruct T as (l & T). congruence.
  Qed.
  Lemma put_changed : forall df m p p', NoDup (map fst df) -> In (m, p) df -> changed df m p' (put df m p').
  Proof. intros df m p p' W I. assert (IK : In m (map fst df)) by (apply in_key; eauto). split; [apply put_keys; exact IK|]. apply put_in; assumption. Qed.
  Lemma left_spec : forall p over, wf p -> exists pre, match over with None => pre = [] /\ left_by p over = (p, Ok tt) | Some new => applied p new pre (snd (left_by p over) = Ok tt) end /\ overridden p pre (fst (left_by p over)) /\ (snd (left_by p over) = Ok tt \/ snd (left_by p over) = Raise KeyError).
  Proof.
    intros p [new|] W; unfold left_by.
    - destruct (update_parameters p new) as (p' & r) eqn:E. destruct (update_spec p new p' r W E) as (pre & A & O & R). exists pre. auto.
    - exists []. split; [auto|]. split; [apply overridden_refl; exact W|auto].
  Qed.
  Theorem find_star_spec : forall df fs g over drop df' r m sci spots p, wfd df -> find_star df fs g over drop = (df', r) -> admissible fs m sci spots -> In (m, p) df ->
    exists pre p' (all : Prop), match over with None => pre = [] /\ p' = p /\ df' = df /\ all | Some new => applied p new pre all end /\ overridden p pre p' /\ changed df m p' df'
      /\ (~ all -> r = Raise KeyError)
      /\ (all -> match locate g (map f_data sci) (map f_data spots) p' with Raise e => r = Raise e | Ok loc => exists out, r = Ok out /\ Forall2 (located loc) (if drop then sci else fs) out end).
  Proof.
    intros df fs g over drop df' r m sci spots p (W & WP) E AD I. rewrite (find_star_case df fs g over drop m sci spots p W AD I) in E. injection E as <- <-. destruct (left_spec p over (WP m p I)) as (pre & A & O & R). exists pre, (fst (left_by p over)), (snd (left_by p over) = Ok tt). split.
    - destruct over as [new|]; [exact A|]. destruct A as (-> & ->). cbn [fst snd]. rewrite (put_same df m p W I). auto.
    - split; [exact O|]. split; [exact (put_changed df m p _ W I)|]. split.
      + intros N. destruct R as [R|R]; [contradiction|]. rewrite R. reflexivity.
      + intros ->. destruct (locate _ _ _ _); [|reflexivity]. eexists. split; [reflexivity|apply mark_located].
  Qed.
  Theorem find_star_refused : forall df fs g over drop df' r, wfd df -> find_star df fs g over drop = (df', r) -> ~ (exists m sci spots p, admissible fs m sci spots /\ In (m, p) df) -> df' = df /\ exists e, r = Raise e.
  Proof. intros df fs g over drop df' r (W & _) E N. destruct (find_star_bad df fs g over drop W N) as (e & E'). rewrite E in E'. injection E' as -> ->. eauto. Qed.

  (** ** Sequences *)
  Definition reaches df df' : Prop := map fst df' = map fst df /\ forall m p p', In (m, p) df -> In (m, p') df' -> exists l, overridden p l p'.
  Lemma changed_wfd : forall df m p pre p' df', wfd df -> In (m, p) df -> overridden p pre p' -> changed df m p' df' -> wfd df'.
  Proof.
    intros df m p pre p' df' (W & WP) I O (K & C). split; [rewrite K; exact W|]. intros m' q J. apply C in J. destruct J as [(-> & ->)|(_ & J)]; [exact (overridden_wf _ _ _ (WP m p I) O)|exact (WP m' q J)].
  Qed.
  Lemma admissible_dec : forall fs df, (exists m sci spots p, admissible fs m sci spots /\ In (m, p) df) \/ ~ (exists m sci spots p, admissible fs m sci spots /\ In (m, p) df).
  Proof.
    intros fs df. destruct (mapR mode_of fs) as [[|m ms]|e] eqn:MR.
    - right. intros (m & a & b & p & AD & _). apply admissible_iff in AD. destruct AD as (U & EA & _ & NA & _). assert (NF : fs <> []) by (intros ->; cbn in EA; congruence). apply (modes_iff fs m NF) in U. destruct U as (ms & E & _). congruence.
    - destruct (forallb (fun m' => String.eqb m' m) (m :: ms)) eqn:FB.
      + destruct (filter (is_sat 0) fs) as [|f1 sci] eqn:ES; [right; intros (m' & a & b & p & AD & _); apply admissible_iff in AD; destruct AD as (_ & EA & _ & NA & _); congruence|].
        destruct (filter (is_sat 1) fs) as [|f2 spots] eqn:EP; [right; intros (m' & a & b & p & AD & _); apply admissible_iff in AD; destruct AD as (_ & _ & EA & _ & NA); congruence|].
        assert (AD : admissible fs m (f1 :: sci) (f2 :: spots)). { apply admissible_iff. split; [|split; [auto|split; [auto|split; discriminate]]]. apply modes_iff; [intros ->; discriminate ES|eauto]. }
        destruct (in_dec string_dec m (map fst df)) as [I|N].
        * left. apply in_key in I. destruct I as (p & I). exists m, (f1 :: sci), (f2 :: spots), p. auto.
        * right. intros (m' & a & b & p & AD' & I). destruct (admissible_mode _ _ _ _ _ _ _ AD AD') as (<- & _). apply N. apply in_key. eauto.
      + right. intros (m' & a & b & p & AD & _). apply admissible_iff in AD. destruct AD as (U & EA & _ & NA & _). assert (NF : fs <> []) by (intros ->; cbn in EA; congruence). apply (modes_iff fs m' NF) in U. destruct U as (ms' & E & FB'). rewrite MR in E. assert (m = m') by congruence. assert (ms = ms') by congruence. subst. congruence.
    - right. intros (m & a & b & p & AD & _). apply admissible_iff in AD. destruct AD as (U & EA & _ & NA & _). assert (NF : fs <> []) by (intros ->; cbn in EA; congruence). apply (modes_iff fs m NF) in U. destruct U as (ms & E & _). congruence.
  Qed.
  (** One call, seen from one mode. *)
  Lemma run1_spec : forall df c df' r, wfd df -> run1 df c = (df', r) -> wfd df' /\ map fst df' = map fst df /\ forall m p, In (m, p) df -> exists l p', leaves df c m l /\ In (m, p') df' /\ overridden p l p'.
  Proof.
    intros df c df' r W E. unfold StarModel.run1 in E. pose proof W as (WN & WP). destruct (admissible_dec (c_frames c) df) as [(m0 & sci & spots & p0 & AD & I0)|N].
    - destruct (find_star_spec _ _ _ _ _ _ _ _ _ _ _ W E AD I0) as (pre & p0' & al & A & O & CH & _). pose proof CH as (K & C). split; [exact (changed_wfd _ _ _ _ _ _ W I0 O CH)|]. split; [exact K|]. intros m p I. destruct (String.eqb_spec m m0) as [->|NE].
      + rewrite (key_fun _ _ _ _ WN I I0). exists pre, p0'. split; [|split; [apply C; left; auto|exact O]]. destruct (c_over c) as [new|] eqn:OV.
        * left. exists new, sci, spots, p0, al. auto.
        * right. split; [exact (proj1 A)|]. intros (new & ? & ? & ? & H & _). congruence.
      + exists [], p. split; [|split; [apply C; right; auto|apply overridden_refl; exact (WP m p I)]]. right. split; [reflexivity|]. intros (new & a & b & q & _ & AD' & _). destruct (admissible_mode _ _ _ _ _ _ _ AD AD') as (EM & _). congruence.
    - destruct (find_star_refused _ _ _ _ _ _ _ W E N) as (-> & e & _). split; [exact W|]. split; [reflexivity|]. intros m p I. exists [], p. split; [|split; [exact I|apply overridden_refl; exact (WP m p I)]]. right. split; [reflexivity|]. intros (new & a & b & q & _ & AD & J). apply N. exists m, a, b, q. auto.
  Qed.
  Lemma leaves_back : forall df df' (c : call V D G L) m l, map fst df' = map fst df -> (forall p', In (m, p') df' -> exists p k, In (m, p) df /\ overridden p k p') -> leaves df' c m l -> leaves df c m l.
  Proof.
    intros df df' c m l K H [(new & sci & spots & p' & al & OV & AD & I & A)|(-> & N)].
    - left. destruct (H p' I) as (p & k & I' & O). exists new, sci, spots, p, al. split; [exact OV|]. split; [exact AD|]. split; [exact I'|]. refine (applied_ext p p' new l al _ A). intros y. exact (overridden_good _ _ _ O y).
    - right. split; [reflexivity|]. intros (new & a & b & q & OV & AD & J). apply N. assert (IK : In m (map fst df')) by (rewrite K; apply in_key; eauto). apply in_key in IK. destruct IK as (q' & J'). exists new, a, b, q'. auto.
  Qed.
  (** The parameters after any calls: the first ones under all overrides left so far. *)
  Theorem history : forall cs df df' rs, wfd df -> run df cs = (df', rs) -> forall m p, In (m, p) df -> exists ls p', Forall2 (fun c l => leaves df c m l) (cs : list (call V D G L)) ls /\ In (m, p') df' /\ overridden p (List.concat ls) p'.
  Proof.
    induction cs as [|c cs IH]; intros df df' rs W E m p I.
    - cbn in E. injection E as <- <-. exists [], p. split; [constructor|]. split; [exact I|]. apply overridden_refl. exact (proj2 W m p I).
    - cbn [StarModel.run] in E. destruct (run1 df c) as (df1 & r) eqn:E1. destruct (run df1 cs) as (df2 & rs') eqn:E2. injection E as <- <-. destruct (run1_spec df c df1 r W E1) as (W1 & K1 & H1). destruct (H1 m p I) as (l & p1 & LV & I1 & O1). destruct (IH df1 df2 rs' W1 E2 m p1 I1) as (ls & p' & F & I' & O'). exists (l :: ls), p'. split.
      + constructor; [exact LV|]. refine (Forall2_impl _ _ _ _ _ _ _ F). intros c0 l0 _ LV0. refine (leaves_back df df1 c0 m l0 K1 _ LV0). intros q J. exists p, l. split; [exact I|]. rewrite (key_fun _ _ _ _ (proj1 W1) J I1). exact O1.
      + split; [exact I'|]. cbn [List.concat]. exact (overridden_trans _ _ _ _ _ O1 O').
  Qed.
  (** Without overrides nothing changes. *)
  Theorem untouched : forall df fs g drop df' r, wfd df -> find_star df fs g None drop = (df', r) -> df' = df.
  Proof.
    intros df fs g drop df' r W E. destruct (admissible_dec fs df) as [(m & sci & spots & p & AD & I)|N].
    - destruct (find_star_spec _ _ _ _ _ _ _ _ _ _ _ W E AD I) as (pre & p' & al & (_ & _ & -> & _) & _). reflexivity.
    - exact (proj1 (find_star_refused _ _ _ _ _ _ _ W E N)).
  Qed.
  (** A call with overrides is repeated by one without. *)
  Theorem leak : forall df fs g new drop df' out, wfd df -> find_star df fs g (Some new) drop = (df', Ok out) -> find_star df' fs g None drop = (df', Ok out).
  Proof.
    intros df fs g new drop df' out W E. destruct (admissible_dec fs df) as [(m & sci & spots & p & AD & I)|N].
    - pose proof (proj1 W) as WN. pose proof (find_star_case df fs g (Some new) drop m sci spots p WN AD I) as E'. rewrite E in E'. cbn [left_by] in E'. destruct (update_parameters p new) as (p' & [u|e]) eqn:U; cbn [fst snd] in E'; [|congruence].
      assert (ED : df' = put df m p') by congruence. destruct (put_changed df m p p' WN I) as (K & C). assert (WN' : NoDup (map fst df')) by (rewrite ED, K; exact WN). assert (I' : In (m, p') df') by (rewrite ED; apply C; left; auto).
      rewrite (find_star_case df' fs g None drop m sci spots p' WN' AD I'). cbn [left_by fst snd]. rewrite (put_same df' m p' WN' I'). congruence.
    - destruct (find_star_refused _ _ _ _ _ _ _ W E N) as (_ & e & H). discriminate H.
  Qed.
End Calls.
(** ** Checking *)
Theorem validate_never : forall v, validate v <> Ok true.
Proof. intros [d|]; cbn; [|discriminate]. destruct (find "offset" d) as [[d'|]|]; discriminate. Qed.
Theorem validate_raises : forall d s, NoDup (map fst d) -> In ("offset"%string, VDict s) d -> validate (VDict d) = Raise KeyError.
Proof. intros d s N I. cbn. rewrite (proj2 (find_iff d "offset" (VDict s) N) I). reflexivity. Qed.
