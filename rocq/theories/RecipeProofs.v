(** Proofs: well-typed recipes call their steps the way they expect. *)
From Coq Require Import List Arith Bool String Lia.
From Verif Require Import Base WalkModel WalkSpec WalkStrProofs WalkProofs WalkRunProofs WalkGenProofs RecipeData RecipeModel RecipeSpec.
Import ListNotations.
Local Open Scope string_scope.
Local Open Scope list_scope.

(** * Binding *)
Lemma bind_pos_ok : forall {C} (args : list (option C)) ps r, bind_pos ps args = Ok r <->
  List.length args <= List.length ps /\ r = (combine ps (map BPos args), skipn (List.length args) ps).
Proof.
  intros C; induction args as [|a args IH]; intros [|p ps] r; cbn [bind_pos List.length skipn map combine].
  - split; [intros [= <-]; split; [lia|reflexivity] | intros [_ ->]; reflexivity].
  - split; [intros [= <-]; split; [lia|reflexivity] | intros [_ ->]; reflexivity].
  - split; [discriminate | intros [H _]; lia].
  - destruct (bind_pos ps args) as [r0|e] eqn:E; cbn [bind].
    + apply (proj1 (IH _ _)) in E as [L ->]. cbn [fst snd]. split; [intros [= <-]; split; [lia|reflexivity] | intros [_ ->]; reflexivity].
    + split; [discriminate | intros [L ->]]. assert (H := proj2 (IH ps _) (conj (le_S_n _ _ L) eq_refl)). rewrite E in H; discriminate.
Qed.
Lemma assoc_none : forall {X} k (l : list (string * X)), assoc k l = None <-> ~ In k (map fst l).
Proof.
  intros X k l; induction l as [|[a x] l IH]; cbn [assoc map fst In]; [tauto|]. destruct (String.eqb_spec a k) as [->|N].
  - split; [discriminate | intros H; exfalso; apply H; left; reflexivity].
  - rewrite IH. tauto.
Qed.
Lemma bind_rest_ok : forall {C} ps kw (r : list (param * binding C)), bind_rest ps kw = Ok r <->
  (forall p, In p ps -> p_req p = true -> In (p_name p) (map fst kw)) /\ r = map (rest_of kw) ps.
Proof.
  intros C ps kw; induction ps as [|p ps IH]; intros r; cbn [bind_rest map].
  - split; [intros [= <-]; split; [intros p []|reflexivity] | intros [_ ->]; reflexivity].
  - unfold rest_of at 1. destruct (assoc (p_name p) kw) as [v|] eqn:A.
    + assert (HI : In (p_name p) (map fst kw)). { destruct (in_dec string_dec (p_name p) (map fst kw)) as [i|n]; [exact i|]. apply assoc_none in n. congruence. }
      destruct (bind_rest ps kw) as [r0|e]; cbn [bind].
      * destruct (proj1 (IH r0) eq_refl) as [H ->]. split.
        -- intros [= <-]. split; [intros q [<-|Hq] R; [exact HI | exact (H q Hq R)] | reflexivity].
        -- intros [_ ->]; reflexivity.
      * split; [discriminate | intros [H _]]. assert (Z := proj2 (IH _) (conj (fun q Hq => H q (or_intror Hq)) eq_refl)). discriminate.
    + apply assoc_none in A. destruct (p_req p) eqn:R.
      * split; [discriminate | intros [H _]; exfalso; exact (A (H p (or_introl eq_refl) R))].
      * destruct (bind_rest ps kw) as [r0|e]; cbn [bind].
        -- destruct (proj1 (IH r0) eq_refl) as [H ->]. split.
           ++ intros [= <-]. split; [intros q [<-|Hq] Q1; [congruence | exact (H q Hq Q1)] | reflexivity].
           ++ intros [_ ->]; reflexivity.
        -- split; [discriminate | intros [H _]]. assert (Z := proj2 (IH _) (conj (fun q Hq => H q (or_intror Hq)) eq_refl)). discriminate.
Qed.
Lemma keys_in : forall (kw : list (string * kv)) names, forallb (fun k => existsb (String.eqb (fst k)) names) kw = true <-> forall k, In k (map fst kw) -> In k names.
Proof.
  intros kw names. rewrite forallb_forall. split.
  - intros H k Hk. apply in_map_iff in Hk as (x & <- & Hx). specialize (H x Hx). apply existsb_exists in H as (y & Hy & E). apply String.eqb_eq in E. subst y. exact Hy.
  - intros H x Hx. apply existsb_exists. exists (fst x). split; [apply H, in_map, Hx | apply String.eqb_refl].
Qed.
Lemma bind_ok : forall {C} ps (args : list (option C)) kw b, bind_call ps args kw = Ok b <->
  binds ps (List.length args) (map fst kw) /\ b = combine ps (map BPos args) ++ map (rest_of kw) (skipn (List.length args) ps).
Proof.
  intros C ps args kw b. unfold bind_call, binds. destruct (bind_pos ps args) as [r|e] eqn:E; cbn [bind].
  - apply (proj1 (bind_pos_ok _ _ _)) in E as [L ->]. cbn [fst snd].
    destruct (forallb _ kw) eqn:F.
    + assert (F1 := proj1 (keys_in _ _) F). clear F. destruct (bind_rest (skipn (List.length args) ps) kw) as [r2|e] eqn:E2; cbn [bind].
      * apply (proj1 (bind_rest_ok _ _ _)) in E2 as [H ->]. split; [intros [= <-]; split; [split; [exact L|split; assumption]|reflexivity] | intros [_ ->]; reflexivity].
      * split; [discriminate|]. intros [(_ & _ & H) _]. rewrite (proj2 (bind_rest_ok _ _ _) (conj H eq_refl)) in E2; discriminate.
    + split; [discriminate|]. intros [(_ & H & _) _]. assert (F1 := proj2 (keys_in _ _) H). congruence.
  - split; [discriminate|]. intros [(L & _) _]. rewrite (proj2 (bind_pos_ok _ _ _) (conj L eq_refl)) in E; discriminate.
Qed.
Lemma bind_type_error : forall {C} ps (args : list (option C)) kw e, bind_call ps args kw = Raise e -> e = TypeError.
Proof.
  intros C ps args kw e. unfold bind_call.
  assert (P : forall ps (args : list (option C)) e, bind_pos ps args = Raise e -> e = TypeError).
  { clear. intros ps args; revert ps; induction args as [|a args IH]; intros [|p ps] e; cbn [bind_pos]; try discriminate; [intros [= <-]; reflexivity|].
    destruct (bind_pos ps args) eqn:E; cbn [bind]; [discriminate|]. intros [= <-]. exact (IH _ _ E). }
  assert (R : forall ps kw e, @bind_rest C ps kw = Raise e -> e = TypeError).
  { clear. intros ps kw e; induction ps as [|p ps IH]; cbn [bind_rest]; [discriminate|].
    destruct (assoc (p_name p) kw); [|destruct (p_req p); [intros [= <-]; reflexivity|]]; destruct (bind_rest ps kw); cbn [bind]; try discriminate; exact IH. }
  destruct (bind_pos ps args) eqn:E; cbn [bind]; [|intros [= <-]; exact (P _ _ _ E)].
  destruct (forallb _ kw); [|intros [= <-]; reflexivity]. destruct (bind_rest (snd a) kw) eqn:E2; cbn [bind]; [discriminate|]. intros [= <-]. exact (R _ _ _ E2).
Qed.

(** * Typing of steps *)
Section Typing.
Context {Dt Cal : Type}.
Notation frame := (frame Dt).
Notation cur := (cur Dt).
Notation event := (event Dt Cal).
Notation wst := (wst Dt Cal).
Variable lookup : list frame -> refr Dt -> string -> result string.
Variable cal_load : string -> string -> result Cal.
Variable img_load : string -> result frame.
Variable sem : string -> option (cur -> list (option Cal) -> list (string * kv) -> result cur).
Variable cls : Cal -> string.
Hypothesis reg : regular cal_load sem cls.

(** an entry fits a parameter *)
Definition fine_entry (jit : bool) (kw : list (string * kv)) (p : param) (kv : string * option string) : Prop :=
  In (fst kv) (p_cls p) /\ known (fst kv) = true
  /\ match snd kv with
     | None => jit = false /\ no_cal_ok kw p
     | Some a => jit = true -> mentions "AUTOMATIC" a -> mentions "OPTIONAL" a -> no_cal_ok kw p
     end.
Definition fine_rest (kw : list (string * kv)) (p : param) : Prop :=
  (In (p_name p) (map fst kw) /\ p_cls p = []) \/ (~ In (p_name p) (map fst kw) /\ p_req p = false /\ no_cal_ok kw p).
Definition entries (s : step) : list (string * option string) := match s_calibs s with Some l => l | None => [] end.
Definition fine_call (jit : bool) (ps : list param) (s : step) : Prop :=
  exists ps1 ps2, ps = ps1 ++ ps2 /\ Forall2 (fine_entry jit (kwargs s)) ps1 (entries s)
  /\ (forall k, In k (map fst (kwargs s)) -> In k (map p_name ps2)) /\ Forall (fine_rest (kwargs s)) ps2.
Definition fine_step (jit : bool) (s : step) (t t' : ty) : Prop :=
  (is_save s /\ (exists x, suffix_of s x) /\ t <> TNone /\ t' = t)
  \/ (~ is_save s /\ ~ skipped s /\ (jit = true -> s_calibs s <> None -> t <> TNone)
      /\ exists ps, In (s_name s, ps) sigs /\ fine_call jit ps s /\ effect (s_name s) (kwargs s) t = Some t').
Inductive fine (jit : bool) : list step -> ty -> ty -> Prop :=
| fi_nil : forall t, fine jit [] t t
| fi_cons : forall s l t t1 t2, fine_step jit s t t1 -> fine jit l t1 t2 -> fine jit (s :: l) t t2.

Lemma Forall2_len : forall {A B} (P : A -> B -> Prop) l m, Forall2 P l m -> List.length l = List.length m.
Proof. intros A B P l m F; induction F; cbn [List.length]; congruence. Qed.

(** entries after resolution *)
Lemma entry_resolved : forall find kw p kv kv' b, fine_entry true kw p kv -> filled known false find kv kv' b ->
  b = false /\ fine_entry false kw p kv'.
Proof.
  intros find kw p kv kv' b (H1 & H2 & H3) F. inversion F as [k s0 N E1 E2 E3 | k s0 q M K Q0 E1 E2 E3 | k s0 M K Q0 O E1 E2 E3 | k s0 M K Q0 O E0 E1 E2 E3]; subst kv kv'; cbn [fst snd] in *; try discriminate.
  - split; [reflexivity|]. split; [exact H1|]. split; [exact H2|]. intros J; discriminate.
  - split; [reflexivity|]. split; [exact H1|]. split; [exact H2|]. intros J; discriminate.
  - split; [reflexivity|]. split; [exact H1|]. split; [exact H2|]. split; [reflexivity|]. exact (H3 eq_refl M O).
Qed.
Lemma entries_resolved : forall find kw ps l l' b, Forall2 (fine_entry true kw) ps l -> filled_all known false find l l' b ->
  b = false /\ Forall2 (fine_entry false kw) ps l'.
Proof.
  intros find kw ps l l' b F; revert l' b; induction F as [|p x ps l H F IH]; intros l' b A; inversion A as [|x0 x' b0 m m' b1 A1 A2 E1 E2 E3]; subst; [split; [reflexivity|constructor]|].
  destruct (entry_resolved _ _ _ _ _ _ H A1) as [-> H']. destruct (IH _ _ A2) as [-> H'']. split; [reflexivity|constructor; assumption].
Qed.
Lemma arg_ok : forall kw p kv a, fine_entry false kw p kv -> cal_arg known cal_load kv a -> ok_binding cls kw (p, BPos a).
Proof.
  intros kw p kv a (H1 & H2 & H3) A. destruct reg as (_ & _ & RC). inversion A as [k K E1 E2 | k q c K L E1 E2]; subst kv a; cbn [fst snd] in *.
  - exact (proj2 H3).
  - unfold ok_binding; cbn [fst snd]. rewrite (RC _ _ _ L). exact H1.
Qed.
Lemma args_ok : forall kw ps l args, Forall2 (fine_entry false kw) ps l -> Forall2 (cal_arg known cal_load) l args -> Forall (ok_binding cls kw) (combine ps (map BPos args)).
Proof.
  intros kw ps l args F; revert args; induction F as [|p x ps l H F IH]; intros args A; inversion A as [|y a m args' A1 A2]; subst; cbn [map combine]; constructor.
  - exact (arg_ok _ _ _ _ H A1).
  - apply IH; exact A2.
Qed.
Lemma rest_ok : forall kw ps, Forall (fine_rest kw) ps -> Forall (ok_binding cls kw) (map (rest_of kw) ps).
Proof.
  intros kw ps F; induction F as [|p ps H F IH]; cbn [map]; constructor; [|exact IH]. unfold rest_of, ok_binding; cbn [fst snd].
  destruct H as [[H1 H2]|(H1 & H2 & H3)].
  - destruct (assoc (p_name p) kw) eqn:A; [exact H2|]. apply assoc_none in A. contradiction.
  - apply assoc_none in H1. rewrite H1. exact H3.
Qed.
Lemma call_good : forall ps1 ps2 kw l args, Forall2 (fine_entry false kw) ps1 l -> Forall2 (cal_arg known cal_load) l args ->
  (forall k, In k (map fst kw) -> In k (map p_name ps2)) -> Forall (fine_rest kw) ps2 ->
  exists b, bind_call (ps1 ++ ps2) args kw = Ok b /\ Forall (ok_binding cls kw) b.
Proof.
  intros ps1 ps2 kw l args F A K R. assert (L : List.length args = List.length ps1) by (rewrite <- (Forall2_len _ _ _ A); symmetry; apply (Forall2_len _ _ _ F)).
  eexists. split.
  - apply bind_ok. split; [|reflexivity]. rewrite L. unfold binds. rewrite skipn_app, skipn_all, Nat.sub_diag, app_nil_l. cbn [skipn].
    split; [rewrite app_length; lia|]. split; [exact K|]. intros p Hp Q1. rewrite Forall_forall in R. destruct (R p Hp) as [[H _]|(_ & H & _)]; [exact H|congruence].
  - rewrite L, skipn_app, skipn_all, Nat.sub_diag, app_nil_l. cbn [skipn]. apply Forall_app. split; [|exact (rest_ok _ _ R)].
    assert (C : combine (ps1 ++ ps2) (map BPos args) = combine ps1 (map (@BPos Cal) args)).
    { clear - L. assert (L' : List.length (map (@BPos Cal) args) = List.length ps1) by (rewrite map_length; exact L). revert L'. generalize (map (@BPos Cal) args). clear.
      induction ps1 as [|p ps1 IH]; intros [|b m] E; cbn [List.length app combine] in *; try discriminate; [destruct ps2; reflexivity |]. f_equal. apply IH. lia. }
    rewrite C. exact (args_ok _ _ _ _ F A).
Qed.

(** resolution keeps the type *)
Lemma same_ty : forall c c' t r, has_ty c t -> same_kind c c' -> frames_of c' = map (set_recipe (Dt := Dt) r) (frames_of c) -> has_ty c' t.
Proof.
  intros c c' t r H K F. destruct t as [|l|]; cbn [has_ty] in *.
  - subst c. destruct K.
  - destruct H as (fs & -> & N & H). destruct c' as [|l'|f']; cbn [same_kind frames_of] in *; try contradiction. exists l'. split; [reflexivity|]. subst l'.
    split; [destruct fs; [contradiction|discriminate] |]. intros f Hf. apply in_map_iff in Hf as (f0 & <- & Hf0). exact (H f0 Hf0).
  - destruct H as (f & ->). destruct c' as [|l'|f']; cbn [same_kind] in *; try contradiction. exists f'; reflexivity.
Qed.
Lemma saved_ty : forall dir x (c c' : cur) (ev : list event) t, has_ty c t -> saved dir x c c' ev -> has_ty c' t.
Proof.
  intros dir x c c' ev t H (K & F & _). destruct t as [|l|]; cbn [has_ty] in *.
  - subst c. destruct K.
  - destruct H as (fs & -> & N & H). destruct c' as [|l'|f']; cbn [same_kind frames_of] in *; try contradiction. exists l'. split; [reflexivity|].
    split; [intros ->; inversion F; subst; contradiction|].
    clear - F H. induction F as [|f f' fs l' M F IH]; intros g Hg; [destruct Hg|]. destruct Hg as [<-|Hg].
    + destruct M as [(_ & _ & E & _) _]. rewrite E. apply H. left; reflexivity.
    + apply IH; [intros f0 H0; apply H; right; exact H0 | exact Hg].
  - destruct H as (f & ->). destruct c' as [|l'|f']; cbn [same_kind] in *; try contradiction. exists f'; reflexivity.
Qed.

Lemma resolved_good : forall g db mk s s1 c c1 l1 args t t' ps, g "skip_missing_cal_steps" = false ->
  s_calibs s <> None -> In (s_name s, ps) sigs -> fine_call (negb (fill_now (r_cfg (mk s)) g)) ps s -> effect (s_name s) (kwargs s) t = Some t' -> has_ty c t ->
  resolved known lookup (negb (fill_now (r_cfg (mk s)) g)) g db mk s s1 c c1 -> s_calibs s1 = Some l1 -> Forall2 (cal_arg known cal_load) l1 args ->
  has_ty c1 t /\ good_call cls (s_name s) c1 args (kwargs s).
Proof.
  intros g db mk s s1 c c1 l1 args t t' ps SM NC I (ps1 & ps2 & -> & F & K & R) E T RS C1 A. unfold entries in F. destruct (s_calibs s) as [l|] eqn:CS; [|contradiction].
  assert (X : has_ty c1 t /\ Forall2 (fine_entry false (kwargs s)) ps1 l1).
  { unfold resolved in RS. destruct (negb (fill_now (r_cfg (mk s)) g)) eqn:J.
    - destruct RS as (f & HF & FS & SK & FR). split; [exact (same_ty _ _ _ _ T SK FR)|]. unfold fill_spec in FS. rewrite CS in FS. destruct FS as (l' & b & FA & ->). rewrite SM in FA.
      unfold with_calibs in C1; cbn [s_calibs] in C1. injection C1 as ->. exact (proj2 (entries_resolved _ _ _ _ _ _ F FA)).
    - destruct RS as [-> ->]. split; [exact T|]. rewrite CS in C1. injection C1 as ->. exact F. }
  destruct X as [T1 F1]. split; [exact T1|]. destruct (call_good _ _ _ _ _ F1 A K R) as (b & B & OB).
  exists (ps1 ++ ps2), b, t, t'. split; [exact I|]. split; [exact B|]. split; [exact OB|]. split; assumption.
Qed.

Lemma hd_frames : forall (c : cur) t, has_ty c t -> t <> TNone -> exists f, hd_error (frames_of c) = Some f.
Proof.
  intros c [|l|] H N; cbn [has_ty] in H; [contradiction | |].
  - destruct H as ([|f fs] & -> & N' & _); [contradiction|]. exists f; reflexivity.
  - destruct H as (f & ->). exists f; reflexivity.
Qed.

(** ** Progress and preservation *)
Lemma step_safe : forall g db0 mk s w t t', g "skip_missing_cal_steps" = false -> fine_step (negb (fill_now (r_cfg (mk s)) g)) s t t' -> has_ty (w_cur w) t ->
  safe lookup cal_load sem cls g db0 mk s w.
Proof.
  intros g db0 mk s w t t' SM FS T. destruct reg as (RN & RE & RC). destruct FS as [(S1 & SX & N & _)|(NS & NK & JN & ps & I & FC & E)].
  - split; [|intros X; contradiction]. intros _. split; [exact SX|]. intros C. destruct (hd_frames _ _ T N) as (f & H). rewrite C in H. discriminate.
  - split; [intros X; contradiction|]. intros _. split; [apply RN; apply in_map_iff; exists (s_name s, ps); split; [reflexivity|exact I]|]. split; [exact NK|].
    destruct (s_calibs s) as [l|] eqn:CS.
    + destruct FC as (ps1 & ps2 & E1 & F & K & R). assert (F' := F). unfold entries in F. rewrite CS in F.
      split; [|split].
      * intros k v H. clear - F H. induction F as [|p x ps1 l (_ & X & _) F IH]; [destruct H|]. destruct H as [->|H]; [exact X | exact (IH H)].
      * intros J. rewrite J in *. cbn [negb] in *. split; [apply (hd_frames _ t T); apply JN; [reflexivity|discriminate]|]. intros k H. clear - F H.
        induction F as [|p x ps1 l (_ & _ & X) F IH]; [destruct H|]. destruct H as [->|H]; [cbn [snd] in X; destruct X as [X _]; discriminate | exact (IH H)].
      * intros s1 c1 l1 args RS C1 A. refine (proj2 (resolved_good g (db0 ++ registered (w_ev w)) mk s s1 (w_cur w) c1 l1 args t t' ps SM _ I _ E T RS C1 A)); [rewrite CS; discriminate|]. exists ps1, ps2. split; [exact E1|]. split; [exact F'|]. split; assumption.
    + destruct FC as (ps1 & ps2 & -> & F & K & R). unfold entries in F. rewrite CS in F. inversion F; subst ps1.
      destruct (call_good [] ps2 (kwargs s) [] [] (Forall2_nil _) (Forall2_nil _) K R) as (b & B & OB).
      exists ([] ++ ps2), b, t, t'. split; [exact I|]. split; [exact B|]. split; [exact OB|]. split; assumption.
Qed.
Lemma step_preserves : forall g db0 mk s w s' w' t t', g "skip_missing_cal_steps" = false -> fine_step (negb (fill_now (r_cfg (mk s)) g)) s t t' -> has_ty (w_cur w) t ->
  exec_step known lookup cal_load sem g db0 mk s w s' w' -> has_ty (w_cur w') t'.
Proof.
  intros g db0 mk s w s' w' t t' SM FS T X. destruct reg as (RN & RE & RC).
  inversion X as [s0 c ev x c' ev' S1 SX SV E1 E2 E3 E4 | s0 w0 fn NS1 SE SK E1 E2 E3 E4 | s0 c ev fn c' NS1 SE SK CN FN E1 E2 E3 E4 | s0 c ev fn l s1 c1 l1 args c' NS1 SE SK CN RS C1 A FN E1 E2 E3 E4]; subst; cbn [w_cur] in *.
  - destruct FS as [(_ & _ & _ & ->)|(NS & _)]; [|contradiction]. exact (saved_ty _ _ _ _ _ _ T SV).
  - destruct FS as [(S1 & _)|(_ & NK & _)]; contradiction.
  - destruct FS as [(S1 & _)|(_ & _ & _ & ps & I & FC & E)]; [contradiction|]. exact (RE _ _ _ _ _ _ _ _ SE T E FN).
  - destruct FS as [(S1 & _)|(_ & _ & _ & ps & I & FC & E)]; [contradiction|].
    assert (NC : s_calibs s <> None) by (rewrite CN; discriminate).
    destruct (resolved_good _ _ _ _ _ _ _ _ _ _ _ _ SM NC I FC E T RS C1 A) as [T1 _]. exact (RE _ _ _ _ _ _ _ _ SE T1 E FN).
Qed.
Lemma run_safe : forall g db0 cfg pre mk w pre' w1, exec known lookup cal_load sem g db0 mk pre w pre' w1 -> g "skip_missing_cal_steps" = false ->
  (forall x, r_cfg (mk x) = cfg) -> forall s post t t2, fine (negb (fill_now cfg g)) (pre ++ s :: post) t t2 -> has_ty (w_cur w) t ->
  forall mk', r_cfg (mk' s) = cfg -> safe lookup cal_load sem cls g db0 mk' s w1.
Proof.
  intros g db0 cfg pre mk w pre' w1 X SM. induction X as [mk w|mk s0 l w s' w1 l' w2 X1 X2 IH]; intros HC s post t t2 F T mk' HM.
  - cbn [app] in F. inversion F as [|s1 l1 t0 t1 t3 FS F1]; subst. exact (step_safe _ _ _ _ _ _ _ SM FS T).
  - cbn [app] in F. inversion F as [|s1 l1 t0 t1 t3 FS F1]; subst. apply IH with (post := post) (t := t1) (t2 := t2); [intros x; apply HC | exact F1 | | reflexivity].
    apply (step_preserves g db0 (fun x => mk (x :: l)) s0 w s' w1 t t1 SM); [rewrite (HC (s0 :: l)); exact FS | exact T | exact X1].
Qed.
Lemma run_ty : forall g db0 cfg l mk w l' w1, exec known lookup cal_load sem g db0 mk l w l' w1 -> g "skip_missing_cal_steps" = false ->
  (forall x, r_cfg (mk x) = cfg) -> forall t t2, fine (negb (fill_now cfg g)) l t t2 -> has_ty (w_cur w) t -> has_ty (w_cur w1) t2.
Proof.
  intros g db0 cfg l mk w l' w1 X SM. induction X as [mk w|mk s0 l w s' w1 l' w2 X1 X2 IH]; intros HC t t2 F T; inversion F as [|s1 l1 t0 t1 t3 FS F1]; subst; [exact T|].
  apply IH with (t := t1); [intros x; apply HC | exact F1 |]. apply (step_preserves g db0 (fun x => mk (x :: l)) s0 w s' w1 t t1 SM); [rewrite (HC (s0 :: l)); exact FS | exact T | exact X1].
Qed.

(** A safe step fails only for an excused reason. *)
Lemma safe_excused : forall g db0 mk s w s' w' e, g "skip_missing_cal_steps" = false -> safe lookup cal_load sem cls g db0 mk s w -> fail_step known lookup cal_load sem g db0 mk s w s' w' e ->
  excused lookup cal_load sem cls (db0 ++ registered (w_ev w)) (w_cur w) s e.
Proof.
  intros g db0 mk s w s' w' e SM [SS SN] X.
  inversion X as [s0 w0 kw v S1 K A E1 E2 E3 E4 E5 | s0 ev x S1 SX E1 E2 E3 E4 E5 | s0 c ev x c' ev' S1 SX HS E1 E2 E3 E4 E5 | s0 w0 NS SE E1 E2 E3 E4 E5
    | s0 c ev fn e0 NS SE NK CN FN E1 E2 E3 E4 E5 | s0 ev fn l NS SE NK CN J E1 E2 E3 E4 E5 | s0 c ev fn rf s1 e0 NS SE NK J RF FF E1 E2 E3 E4 E5 | s0 ev fn l s1 NS SE NK CN J FS E1 E2 E3 E4 E5
    | s0 c ev fn l s1 c1 pre args x post e0 NS SE NK CN RS C1 A B E1 E2 E3 E4 E5 | s0 c ev fn l s1 c1 l1 args e0 NS SE NK CN RS C1 A FN E1 E2 E3 E4 E5]; subst; cbn [w_cur w_ev] in *.
  - destruct (SS S1) as [(x & SX) _]. unfold suffix_of in SX. rewrite K in SX. destruct SX as [SX|[SX _]]; congruence.
  - destruct (SS S1) as [_ N]. contradiction.
  - exact (ex_name _ _ _ _ _ _ _ _ S1 eq_refl).
  - destruct (SN NS) as [N _]. contradiction.
  - destruct (SN NS) as (_ & _ & H). rewrite CN in H. exact (ex_call _ _ _ _ _ _ _ _ _ _ _ SE H FN).
  - destruct (SN NS) as (_ & _ & H). rewrite CN in H. destruct H as (_ & H & _). destruct (H J) as [(f & HF) _]. discriminate.
  - destruct (SN NS) as (_ & _ & H). destruct FF as (pre & pre' & x & post & b & CN & _ & FA & U). rewrite CN in H. destruct H as (HK & H & _). destruct (H J) as [(f & HF) HN].
    assert (HX : In x (pre ++ x :: post)) by (apply in_or_app; right; left; reflexivity).
    assert (RF' : rf = RFrame f). { clear - RF HF. destruct c as [|[|f0 fs]|f0]; cbn [ref_of frames_of hd_error] in *; try discriminate; congruence. } subst rf.
    inversion U as [k E1 E2 | k a M KN E1 E2 | k a M KN LK O SM' E1 E2 | k a e0 M KN LK O E1 E2]; subst.
    + exfalso. exact (HN k HX).
    + specialize (HK k (Some a) HX). congruence.
    + exact (ex_missing _ _ _ _ _ _ _ _ k f HF KN LK).
    + exact (ex_missing _ _ _ _ _ _ _ _ k f HF KN LK).
  - destruct (SN NS) as (_ & _ & H). rewrite CN in H. destruct H as (_ & H & _). destruct (H J) as [(f & HF) _]. discriminate.
  - destruct (SN NS) as (_ & _ & H). rewrite CN in H. destruct H as (HK & _ & _).
    inversion B as [k v KN E1 E2 | k p e0 KN L E1 E2]; subst; [|exact (ex_load _ _ _ _ _ _ _ _ k p KN L)]. exfalso.
    assert (KK : forall k0 v0, In (k0, v0) (pre ++ (k, v) :: post) -> known k0 = true).
    { unfold resolved in RS. destruct (negb (fill_now (r_cfg (mk s)) g)).
      - destruct RS as (f & _ & FS & _). unfold fill_spec in FS. rewrite CN in FS. destruct FS as (l' & b & FA & ->). unfold with_calibs in C1; cbn [s_calibs] in C1. injection C1 as E0.
        apply filled_all_keys in FA. intros k0 v0 H0. rewrite <- E0 in H0. assert (I : In k0 (map fst l)) by (rewrite <- FA; apply in_map_iff; exists (k0, v0); split; [reflexivity|exact H0]).
        apply in_map_iff in I as ([k1 v1] & <- & I). exact (HK _ _ I).
      - destruct RS as [-> _]. rewrite CN in C1. injection C1 as ->. exact HK. }
    assert (HX : In (k, v) (pre ++ (k, v) :: post)) by (apply in_or_app; right; left; reflexivity). specialize (KK k v HX). congruence.
  - destruct (SN NS) as (_ & _ & H). rewrite CN in H. destruct H as (_ & _ & H). exact (ex_call _ _ _ _ _ _ _ _ _ _ _ SE (H _ _ _ _ RS C1 A) FN).
Qed.
End Typing.
