(** Laws of a whole call: what is written, which objects change, which recipes are run. *)
From Coq Require Import List Arith Bool String Ascii Lia.
From Verif Require Import Base WalkModel WalkSpec WalkProofs WalkRunProofs WalkGenProofs DriveModel DriveSpec DriveProofs.
Import ListNotations.
Local Open Scope string_scope.
Local Open Scope list_scope.

Section Trace.
Context {Dt Cal : Type}.
Notation event := (event Dt Cal).
Lemma split_app : forall {X} (a b pre post : list X) x, a ++ b = pre ++ x :: post -> (exists q, a = pre ++ x :: q) \/ exists q, pre = a ++ q /\ b = q ++ x :: post.
Proof using.
  intros X. induction a as [|y a IH]; intros b pre post x H; cbn [app] in H; [right; exists pre; split; [reflexivity|exact H]|]. destruct pre as [|z pre]; cbn [app] in H.
  - injection H as -> _. left. exists a. reflexivity.
  - injection H as -> H. destruct (IH _ _ _ _ H) as [(q & ->)|(q & -> & ->)]; [left; exists q; reflexivity|right; exists q; split; reflexivity].
Qed.
Lemma tidy_nil : forall d, tidy_trace d ([] : list event).
Proof using. intros d. split; [intros f H; destruct H|]. split; [intros r H; destruct H|]. intros [|? ?] f post H; discriminate. Qed.
Lemma tidy_app : forall d (a b : list event), tidy_trace d a -> tidy_trace d b -> tidy_trace d (a ++ b).
Proof using.
  intros d a b (A1 & A2 & A3) (B1 & B2 & B3). split; [intros f H; apply in_app_iff in H; destruct H; [apply A1|apply B1]; assumption|]. split; [intros r H; apply in_app_iff in H; destruct H; [apply A2|apply B2]; assumption|].
  intros pre f post H. apply split_app in H. destruct H as [(q & H)|(q & -> & H)]; [exact (A3 _ _ _ H)|]. apply in_app_iff. right. exact (B3 _ _ _ H).
Qed.
Lemma tidy_call : forall d n args kw, tidy_trace d ([EStep n args kw] : list event).
Proof using. intros d n args kw. split; [intros f [H|[]]; discriminate|]. split; [intros r [H|[]]; discriminate|]. intros [|x [|y pre]] f post H; discriminate. Qed.
Lemma tidy_recipe : forall d r, r_out r = d -> tidy_trace d ([ERecipe r] : list event).
Proof using. intros d r E. split; [intros f [H|[]]; discriminate|]. split; [intros x [H|[]]; congruence|]. intros [|x [|y pre]] f post H; discriminate. Qed.
Lemma tidy_writes : forall d (l : list (frame Dt)), (forall f, In f l -> f_dir f = d) -> tidy_trace d (map EWrite l : list event).
Proof using.
  intros d l H. split; [intros f I; apply in_map_iff in I; destruct I as (x & E & I); injection E as <-; exact (H _ I)|]. split; [intros r I; apply in_map_iff in I; destruct I as (x & E & _); discriminate|].
  intros pre f post E. assert (I : In (ERegister f) (map EWrite l : list event)) by (rewrite E; apply in_app_iff; right; left; reflexivity). apply in_map_iff in I. destruct I as (x & X & _). discriminate.
Qed.
Lemma tidy_saved : forall d (l : list (frame Dt)) p, (forall f, In f l -> f_dir f = d) -> tidy_trace d (map EWrite l ++ map ERegister (filter p l) : list event).
Proof using.
  intros d l p H. destruct (tidy_writes d l H) as (A1 & A2 & A3). split; [intros f I; apply in_app_iff in I; destruct I as [I|I]; [exact (A1 _ I)|apply in_map_iff in I; destruct I as (x & E & _); discriminate]|].
  split; [intros r I; apply in_app_iff in I; destruct I as [I|I]; [exact (A2 _ I)|apply in_map_iff in I; destruct I as (x & E & _); discriminate]|].
  intros pre f post E. assert (IR : In (ERegister f) (map EWrite l ++ map ERegister (filter p l) : list event)) by (rewrite E; apply in_app_iff; right; left; reflexivity). apply split_app in E. destruct E as [(q & E)|(q & -> & E)]; [exact (A3 _ _ _ E)|]. apply in_app_iff. left.
  apply in_app_iff in IR. destruct IR as [I|I]; apply in_map_iff in I; destruct I as (x & X & I); [discriminate|]. injection X as ->. apply in_map. apply filter_In in I. exact (proj1 I).
Qed.
Lemma recipes_app : forall a b : list event, recipes_of (a ++ b) = recipes_of a ++ recipes_of b.
Proof using. intros a b. unfold recipes_of. apply flat_map_app. Qed.
Lemma recipes_writes : forall l : list (frame Dt), recipes_of (map EWrite l : list event) = [].
Proof using. induction l as [|f l IH]; [reflexivity|exact IH]. Qed.
Lemma recipes_registers : forall l : list (frame Dt), recipes_of (map ERegister l : list event) = [].
Proof using. induction l as [|f l IH]; [reflexivity|exact IH]. Qed.
End Trace.

Section Laws.
Context {Dt Cal : Type}.
Notation frame := (frame Dt).
Notation cur := (cur Dt).
Notation event := (event Dt Cal).
Notation world := (world Dt Cal).
Variable known : string -> bool.
Variable lookup : list frame -> refr Dt -> string -> result string.
Variable cal_load : list event -> string -> string -> result Cal.
Variable img_load : list event -> string -> result frame.
Variable sem : string -> option (cur -> list (option Cal) -> list (string * kv) -> result cur).
Variable json : string -> option recipe.
Variable recipe_dir : string.
Variable db0 : list frame.
Notation visits := (visits known lookup cal_load img_load sem db0).
Notation breaks := (breaks known lookup cal_load img_load sem db0).
Notation generated := (generated (Cal := Cal) known lookup img_load json recipe_dir db0).
Notation made_of := (made_of known lookup).
Notation run_all := (run_all known lookup cal_load img_load sem db0).
Notation walk := (walk_corgidrp known lookup cal_load img_load sem json recipe_dir db0).

(** ** Steps *)
Lemma step_tidy : forall cl g db mk s (w : wst Dt Cal) s' w', exec_step known lookup cl sem g db mk s w s' w' ->
  exists ev, w_ev w' = w_ev w ++ ev /\ tidy_trace (r_out (mk s)) ev /\ recipes_of ev = [].
Proof using.
  intros cl g db mk s w s' w' H. destruct H as [s c ev x c' ev' I SX (K & F & ->)|s w fn NS SM K|s c ev fn c' NS SM NK C F|s c ev fn l s1 c1 l1 args c' NS SM NK C R C1 L F]; cbn [w_ev].
  - eexists. split; [reflexivity|]. split; [|rewrite recipes_app, recipes_writes, recipes_registers; reflexivity]. apply tidy_saved. intros f If. clear - F If. induction F as [|a b l m (M & _) _ IH]; [destruct If|]. destruct If as [->|If]; [destruct M; tauto|exact (IH If)].
  - exists []. split; [symmetry; apply app_nil_r|]. split; [apply tidy_nil|reflexivity].
  - eexists. split; [reflexivity|]. split; [apply tidy_call|reflexivity].
  - eexists. split; [reflexivity|]. split; [apply tidy_call|reflexivity].
Qed.
Lemma exec_tidy : forall cl g db mk l (w : wst Dt Cal) l' w' d, exec known lookup cl sem g db mk l w l' w' -> (forall x, r_out (mk x) = d) ->
  exists ev, w_ev w' = w_ev w ++ ev /\ tidy_trace d ev /\ recipes_of ev = [].
Proof using.
  intros cl g db mk l w l' w' d H. induction H as [mk w|mk s t w s' w1 t' w2 X Y IH]; intros D; [exists []; split; [symmetry; apply app_nil_r|]; split; [apply tidy_nil|reflexivity]|].
  apply step_tidy in X. destruct X as (e1 & E1 & T1 & R1). destruct (IH (fun x => D _)) as (e2 & E2 & T2 & R2). rewrite D in T1. exists (e1 ++ e2). split; [rewrite E2, E1; symmetry; apply app_assoc|]. split; [apply tidy_app; assumption|]. rewrite recipes_app, R1, R2. reflexivity.
Qed.
Lemma fail_tidy : forall cl g db mk s (w : wst Dt Cal) s' w' e, fail_step known lookup cl sem g db mk s w s' w' e ->
  exists ev, w_ev w' = w_ev w ++ ev /\ tidy_trace (r_out (mk s)) ev /\ recipes_of ev = [].
Proof using.
  intros cl g db mk s w s' w' e H. destruct H as [s w kw v I K A|s ev x I SX|s c ev x c' ev' I SX SV|s w NS SM|s c ev fn e NS SM NK C F|s ev fn l NS SM NK C J|s c ev fn rf s1 e NS SM NK J Rf Ff|s ev fn l s1 NS SM NK C J Fs|s c ev fn l s1 c1 pre args x post e NS SM NK C R C1 L B|s c ev fn l s1 c1 l1 args e NS SM NK C R C1 L F]; cbn [w_ev];
    try (exists []; split; [symmetry; apply app_nil_r|]; split; [apply tidy_nil|reflexivity]).
  - exists ev'. split; [reflexivity|]. destruct SV as (_ & pre & pre' & f & f' & post & _ & _ & F & _ & _ & ->). split; [|apply recipes_writes]. apply tidy_writes. intros y Iy. clear - F Iy. induction F as [|a b l m (M & _) _ IH]; [destruct Iy|]. destruct Iy as [->|Iy]; [destruct M; tauto|exact (IH Iy)].
  - eexists. split; [reflexivity|]. split; [apply tidy_call|reflexivity].
  - eexists. split; [reflexivity|]. split; [apply tidy_call|reflexivity].
Qed.

(** ** Recipes *)
Lemma visits_tidy : forall g ev rs g' ev' rs', visits g ev rs g' ev' rs' -> forall d, (forall r, In r rs -> r_out r = d) -> exists new, ev' = ev ++ new /\ tidy_trace d new /\ recipes_of new = rs.
Proof using.
  intros g ev rs g' ev' rs' V. induction V as [g ev|g ev r rs c l w g' ev' rs' L EX V IH]; intros d D; [exists []; split; [symmetry; apply app_nil_r|]; split; [apply tidy_nil|reflexivity]|].
  destruct (exec_tidy _ _ _ _ _ _ _ _ d EX) as (e1 & E1 & T1 & R1); [intros x; exact (D r (or_introl eq_refl))|]. destruct (IH d (fun x I => D x (or_intror I))) as (e2 & -> & T2 & R2). cbn [w_ev] in E1. rewrite E1. exists ([ERecipe r] ++ e1 ++ e2). split; [rewrite <- !app_assoc; reflexivity|]. split; [apply tidy_app; [apply tidy_recipe; exact (D r (or_introl eq_refl))|apply tidy_app; assumption]|]. rewrite !recipes_app, R1, R2. reflexivity.
Qed.
Lemma breaks_tidy : forall g ev r g' ev' r' e, breaks g ev r g' ev' r' e -> exists new, ev' = ev ++ new /\ tidy_trace (r_out r) new /\ (recipes_of new = [] \/ recipes_of new = [r]).
Proof using.
  intros g ev r g' ev' r' e (_ & [(_ & -> & _)|(c & pre & s & post & pre' & s' & w1 & w & L & RS & R' & -> & EX & FS)]); [exists []; split; [symmetry; apply app_nil_r|]; split; [apply tidy_nil|left; reflexivity]|].
  destruct (exec_tidy _ _ _ _ _ _ _ _ (r_out r) EX) as (e1 & E1 & T1 & R1); [intros x; reflexivity|]. apply fail_tidy in FS. destruct FS as (e2 & E2 & T2 & R2). cbn [w_ev] in E1. rewrite E2, E1. exists ([ERecipe r] ++ e1 ++ e2). split; [rewrite <- !app_assoc; reflexivity|]. split; [apply tidy_app; [apply tidy_recipe; reflexivity|apply tidy_app; [exact T1|exact T2]]|]. right. rewrite !recipes_app, R1, R2. reflexivity.
Qed.
Lemma visits_settings : forall g ev rs g' ev' rs', visits g ev rs g' ev' rs' -> g' = fold_left (fun g r => configure (r_cfg r) g) rs g.
Proof using. intros g ev rs g' ev' rs' V. induction V as [|g ev r rs c l w g' ev' rs' L EX V IH]; [reflexivity|]. exact IH. Qed.
Lemma configure_jit : forall cfg g, g "jit_calib_id" = false -> ~ In ("jit_calib_id", true) cfg -> configure cfg g "jit_calib_id" = false.
Proof using.
  unfold configure. induction cfg as [|[k b] cfg IH]; intros g G N; [exact G|]. cbn [fold_left fst snd]. apply IH; [|intros I; apply N; right; exact I]. destruct (String.eqb k "jit_calib_id") eqn:E; [|exact G]. apply String.eqb_eq in E. subst k. destruct b; [exfalso; apply N; left; reflexivity|reflexivity].
Qed.
Lemma fill_jit : forall cfg g, g "jit_calib_id" = false -> ~ In ("jit_calib_id", true) cfg -> fill_now cfg g = true.
Proof using.
  intros cfg g G N. unfold fill_now. destruct (assoc "jit_calib_id" cfg) as [b|] eqn:A; [|rewrite G; reflexivity]. destruct b; [|reflexivity]. exfalso. apply N. clear - A. induction cfg as [|[k b] cfg IH]; [discriminate|]. cbn [assoc] in A. destruct (String.eqb k "jit_calib_id") eqn:E; [apply String.eqb_eq in E; left; congruence|right; exact (IH A)].
Qed.
Lemma visits_same : forall g ev rs g' ev' rs', visits g ev rs g' ev' rs' -> g "jit_calib_id" = false -> (forall r, In r rs -> ~ In ("jit_calib_id", true) (r_cfg r)) -> rs' = rs.
Proof using.
  intros g ev rs g' ev' rs' V. induction V as [|g ev r rs c l w g' ev' rs' L EX V IH]; intros G N; [reflexivity|]. pose proof (configure_jit (r_cfg r) g G (N r (or_introl eq_refl))) as G1.
  apply exec_unchanged in EX; [|intros x; apply fill_jit; [exact G1|exact (N r (or_introl eq_refl))]]. subst l. rewrite (IH G1 (fun x I => N x (or_intror I))). destruct r. reflexivity.
Qed.

(** ** Whatever happens *)
Lemma run_tidy : forall os u u' e d, (forall o, In o os -> o_out o = d) -> run_all u os = (u', e) -> exists new, u_ev u' = u_ev u ++ new /\ tidy_trace d new.
Proof using.
  induction os as [|o os IH]; intros u u' e d D; cbn [DriveModel.run_all]; [intros H; injection H as <- _; exists []; split; [symmetry; apply app_nil_r|apply tidy_nil]|].
  destruct (value_of (u_st u) o) as [r|] eqn:V; [|intros H; injection H as <- _; exists []; split; [symmetry; apply app_nil_r|apply tidy_nil]].
  assert (RO : r_out r = d). { unfold value_of in V. destruct (nth_error (u_st u) (o_ref o)) as [[ins sts]|]; [|discriminate]. injection V as <-. exact (D o (or_introl eq_refl)). }
  destruct (run_recipe known lookup (cal_load (u_ev u)) (img_load (u_ev u)) sem (u_cfg u) (db0 ++ registered (u_ev u)) true r) as [[[g1 r1] w] x] eqn:E.
  assert (TW : tidy_trace d (w_ev w)).
  { destruct x as [x|]; [apply recipe_fail in E; destruct E as (_ & [(_ & -> & _)|(c & pre & s & post & pre' & s' & w1 & L & RS & R' & EX & FS)])|apply recipe_ok in E; destruct E as (_ & c & l & L & EX & _)].
    - apply tidy_nil.
    - destruct (exec_tidy _ _ _ _ _ _ _ _ d EX) as (e1 & E1 & T1 & _); [intros y; exact RO|]. apply fail_tidy in FS. destruct FS as (e2 & E2 & T2 & _). cbn [w_ev] in E1. rewrite E2, E1. rewrite <- RO in *. apply tidy_app; [apply (tidy_app _ [ERecipe r] e1); [apply tidy_recipe; reflexivity|exact T1]|exact T2].
    - destruct (exec_tidy _ _ _ _ _ _ _ _ d EX) as (e1 & E1 & T1 & _); [intros y; exact RO|]. cbn [w_ev] in E1. rewrite E1. apply (tidy_app _ [ERecipe r] e1); [apply tidy_recipe; exact RO|exact T1]. }
  destruct x as [x|].
  - intros H. injection H as <- _. exists (w_ev w). split; [reflexivity|exact TW].
  - intros H. apply (IH _ _ _ d) in H; [|intros y I; apply D; right; exact I]. destruct H as (new & E2 & T). cbn [u_ev] in E2. exists (w_ev w ++ new). split; [rewrite E2; symmetry; apply app_assoc|apply tidy_app; assumption].
Qed.
Lemma all_out : forall g db rf files outdir ts st st' os, autogen_all known lookup g db rf files outdir st ts = (st', Ok os) -> map o_ref os = map o_ref ts /\ forall o, In o os -> o_out o = outdir.
Proof using.
  intros g db rf files outdir. induction ts as [|t ts IH]; intros st st' os H; cbn [autogen_all] in H; [injection H as _ <-; split; [reflexivity|intros o I; destruct I]|].
  destruct (autogen_one known lookup g db rf files outdir st t) as [st1 [o|e]] eqn:E1; [|discriminate]. destruct (autogen_all known lookup g db rf files outdir st1 ts) as [st2 [os2|e]] eqn:E2; [|discriminate]. injection H as _ <-. apply one_iff in E1. destruct E1 as (ins & sts & sts' & _ & _ & _ & ->). destruct (IH _ _ _ E2) as (R & O). split; [cbn; rewrite R; reflexivity|]. intros x [<-|I]; [reflexivity|exact (O x I)].
Qed.
Lemma objects_refs : forall rs n o, In o (objects n rs) -> n <= o_ref o.
Proof using. induction rs as [|r rs IH]; intros n o I; [destruct I|]. destruct I as [<-|I]; [apply le_n|]. apply IH in I. lia. Qed.
(** What generation does, whatever its result *)
Definition owned (u : world) (a : targ) (i : nat) : Prop := match a with TObject o => i = o_ref o | _ => List.length (u_st u) <= i end.
Lemma generation_any : forall u files outdir a st r, generation known lookup img_load json recipe_dir db0 u files outdir a = (st, r) ->
  (forall i, i < List.length (u_st u) -> ~ owned u a i -> nth_error st i = nth_error (u_st u) i)
  /\ forall os, r = Ok os -> forall o, In o os -> owned u a (o_ref o) /\ o_out o = outdir.
Proof using.
  intros u files outdir a st r. unfold generation.
  assert (ALL : forall st0 ts rf st1 r1, (forall i, i < List.length (u_st u) -> nth_error st0 i = nth_error (u_st u) i) -> (forall t, In t ts -> owned u a (o_ref t)) -> autogen_all known lookup (u_cfg u) (db0 ++ registered (u_ev u)) rf files outdir st0 ts = (st1, r1) ->
     (forall i, i < List.length (u_st u) -> ~ owned u a i -> nth_error st1 i = nth_error (u_st u) i) /\ forall os, r1 = Ok os -> forall o, In o os -> owned u a (o_ref o) /\ o_out o = outdir).
  { intros st0 ts rf st1 r1 K O H. split.
    - intros i Li No. rewrite <- (K i Li). apply (all_keep _ _ _ _ _ _ _ _ _ _ _ H). intros t It E. apply No. rewrite <- E. exact (O t It).
    - intros os -> o Io. apply all_out in H. destruct H as (R & Q). split; [|exact (Q o Io)]. assert (I2 : In (o_ref o) (map o_ref ts)) by (rewrite <- R; apply in_map; exact Io). apply in_map_iff in I2. destruct I2 as (t & <- & It). exact (O t It). }
  destruct a as [|s|o]; cbn [load_template].
  - unfold autogen_recipe. destruct (match files with [] => Ok [] | _ :: _ => mapW (img_load (u_ev u)) files end) as [frames|e]; [|intros H; injection H as <- <-; split; [reflexivity|discriminate]]. destruct files as [|p files]; [intros H; injection H as <- <-; split; [reflexivity|discriminate]|].
    destruct (do names <- _; _) as [ts|e]; [|intros H; injection H as <- <-; split; [reflexivity|discriminate]]. rewrite alloc_objects. intros H. eapply ALL; [| |exact H]; [intros i Li; apply nth_error_app1; exact Li|intros t It; cbn [owned]; eapply objects_refs; exact It].
  - destruct (json (template_path recipe_dir s)) as [t|]; [|intros H; injection H as <- <-; split; [reflexivity|discriminate]]. unfold alloc, autogen_recipe. destruct (match files with [] => Ok [] | _ :: _ => mapW (img_load (u_ev u)) files end) as [frames|e]; [|intros H; injection H as <- <-; split; [intros i Li _; apply nth_error_app1; exact Li|discriminate]].
    intros H. eapply ALL; [| |exact H]; [intros i Li; apply nth_error_app1; exact Li|intros x [<-|[]]; apply le_n].
  - unfold autogen_recipe. destruct (match files with [] => Ok [] | _ :: _ => mapW (img_load (u_ev u)) files end) as [frames|e]; [|intros H; injection H as <- <-; split; [reflexivity|discriminate]]. intros H. eapply ALL; [| |exact H]; [reflexivity|intros x [<-|[]]; reflexivity].
Qed.
Lemma run_keeps : forall os u u' e i, run_all u os = (u', e) -> (forall o, In o os -> o_ref o <> i) -> nth_error (u_st u') i = nth_error (u_st u) i.
Proof using.
  induction os as [|o os IH]; intros u u' e i H N; cbn [DriveModel.run_all] in H; [injection H as <- _; reflexivity|]. destruct (value_of (u_st u) o) as [r|]; [|injection H as <- _; reflexivity].
  destruct (run_recipe known lookup (cal_load (u_ev u)) (img_load (u_ev u)) sem (u_cfg u) (db0 ++ registered (u_ev u)) true r) as [[[g1 r1] w] [x|]].
  - injection H as <- _. cbn [u_st]. apply nth_set_other. exact (N o (or_introl eq_refl)).
  - apply (IH _ _ _ i) in H; [|intros y I; apply N; right; exact I]. rewrite H. cbn [u_st]. apply nth_set_other. exact (N o (or_introl eq_refl)).
Qed.
Theorem walk_tidy : forall u files outdir a u' r, walk u files outdir a = (u', r) -> exists new, u_ev u' = u_ev u ++ new /\ tidy_trace outdir new.
Proof using.
  intros u files outdir a u' r. rewrite walk_eq. destruct (generation known lookup img_load json recipe_dir db0 u files outdir a) as [st2 [os|e]] eqn:G; [|intros H; injection H as <- _; exists []; split; [symmetry; apply app_nil_r|apply tidy_nil]].
  apply generation_any in G. destruct G as (_ & G). specialize (G os eq_refl). destruct (run_all (mkworld (u_cfg u) (u_ev u) st2) os) as [u1 e] eqn:E. apply (run_tidy _ _ _ _ outdir) in E; [|intros o I; exact (proj2 (G o I))]. intros H. assert (u1 = u') by (destruct e; congruence). subst u1. exact E.
Qed.
Theorem walk_keeps : forall u files outdir a u' r i, walk u files outdir a = (u', r) -> i < List.length (u_st u) -> (forall o, a = TObject o -> i <> o_ref o) -> nth_error (u_st u') i = nth_error (u_st u) i.
Proof using.
  intros u files outdir a u' r i W Li N. rewrite walk_eq in W. destruct (generation known lookup img_load json recipe_dir db0 u files outdir a) as [st2 [os|e]] eqn:G; apply generation_any in G; destruct G as (K & G).
  - assert (NO : ~ owned u a i) by (destruct a as [|s|o]; cbn [owned]; [lia|lia|exact (N o eq_refl)]). specialize (G os eq_refl). destruct (run_all (mkworld (u_cfg u) (u_ev u) st2) os) as [u1 e] eqn:E. assert (u1 = u') by (destruct e; congruence). subst u1. rewrite (run_keeps _ _ _ _ i E); [exact (K i Li NO)|]. intros o I Eo. apply NO. rewrite <- Eo. exact (proj1 (G o I)).
  - injection W as <- _. cbn [u_st]. apply K; [exact Li|]. destruct a as [|s|o]; cbn [owned]; [lia|lia|exact (N o eq_refl)].
Qed.

(** ** After success *)
Lemma made_fields : forall g db frames files outdir t r, made_of g db frames files outdir t r -> r_out r = outdir /\ r_cfg r = r_cfg t /\ r_in r = r_in t ++ files /\ r_name r = r_name t /\ r_tmpl r = false.
Proof using. intros g db frames files outdir t r (sts & _ & ->). auto 6. Qed.
Lemma generated_out : forall g ev files outdir a rs r, generated g ev files outdir a rs -> In r rs -> r_out r = outdir.
Proof using. intros g ev files outdir a rs r (frames & ts & _ & _ & F) I. induction F as [|t x l m M _ IH]; [destruct I|]. destruct I as [->|I]; [exact (proj1 (made_fields _ _ _ _ _ _ _ M))|exact (IH I)]. Qed.
Theorem walk_recipes : forall u files outdir a u' os, not_object a -> walk u files outdir a = (u', Ok os) ->
  exists rs new, generated (u_cfg u) (u_ev u) files outdir a rs /\ u_ev u' = u_ev u ++ new /\ recipes_of new = rs
  /\ u_cfg u' = fold_left (fun g r => configure (r_cfg r) g) rs (u_cfg u)
  /\ (u_cfg u "jit_calib_id" = false -> (forall r, In r rs -> ~ In ("jit_calib_id", true) (r_cfg r)) -> u_st u' = u_st u ++ map body rs).
Proof using.
  intros u files outdir a u' os NO W. apply walk_ok in W; [|exact NO]. destruct W as (rs & rs' & G & V & S & _). destruct (visits_tidy _ _ _ _ _ _ V outdir (fun r => generated_out _ _ _ _ _ _ r G)) as (new & E & _ & R). exists rs, new. split; [exact G|]. split; [exact E|]. split; [exact R|]. split; [exact (visits_settings _ _ _ _ _ _ V)|]. intros J N. rewrite S, (visits_same _ _ _ _ _ _ V J N). reflexivity.
Qed.
(** The objects made before play no part *)
Theorem walk_fresh : forall u1 u2 files outdir a u1' os1, not_object a -> u_cfg u1 = u_cfg u2 -> u_ev u1 = u_ev u2 -> walk u1 files outdir a = (u1', Ok os1) ->
  exists u2' os2 x, walk u2 files outdir a = (u2', Ok os2) /\ u_cfg u2' = u_cfg u1' /\ u_ev u2' = u_ev u1' /\ u_st u1' = u_st u1 ++ x /\ u_st u2' = u_st u2 ++ x.
Proof using.
  intros u1 u2 files outdir a u1' os1 NO EG EE W. apply walk_ok in W; [|exact NO]. destruct W as (rs & rs' & G & V & S & ->). rewrite EG, EE in G, V.
  exists (mkworld (u_cfg u1') (u_ev u1') (u_st u2 ++ map body rs')), (objects (List.length (u_st u2)) rs), (map body rs'). split; [|auto]. apply walk_ok; [exact NO|]. exists rs, rs'. auto.
Qed.
Theorem walk_name : forall u files outdir s, ~ slash s -> walk u files outdir (TText s) = walk u files outdir (TText (recipe_dir ++ "/" ++ s)%string).
Proof using.
  intros u files outdir s N. unfold walk_corgidrp. cbn [load_template]. assert (P : template_path recipe_dir s = template_path recipe_dir (recipe_dir ++ "/" ++ s)%string); [|rewrite P; reflexivity].
  transitivity (recipe_dir ++ "/" ++ s)%string; [symmetry; apply path_iff; right; split; [exact N|reflexivity]|]. apply path_iff. left. split; [|reflexivity]. exists recipe_dir, s. reflexivity.
Qed.
(** A template object used twice keeps the files of the first call *)
Theorem walk_twice : forall u files1 d1 files2 d2 o t u1 os1 u2 os2, value_of (u_st u) o = Some t ->
  walk u files1 d1 (TObject o) = (u1, Ok os1) -> walk u1 files2 d2 (TObject o) = (u2, Ok os2) ->
  exists r1 r2 new1 new2, u_ev u1 = u_ev u ++ new1 /\ u_ev u2 = u_ev u1 ++ new2 /\ recipes_of new1 = [r1] /\ recipes_of new2 = [r2]
  /\ r_in r1 = r_in t ++ files1 /\ r_in r2 = r_in t ++ files1 ++ files2.
Proof using.
  intros u files1 d1 files2 d2 o t u1 os1 u2 os2 VT W1 W2. apply walk_object in W1. destruct W1 as (t' & r1 & r1' & f1 & V1 & _ & M1 & X1 & S1 & _). rewrite VT in V1. injection V1 as <-. apply walk_object in W2. destruct W2 as (t2 & r2 & r2' & f2 & V2 & _ & M2 & X2 & S2 & _).
  pose proof (made_fields _ _ _ _ _ _ _ M1) as (O1 & _ & I1 & _). pose proof (made_fields _ _ _ _ _ _ _ M2) as (O2 & _ & I2 & _).
  destruct (visits_tidy _ _ _ _ _ _ X1 d1) as (n1 & E1 & _ & R1); [intros r [<-|[]]; exact O1|]. destruct (visits_tidy _ _ _ _ _ _ X2 d2) as (n2 & E2 & _ & R2); [intros r [<-|[]]; exact O2|].
  exists r1, r2, n1, n2. split; [exact E1|]. split; [exact E2|]. split; [exact R1|]. split; [exact R2|]. split; [exact I1|]. rewrite I2. unfold value_of in V2. rewrite S1 in V2. unfold value_of in VT. destruct (nth_error (u_st u) (o_ref o)) as [y|] eqn:N; [|discriminate]. rewrite nth_set_same in V2 by (apply nth_error_Some; congruence). cbn [body] in V2. injection V2 as <-. cbn [r_in]. inversion X1; subst. cbn [r_in with_steps]. rewrite I1, <- app_assoc. reflexivity.
Qed.
Theorem step3 : forall u files outdir a u' r, step_3_process_data known lookup cal_load img_load sem json recipe_dir db0 u files outdir a = (u', r) <->
  exists r0, walk u files outdir a = (u', r0) /\ r = match r0 with Ok _ => Ok tt | Raise e => Raise e end.
Proof using.
  intros u files outdir a u' r. unfold step_3_process_data. destruct (walk u files outdir a) as [u1 [os|e]]; split.
  - intros H. injection H as <- <-. eexists. split; reflexivity.
  - intros (r0 & H & ->). injection H as <- <-. reflexivity.
  - intros H. injection H as <- <-. eexists. split; reflexivity.
  - intros (r0 & H & ->). injection H as <- <-. reflexivity.
Qed.
End Laws.
