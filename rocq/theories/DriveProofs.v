(** A whole call of the pipeline meets its specification. *)
From Coq Require Import List Arith Bool String Ascii Lia.
From Verif Require Import Base WalkModel WalkSpec WalkProofs WalkRunProofs WalkGenProofs DriveModel DriveSpec.
Import ListNotations.
Local Open Scope string_scope.
Local Open Scope list_scope.

(** ** Paths *)
Lemma slash_iff : forall s, contains "/" s = true <-> slash s.
Proof.
  assert (PX : forall c s, String.prefix "/" (String c s) = true <-> c = "/"%char).
  { intros c s. change (String.prefix "/" (String c s)) with (if ascii_dec "/" c then String.prefix EmptyString s else false). destruct (ascii_dec "/" c) as [E|N]; [|split; [discriminate|congruence]]. split; [congruence|]. intros _. destruct s; reflexivity. }
  induction s as [|c s IH].
  - split; [discriminate|]. intros ([|x a] & b & E); discriminate.
  - change (contains "/" (String c s)) with (String.prefix "/" (String c s) || contains "/" s). rewrite orb_true_iff, IH, PX. split.
    + intros [->|(a & b & ->)]; [exists EmptyString, s; reflexivity|exists (String c a), b; reflexivity].
    + intros ([|x a] & b & E).
      * left. injection E as -> E. reflexivity.
      * right. injection E as -> E. exists a, b. exact E.
Qed.

Section Drive.
Context {Dt Cal : Type}.
Notation frame := (frame Dt).
Notation cur := (cur Dt).
Notation event := (event Dt Cal).
Notation world := (world Dt Cal).
Variable known : string -> bool.
Variable lookup : list frame -> refr Dt -> string -> result string.
Variable cal_load : list event -> string -> string -> result Cal.
Variable img_load : list event -> string -> result frame.
Variable sem : string -> option (cur -> list (option Cal) -> list (string * kv) -> result cur).
Variable json : string -> option recipe.
Variable recipe_dir : string.
Variable db0 : list frame.
Notation visits := (visits known lookup cal_load img_load sem db0).
Notation breaks := (breaks known lookup cal_load img_load sem db0).
Notation generated := (generated (Cal := Cal) known lookup img_load json recipe_dir db0).
Notation chosen := (chosen (Dt := Dt) json recipe_dir).
Notation made_of := (made_of known lookup).
Notation run_all := (run_all known lookup cal_load img_load sem db0).
Notation walk := (walk_corgidrp known lookup cal_load img_load sem json recipe_dir db0).

Lemma path_iff : forall s p, names_path recipe_dir s p <-> p = template_path recipe_dir s.
Proof using.
  intros s p. unfold names_path, template_path. pose proof (slash_iff s) as I. destruct (contains "/" s).
  - assert (S : slash s) by (apply I; reflexivity). split; [intros [(_ & ->)|(N & _)]; [reflexivity|contradiction]|intros ->; left; split; [exact S|reflexivity]].
  - assert (S : ~ slash s) by (intros S; apply I in S; discriminate). split; [intros [(N & _)|(_ & ->)]; [contradiction|reflexivity]|intros ->; right; split; [exact S|reflexivity]].
Qed.

Lemma Forall2_cons_iff : forall {X Y} (P : X -> Y -> Prop) x y l m, Forall2 P (x :: l) (y :: m) <-> P x y /\ Forall2 P l m.
Proof using. intros. split; [intros H; inversion H; subst; split; assumption|intros (A & B); constructor; assumption]. Qed.
(** ** Objects in a row *)
Lemma set_mid : forall {X} (a : list X) x y b n, n = List.length a -> set_nth n x (a ++ y :: b) = a ++ x :: b.
Proof using. intros X a x y b n ->. induction a as [|z a IH]; [reflexivity|]. cbn. rewrite IH. reflexivity. Qed.
Lemma nth_mid : forall {X} (a : list X) y b n, n = List.length a -> nth_error (a ++ y :: b) n = Some y.
Proof using. intros X a y b n ->. induction a as [|z a IH]; [reflexivity|exact IH]. Qed.
Lemma alloc_objects : forall rs st, alloc_all st rs = (st ++ map body rs, objects (List.length st) rs).
Proof using.
  induction rs as [|r rs IH]; intros st; cbn [alloc_all map objects]; [rewrite app_nil_r; reflexivity|]. unfold alloc. rewrite IH, app_length, Nat.add_1_r. cbn [List.length]. rewrite <- app_assoc. reflexivity.
Qed.
Lemma value_mid : forall a b n r, n = List.length a -> value_of (a ++ body r :: b) (mkro (r_name r) (r_tmpl r) (r_cfg r) (r_out r) n) = Some r.
Proof using. intros a b n r E. unfold value_of. cbn [o_ref o_name o_tmpl o_cfg o_out]. rewrite (nth_mid a (body r) b n E). destruct r. reflexivity. Qed.

(** ** Generation *)
Lemma all_made : forall g db frames files outdir ts base tail st' os,
  autogen_all known lookup g db (first_of frames) files outdir (base ++ map body ts ++ tail) (objects (List.length base) ts) = (st', Ok os) <->
  exists rs, Forall2 (made_of g db frames files outdir) ts rs /\ st' = base ++ map body rs ++ tail /\ os = objects (List.length base) rs.
Proof using.
  intros g db frames files outdir. induction ts as [|t ts IH]; intros base tail st' os; cbn [autogen_all map objects].
  - split; [intros H; injection H as <- <-; exists []; split; [constructor|split; reflexivity]|]. intros (rs & F & -> & ->). inversion F. reflexivity.
  - set (o := mkro (r_name t) (r_tmpl t) (r_cfg t) (r_out t) (List.length base)). cbn [app]. set (st := base ++ body t :: map body ts ++ tail). split.
    + destruct (autogen_one known lookup g db (first_of frames) files outdir st o) as [st1 [o1|e]] eqn:E; [|discriminate]. apply one_iff in E. destruct E as (ins & sts & sts' & N & F & -> & ->). unfold st in N. cbn [o_ref o] in N. rewrite nth_mid in N by reflexivity. injection N as <- <-. cbn [o o_ref o_cfg o_name]. unfold st. rewrite set_mid by reflexivity.
      set (r := mkrec (r_name t) false (r_cfg t) (r_in t ++ files) outdir sts'). assert (SP : base ++ (r_in t ++ files, sts') :: map body ts ++ tail = (base ++ [body r]) ++ map body ts ++ tail) by (rewrite <- app_assoc; reflexivity). rewrite SP.
      destruct (autogen_all known lookup g db (first_of frames) files outdir ((base ++ [body r]) ++ map body ts ++ tail) (objects (Datatypes.S (List.length base)) ts)) as [st2 [os2|e]] eqn:E2; [|discriminate]. intros H. injection H as <- <-.
      replace (Datatypes.S (List.length base)) with (List.length (base ++ [body r])) in E2 by (rewrite app_length, Nat.add_1_r; reflexivity). apply IH in E2. destruct E2 as (rs & F2 & -> & ->). exists (r :: rs). split; [constructor; [exists sts'; split; [exact F|reflexivity]|exact F2]|]. split; [rewrite <- app_assoc; reflexivity|]. cbn [objects]. rewrite app_length, Nat.add_1_r. reflexivity.
    + intros (rs & F & -> & ->). destruct rs as [|r rs]; [inversion F|]. apply Forall2_cons_iff in F. destruct F as ((sts' & F & ->) & F2). set (r := mkrec (r_name t) false (r_cfg t) (r_in t ++ files) outdir sts').
      assert (E : autogen_one known lookup g db (first_of frames) files outdir st o = (base ++ body r :: map body ts ++ tail, Ok (mkro (r_name t) false (r_cfg t) outdir (List.length base)))).
      { apply one_iff. exists (r_in t), (r_steps t), sts'. split; [unfold st; cbn [o o_ref]; rewrite nth_mid by reflexivity; reflexivity|]. split; [exact F|]. split; [unfold st; cbn [o o_ref]; rewrite set_mid by reflexivity; reflexivity|reflexivity]. }
      rewrite E. assert (E2 : autogen_all known lookup g db (first_of frames) files outdir ((base ++ [body r]) ++ map body ts ++ tail) (objects (List.length (base ++ [body r])) ts) = ((base ++ [body r]) ++ map body rs ++ tail, Ok (objects (List.length (base ++ [body r])) rs))) by (apply IH; exists rs; split; [exact F2|split; reflexivity]).
      rewrite app_length, Nat.add_1_r, <- !app_assoc in E2. cbn [app] in E2. rewrite E2. cbn [map objects app]. reflexivity.
Qed.
Lemma rf_first : forall frames : list frame, match frames with [] => RNone | f :: _ => RFrame f end = first_of frames.
Proof using. reflexivity. Qed.
Lemma loads : forall ev files frames, match files with [] => Ok [] | _ :: _ => mapW (img_load ev) files end = Ok frames <-> Forall2 (fun p f => img_load ev p = Ok f) files frames.
Proof using. intros ev [|p l] frames; [split; [intros H; injection H as <-; constructor|intros H; inversion H; reflexivity]|apply mapW_ok]. Qed.
Definition generation (u : world) (files : list string) (outdir : string) (a : targ) : store * result (list robj) :=
  match load_template json recipe_dir a (u_st u) with
  | (st1, Raise e) => (st1, Raise e)
  | (st1, Ok tmpl) => autogen_recipe known lookup (img_load (u_ev u)) (shipped json recipe_dir) (u_cfg u) (db0 ++ registered (u_ev u)) files outdir tmpl st1
  end.
Lemma walk_eq : forall u files outdir a, walk u files outdir a =
  match generation u files outdir a with
  | (st2, Raise e) => (mkworld (u_cfg u) (u_ev u) st2, Raise e)
  | (st2, Ok os) => match run_all (mkworld (u_cfg u) (u_ev u) st2) os with (u', Some e) => (u', Raise e) | (u', None) => (u', Ok os) end
  end.
Proof using. intros u files outdir a. unfold walk_corgidrp, generation. destruct (load_template json recipe_dir a (u_st u)) as [st1 [t|e]]; reflexivity. Qed.
Lemma generation_iff : forall u files outdir a st' os, not_object a -> (generation u files outdir a = (st', Ok os) <->
  exists rs, generated (u_cfg u) (u_ev u) files outdir a rs /\ st' = u_st u ++ map body rs /\ os = objects (List.length (u_st u)) rs).
Proof using.
  intros u files outdir a st' os NO. unfold generation, DriveSpec.generated. pose proof (loads (u_ev u) files) as LD. set (X := match files with [] => Ok [] | _ :: _ => mapW (img_load (u_ev u)) files end) in LD. destruct a as [|s|o]; [| |destruct NO].
  - cbn [load_template]. unfold autogen_recipe. fold X. destruct X as [frames|e].
    + assert (FL : Forall2 (fun p f => img_load (u_ev u) p = Ok f) files frames) by (apply LD; reflexivity). rewrite rf_first. destruct files as [|p files].
      * split; [discriminate|]. intros (rs & (frames' & ts & FL' & (f & fs & names & E & _) & _) & _). inversion FL'. subst. discriminate.
      * destruct frames as [|f frames]; [inversion FL|]. destruct (guess_template (map f_hdr (f :: frames))) as [names|e] eqn:GT; cbn [bind].
        -- destruct (mapW (fun n => match shipped json recipe_dir n with Some r => Ok r | None => Raise PyException end) names) as [ts|e] eqn:MT.
           ++ rewrite alloc_objects. rewrite <- (app_nil_r (map body ts)), all_made. split.
              ** intros (rs & F & -> & ->). exists rs. rewrite app_nil_r. split; [|split; reflexivity]. exists (f :: frames), ts. split; [exact FL|]. split; [|exact F]. exists f, frames, names. split; [reflexivity|]. split; [apply guess_iff; exact GT|]. apply mapW_ok in MT. clear - MT. induction MT as [|n t l m H _ IH]; constructor; [|exact IH]. unfold shipped in H. destruct (json _); [congruence|discriminate].
              ** intros (rs & (frames' & ts' & FL' & (f' & fs' & names' & E & PK & FN) & F) & -> & ->). assert (FF : frames' = f :: frames) by (apply LD in FL'; congruence). assert (E2 : f :: frames = f' :: fs') by congruence. clear E. subst frames'. injection E2 as <- <-. assert (PK2 : guess_template (map f_hdr (f :: frames)) = Ok names') by (apply guess_iff; exact PK). assert (NN : names' = names) by congruence. subst names'. assert (ts' = ts). { apply mapW_ok in MT. clear - MT FN. revert ts' FN. induction MT as [|n t l m H _ IH]; intros ts' FN; inversion FN; subst; [reflexivity|]. f_equal; [|apply IH; assumption]. unfold shipped in H. match goal with E : json _ = Some _ |- _ => rewrite E in H end. congruence. } subst ts'. exists rs. rewrite app_nil_r. split; [exact F|split; reflexivity].
           ++ split; [discriminate|]. intros (rs & (frames' & ts' & FL' & (f' & fs' & names' & E & PK & FN) & F) & _). assert (FF : frames' = f :: frames) by (apply LD in FL'; congruence). assert (E2 : f :: frames = f' :: fs') by congruence. clear E. subst frames'. injection E2 as <- <-. assert (PK2 : guess_template (map f_hdr (f :: frames)) = Ok names') by (apply guess_iff; exact PK). assert (NN : names' = names) by congruence. subst names'. assert (mapW (fun n => match shipped json recipe_dir n with Some r => Ok r | None => Raise PyException end) names = Ok ts'); [|congruence]. apply mapW_ok. clear - FN. induction FN as [|n t l m H _ IH]; constructor; [|exact IH]. unfold shipped. rewrite H. reflexivity.
        -- split; [discriminate|]. intros (rs & (frames' & ts' & FL' & (f' & fs' & names' & E & PK & FN) & F) & _). assert (FF : frames' = f :: frames) by (apply LD in FL'; congruence). assert (E2 : f :: frames = f' :: fs') by congruence. clear E. subst frames'. injection E2 as <- <-. assert (PK2 : guess_template (map f_hdr (f :: frames)) = Ok names') by (apply guess_iff; exact PK). congruence.
    + split; [discriminate|]. intros (rs & (frames & ts & FL & _) & _). apply LD in FL. discriminate.
  - cbn [load_template]. destruct (json (template_path recipe_dir s)) as [t|] eqn:J.
    + unfold alloc. unfold autogen_recipe. fold X. destruct X as [frames|e].
      * rewrite rf_first. change [(r_in t, r_steps t)] with (map body [t] ++ []). change [mkro (r_name t) (r_tmpl t) (r_cfg t) (r_out t) (List.length (u_st u))] with (objects (List.length (u_st u)) [t]). rewrite all_made. split.
        -- intros (rs & F & -> & ->). exists rs. rewrite app_nil_r. split; [|split; reflexivity]. exists frames, [t]. split; [apply LD; reflexivity|]. split; [|exact F]. exists (template_path recipe_dir s), t. split; [apply path_iff; reflexivity|]. split; [exact J|reflexivity].
        -- intros (rs & (frames' & ts & FL & (p & t' & NP & J' & ->) & F) & -> & ->). apply LD in FL. injection FL as <-. apply path_iff in NP. subst p. rewrite J in J'. injection J' as <-. exists rs. rewrite app_nil_r. split; [exact F|split; reflexivity].
      * split; [discriminate|]. intros (rs & (frames & ts & FL & _) & _). apply LD in FL. discriminate.
    + split; [discriminate|]. intros (rs & (frames & ts & _ & (p & t & NP & J' & _) & _) & _). apply path_iff in NP. subst p. congruence.
Qed.

(** ** Running *)
Lemma run_ok : forall rs g ev base tail u', run_all (mkworld g ev (base ++ map body rs ++ tail)) (objects (List.length base) rs) = (u', None) <->
  exists rs', visits g ev rs (u_cfg u') (u_ev u') rs' /\ u_st u' = base ++ map body rs' ++ tail.
Proof using.
  induction rs as [|r rs IH]; intros g ev base tail u'; cbn [DriveModel.run_all map objects].
  - split; [intros H; injection H as <-; exists []; split; [constructor|reflexivity]|]. intros (rs' & V & S). inversion V; subst. destruct u' as [g' ev' st']. cbn in *. subst. reflexivity.
  - cbn [app u_st u_ev u_cfg]. rewrite value_mid by reflexivity. cbn [o_ref].
    destruct (run_recipe known lookup (cal_load ev) (img_load ev) sem g (db0 ++ registered ev) true r) as [[[g1 r1] w] [e|]] eqn:E.
    + split; [discriminate|]. intros (rs' & V & _). inversion V; subst. assert (X : run_recipe known lookup (cal_load ev) (img_load ev) sem g (db0 ++ registered ev) true r = (configure (r_cfg r) g, with_steps r l, w0, None)) by (apply recipe_ok; split; [reflexivity|]; exists c, l; split; [assumption|]; split; [assumption|reflexivity]). congruence.
    + rewrite set_mid by reflexivity. pose proof E as E'. apply recipe_ok in E. destruct E as (-> & c & l & L & EX & ->).
      assert (SP : base ++ (r_in (with_steps r l), r_steps (with_steps r l)) :: map body rs ++ tail = (base ++ [body (with_steps r l)]) ++ map body rs ++ tail) by (rewrite <- app_assoc; reflexivity). rewrite SP.
      replace (Datatypes.S (List.length base)) with (List.length (base ++ [body (with_steps r l)])) by (rewrite app_length, Nat.add_1_r; reflexivity). rewrite IH. split.
      * intros (rs' & V & S). exists (with_steps r l :: rs'). split; [econstructor; eassumption|]. rewrite S, <- app_assoc. reflexivity.
      * intros (rs' & V & S). inversion V; subst. assert (X : run_recipe known lookup (cal_load ev) (img_load ev) sem g (db0 ++ registered ev) true r = (configure (r_cfg r) g, with_steps r l0, w0, None)) by (apply recipe_ok; split; [reflexivity|]; exists c0, l0; split; [assumption|]; split; [assumption|reflexivity]). rewrite E' in X. assert (WL : with_steps r l0 = with_steps r l) by congruence. assert (WW : w0 = w) by congruence. subst w0. rewrite WL in S. exists rs'0. split; [assumption|]. rewrite S, <- app_assoc. reflexivity.
Qed.
Lemma run_fails : forall rs g ev base tail u' e, run_all (mkworld g ev (base ++ map body rs ++ tail)) (objects (List.length base) rs) = (u', Some e) <->
  exists pre r post pre' g1 ev1 r', rs = pre ++ r :: post /\ visits g ev pre g1 ev1 pre' /\ breaks g1 ev1 r (u_cfg u') (u_ev u') r' e
  /\ u_st u' = base ++ map body (pre' ++ r' :: post) ++ tail.
Proof using.
  assert (BR : forall g ev r g' r' (w : wst Dt Cal) e, run_recipe known lookup (cal_load ev) (img_load ev) sem g (db0 ++ registered ev) true r = (g', r', w, Some e) -> breaks g ev r g' (ev ++ w_ev w) r' e).
  { intros g ev r g' r' w e H. apply recipe_fail in H. destruct H as (-> & [(-> & -> & X)|(c & pre & s & post & pre' & s' & w1 & H)]); (split; [reflexivity|]); [left; split; [reflexivity|]; split; [apply app_nil_r|exact X]|right]. destruct H as (A1 & A2 & A3 & A4 & A5). exists c, pre, s, post, pre', s', w1, w. split; [exact A1|]. split; [exact A2|]. split; [exact A3|]. split; [reflexivity|]. split; [exact A4|exact A5]. }
  assert (RB : forall g ev r g' ev' r' e, breaks g ev r g' ev' r' e -> exists w, run_recipe known lookup (cal_load ev) (img_load ev) sem g (db0 ++ registered ev) true r = (g', r', w, Some e) /\ ev' = ev ++ w_ev w).
  { intros g ev r g' ev' r' e (-> & [(-> & -> & X)|(c & pre & s & post & pre' & s' & w1 & w & L & RS & R' & EV & EX & FS)]).
    - exists (mkw CNone []). split; [|symmetry; apply app_nil_r]. apply recipe_fail. split; [reflexivity|]. left. split; [reflexivity|]. split; [reflexivity|exact X].
    - exists w. split; [|exact EV]. apply recipe_fail. split; [reflexivity|]. right. exists c, pre, s, post, pre', s', w1. split; [exact L|]. split; [exact RS|]. split; [exact R'|]. split; [exact EX|exact FS]. }
  induction rs as [|r rs IH]; intros g ev base tail u' e; cbn [DriveModel.run_all map objects].
  - split; [discriminate|]. intros ([|] & ? & ? & ? & ? & ? & ? & H & _); discriminate.
  - cbn [app u_st u_ev u_cfg]. rewrite value_mid by reflexivity. cbn [o_ref].
    destruct (run_recipe known lookup (cal_load ev) (img_load ev) sem g (db0 ++ registered ev) true r) as [[[g1 r1] w] [x|]] eqn:E.
    + split.
      * intros H. injection H as <- <-. exists [], r, rs, [], g, ev, r1. split; [reflexivity|]. split; [constructor|]. split; [apply BR; exact E|]. cbn [u_st]. rewrite set_mid by reflexivity. reflexivity.
      * intros (pre & r0 & post & pre' & g0 & ev0 & r' & H & V & B & S). destruct pre as [|q pre]; cbn [app] in H; injection H as H1 H2; first [subst q | subst r0]; subst rs.
        -- inversion V; subst. apply RB in B. destruct B as (w' & B & EV). rewrite E in B. injection B as B1 B2 B3 B4. destruct u' as [gu evu stu]. cbn [u_cfg u_ev u_st] in *. subst. rewrite set_mid by reflexivity. reflexivity.
        -- inversion V; subst. assert (X : run_recipe known lookup (cal_load ev) (img_load ev) sem g (db0 ++ registered ev) true r = (configure (r_cfg r) g, with_steps r l, w0, None)) by (apply recipe_ok; split; [reflexivity|]; exists c, l; split; [assumption|]; split; [assumption|reflexivity]). congruence.
    + rewrite set_mid by reflexivity. pose proof E as E'. apply recipe_ok in E. destruct E as (-> & c & l & L & EX & ->).
      assert (SP : base ++ (r_in (with_steps r l), r_steps (with_steps r l)) :: map body rs ++ tail = (base ++ [body (with_steps r l)]) ++ map body rs ++ tail) by (rewrite <- app_assoc; reflexivity). rewrite SP.
      replace (Datatypes.S (List.length base)) with (List.length (base ++ [body (with_steps r l)])) by (rewrite app_length, Nat.add_1_r; reflexivity). rewrite IH. split.
      * intros (pre & r0 & post & pre' & g0 & ev0 & r' & -> & V & B & S). exists (r :: pre), r0, post, (with_steps r l :: pre'), g0, ev0, r'. split; [reflexivity|]. split; [econstructor; eassumption|]. split; [exact B|]. rewrite S, <- app_assoc. reflexivity.
      * intros (pre & r0 & post & pre' & g0 & ev0 & r' & H & V & B & S). destruct pre as [|q pre]; cbn [app] in H; injection H as H1 H2; first [subst q | subst r0]; subst rs.
        -- inversion V; subst. apply RB in B. destruct B as (w' & B & _). congruence.
        -- inversion V; subst. assert (X : run_recipe known lookup (cal_load ev) (img_load ev) sem g (db0 ++ registered ev) true r = (configure (r_cfg r) g, with_steps r l0, w0, None)) by (apply recipe_ok; split; [reflexivity|]; exists c0, l0; split; [assumption|]; split; [assumption|reflexivity]). rewrite E' in X. assert (WL : with_steps r l0 = with_steps r l) by congruence. assert (WW : w0 = w) by congruence. subst w0. rewrite WL in S. exists pre, r0, post, rs', g0, ev0, r'. split; [reflexivity|]. split; [assumption|]. split; [exact B|]. rewrite S, <- app_assoc. reflexivity.
Qed.

(** ** The call *)
Theorem walk_ok : forall u files outdir a u' os, not_object a -> (walk u files outdir a = (u', Ok os) <->
  exists rs rs', generated (u_cfg u) (u_ev u) files outdir a rs /\ visits (u_cfg u) (u_ev u) rs (u_cfg u') (u_ev u') rs'
  /\ u_st u' = u_st u ++ map body rs' /\ os = objects (List.length (u_st u)) rs).
Proof using.
  intros u files outdir a u' os NO. rewrite walk_eq. destruct (generation u files outdir a) as [st2 [os2|e]] eqn:G.
  - apply generation_iff in G; [|exact NO]. destruct G as (rs & G & -> & ->). assert (RK : forall u', run_all (mkworld (u_cfg u) (u_ev u) (u_st u ++ map body rs)) (objects (List.length (u_st u)) rs) = (u', None) <-> exists rs', visits (u_cfg u) (u_ev u) rs (u_cfg u') (u_ev u') rs' /\ u_st u' = u_st u ++ map body rs' ++ []) by (intros v; pose proof (run_ok rs (u_cfg u) (u_ev u) (u_st u) [] v) as RK; rewrite app_nil_r in RK; exact RK). split.
    + specialize (RK u'). destruct (run_all _ _) as [u1 [e|]] eqn:E; [discriminate|]. intros H. injection H as H1 H2. subst u1 os. destruct RK as (RK & _). destruct (RK eq_refl) as (rs' & V & S). rewrite app_nil_r in S. exists rs, rs'. split; [exact G|]. split; [exact V|]. split; [exact S|reflexivity].
    + intros (rs0 & rs' & G0 & V & S & ->). assert (EQ : objects (List.length (u_st u)) rs0 = objects (List.length (u_st u)) rs /\ map body rs0 = map body rs). { assert (A : generation u files outdir a = (u_st u ++ map body rs0, Ok (objects (List.length (u_st u)) rs0))) by (apply generation_iff; [exact NO|]; exists rs0; split; [exact G0|split; reflexivity]). assert (B : generation u files outdir a = (u_st u ++ map body rs, Ok (objects (List.length (u_st u)) rs))) by (apply generation_iff; [exact NO|]; exists rs; split; [exact G|split; reflexivity]). rewrite A in B. injection B as B1 B2. apply app_inv_head in B1. split; assumption. }
      destruct EQ as (EO & EB). assert (rs0 = rs). { clear - EO EB. revert rs EO EB. generalize (List.length (u_st u)). induction rs0 as [|a l IH]; intros n [|b m] EO EB; try discriminate; [reflexivity|]. cbn [objects map body] in EO, EB. injection EO as E1 E2 E3 E4 E5. injection EB as F1 F2 F3. f_equal; [destruct a, b; cbn in *; congruence|]. eapply IH; eassumption. } subst rs0.
      assert (E : run_all (mkworld (u_cfg u) (u_ev u) (u_st u ++ map body rs)) (objects (List.length (u_st u)) rs) = (u', None)) by (apply RK; exists rs'; split; [exact V|rewrite app_nil_r; exact S]). rewrite E. reflexivity.
  - split; [discriminate|]. intros (rs & rs' & G0 & _). assert (A : generation u files outdir a = (u_st u ++ map body rs, Ok (objects (List.length (u_st u)) rs))) by (apply generation_iff; [exact NO|]; exists rs; split; [exact G0|split; reflexivity]). congruence.
Qed.
Theorem walk_raises : forall u files outdir a u' e, not_object a -> walk u files outdir a = (u', Raise e) ->
  (u_cfg u' = u_cfg u /\ u_ev u' = u_ev u /\ forall rs, ~ generated (u_cfg u) (u_ev u) files outdir a rs)
  \/ exists pre r post pre' g1 ev1 r', generated (u_cfg u) (u_ev u) files outdir a (pre ++ r :: post) /\ visits (u_cfg u) (u_ev u) pre g1 ev1 pre'
     /\ breaks g1 ev1 r (u_cfg u') (u_ev u') r' e /\ u_st u' = u_st u ++ map body (pre' ++ r' :: post).
Proof using.
  intros u files outdir a u' e NO. rewrite walk_eq. destruct (generation u files outdir a) as [st2 [os2|x]] eqn:G.
  - apply generation_iff in G; [|exact NO]. destruct G as (rs & G & -> & ->). pose proof (run_fails rs (u_cfg u) (u_ev u) (u_st u) [] u' e) as RK. rewrite app_nil_r in RK.
    destruct (run_all _ _) as [u1 [x|]] eqn:E; [|discriminate]. intros H. injection H as H1 H2. subst u1 x. destruct RK as (RK & _). destruct (RK eq_refl) as (pre & r & post & pre' & g1 & ev1 & r' & -> & V & B & S). rewrite app_nil_r in S. right. exists pre, r, post, pre', g1, ev1, r'. auto.
  - intros H. injection H as <- <-. left. split; [reflexivity|]. split; [reflexivity|]. intros rs G0. assert (A : generation u files outdir a = (u_st u ++ map body rs, Ok (objects (List.length (u_st u)) rs))) by (apply generation_iff; [exact NO|]; exists rs; split; [exact G0|split; reflexivity]). congruence.
Qed.
(** With an object: one recipe, which shares inputs and steps with it *)
Theorem walk_object : forall u files outdir o u' os, walk u files outdir (TObject o) = (u', Ok os) <->
  exists t r r' frames, value_of (u_st u) o = Some t /\ Forall2 (fun p f => img_load (u_ev u) p = Ok f) files frames
  /\ made_of (u_cfg u) (db0 ++ registered (u_ev u)) frames files outdir t r
  /\ visits (u_cfg u) (u_ev u) [r] (u_cfg u') (u_ev u') [r']
  /\ u_st u' = set_nth (o_ref o) (body r') (u_st u) /\ os = [mkro (r_name r) false (r_cfg r) outdir (o_ref o)].
Proof using.
  intros u files outdir o u' os. rewrite walk_eq. unfold generation. cbn [load_template]. unfold autogen_recipe. pose proof (loads (u_ev u) files) as LD. set (X := match files with [] => Ok [] | _ :: _ => mapW (img_load (u_ev u)) files end) in LD |- *. destruct X as [frames|e].
  2:{ split; [discriminate|]. intros (t & r & r' & frames & _ & FL & _). apply LD in FL. discriminate. }
  rewrite rf_first. assert (FL : Forall2 (fun p f => img_load (u_ev u) p = Ok f) files frames) by (apply LD; reflexivity).
  destruct (nth_error (u_st u) (o_ref o)) as [[ins sts]|] eqn:N.
  2:{ cbn [autogen_all]. unfold autogen_one. rewrite N. split; [discriminate|]. intros (t & r & r' & frames' & V & _). unfold value_of in V. rewrite N in V. discriminate. }
  destruct (nth_error_split _ _ N) as (a & b & S & LA). set (t := mkrec (o_name o) (o_tmpl o) (o_cfg o) ins (o_out o) sts). assert (VT : value_of (u_st u) o = Some t) by (unfold value_of; rewrite N; reflexivity).
  assert (OB : [o] = objects (List.length a) [t]) by (destruct o; cbn in *; subst; reflexivity). assert (ST : u_st u = a ++ map body [t] ++ b) by (rewrite S; reflexivity). rewrite OB, ST. split.
  - destruct (autogen_all known lookup (u_cfg u) (db0 ++ registered (u_ev u)) (first_of frames) files outdir (a ++ map body [t] ++ b) (objects (List.length a) [t])) as [st2 [os2|e]] eqn:G; [|discriminate]. apply all_made in G. destruct G as (rs & F & -> & ->). destruct rs as [|r [|r2 rs]]; [inversion F| |inversion F as [|? ? ? ? _ F2]; inversion F2]. apply Forall2_cons_iff in F. destruct F as (M & _).
    destruct (run_all _ _) as [u1 [e|]] eqn:E; [discriminate|]. intros H. injection H as <- <-. apply run_ok in E. destruct E as (rs' & V & SU). pose proof V as V'. inversion V as [|? ? ? ? ? l w ? ? rs2 L EX V2]; subst. inversion V2; subst. exists t, r, (with_steps r l), frames. rewrite <- ST. split; [exact VT|]. split; [exact FL|]. split; [exact M|]. split; [match goal with A : _ = u_cfg u1, B : _ = u_ev u1 |- _ => rewrite A, B end; exact V'|]. split; [rewrite SU, S; cbn [map app]; rewrite set_mid by (rewrite LA; reflexivity); reflexivity|]. cbn [objects]. destruct M as (sts' & _ & ->). cbn. rewrite LA. reflexivity.
  - intros (t' & r & r' & frames' & V' & FL' & M & V & SU & ->). rewrite <- ST in V'. rewrite VT in V'. injection V' as <-. assert (frames' = frames) by (apply LD in FL'; congruence). subst frames'.
    assert (G : autogen_all known lookup (u_cfg u) (db0 ++ registered (u_ev u)) (first_of frames) files outdir (a ++ map body [t] ++ b) (objects (List.length a) [t]) = (a ++ map body [r] ++ b, Ok (objects (List.length a) [r]))) by (apply all_made; exists [r]; split; [constructor; [exact M|constructor]|split; reflexivity]). rewrite G.
    assert (E : run_all (mkworld (u_cfg u) (u_ev u) (a ++ map body [r] ++ b)) (objects (List.length a) [r]) = (u', None)). { apply run_ok. exists [r']. split; [exact V|]. rewrite SU. cbn [map app]. rewrite set_mid by (rewrite LA; reflexivity). reflexivity. }
    rewrite E. cbn [objects]. destruct M as (sts' & _ & ->). cbn. rewrite LA. reflexivity.
Qed.
End Drive.
