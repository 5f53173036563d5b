(** Proofs: the shipped templates are well typed, and stay so when a recipe is
    generated from them. *)
From Coq Require Import List Arith Bool String Lia.
From Verif Require Import Base WalkModel WalkSpec WalkStrProofs WalkProofs WalkRunProofs WalkGenProofs RecipeData RecipeModel RecipeSpec RecipeProofs.
Import ListNotations.
Local Open Scope string_scope.
Local Open Scope list_scope.

(** * A checker *)
Definition null_b (kw : list (string * kv)) (p : param) : bool := p_null p && forallb (fun u => existsb (String.eqb u) (map fst kw)) (p_unless p).
Definition chk_entry (kw : list (string * kv)) (p : param) (e : string * option string) : bool :=
  existsb (String.eqb (fst e)) (p_cls p) && known (fst e)
  && match snd e with None => false | Some a => negb (contains "AUTOMATIC" (upper a) && contains "OPTIONAL" (upper a)) || null_b kw p end.
Fixpoint chk_pos (kw : list (string * kv)) (ps : list param) (l : list (string * option string)) : option (list param) :=
  match l, ps with
  | [], _ => Some ps
  | e :: l', p :: ps' => if chk_entry kw p e then chk_pos kw ps' l' else None
  | _ :: _, [] => None
  end.
Definition chk_rest (kw : list (string * kv)) (p : param) : bool :=
  if existsb (String.eqb (p_name p)) (map fst kw) then match p_cls p with [] => true | _ => false end else negb (p_req p) && null_b kw p.
Definition chk_call (ps : list param) (s : step) : bool :=
  match chk_pos (kwargs s) ps (entries s) with
  | None => false
  | Some ps2 => forallb (fun k => existsb (String.eqb (fst k)) (map p_name ps2)) (kwargs s) && forallb (chk_rest (kwargs s)) ps2
  end.
Definition chk_step (s : step) (t : ty) : option ty :=
  if String.eqb (lower (s_name s)) "save" then
    match (match s_kw s with Some kw => assoc "suffix" kw | None => None end), t with
    | Some (KOther _), _ => None
    | _, TNone => None
    | _, _ => Some t
    end
  else match s_skip s with
  | Some true => None
  | _ => match assoc (s_name s) sigs with
         | None => None
         | Some ps => if chk_call ps s then effect (s_name s) (kwargs s) t else None
         end
  end.
Fixpoint chk (l : list step) (t : ty) : option ty :=
  match l with [] => Some t | s :: l' => match chk_step s t with None => None | Some t1 => chk l' t1 end end.

Definition tmpl_step (s : step) (t t' : ty) : Prop :=
  (is_save s /\ (exists x, suffix_of s x) /\ t <> TNone /\ t' = t)
  \/ (~ is_save s /\ ~ skipped s /\ exists ps, In (s_name s, ps) sigs /\ fine_call true ps s /\ effect (s_name s) (kwargs s) t = Some t').

Lemma ex_in : forall k l, existsb (String.eqb k) l = true <-> In k l.
Proof.
  intros k l. rewrite existsb_exists. split; [intros (x & H & E); apply String.eqb_eq in E; subst; exact H | intros H; exists k; split; [exact H|apply String.eqb_refl]].
Qed.
Lemma null_ok : forall kw p, null_b kw p = true -> no_cal_ok kw p.
Proof.
  intros kw p H. apply andb_true_iff in H as [H1 H2]. split; [exact H1|]. rewrite forallb_forall in H2. intros u Hu. apply ex_in. exact (H2 u Hu).
Qed.
Lemma entry_chk : forall kw p e, chk_entry kw p e = true -> fine_entry true kw p e.
Proof.
  intros kw p [k v] H. unfold chk_entry in H; cbn [fst snd] in H. apply andb_true_iff in H as [H H3]. apply andb_true_iff in H as [H1 H2].
  split; [apply ex_in; exact H1|]. split; [exact H2|]. cbn [snd]. destruct v as [a|]; [|discriminate]. intros _ A O. apply orb_true_iff in H3 as [H3|H3]; [|exact (null_ok _ _ H3)].
  apply mentions_iff in A. apply mentions_iff in O. rewrite A, O in H3. discriminate.
Qed.
Lemma pos_chk : forall kw l ps r, chk_pos kw ps l = Some r -> exists ps1, ps = ps1 ++ r /\ Forall2 (fine_entry true kw) ps1 l.
Proof.
  intros kw; induction l as [|e l IH]; intros ps r H; cbn [chk_pos] in H.
  - exists []. split; [|constructor]. destruct ps; cbn [chk_pos] in H; injection H as <-; reflexivity.
  - destruct ps as [|p ps]; cbn [chk_pos] in H; [discriminate|]. destruct (chk_entry kw p e) eqn:E; [|discriminate]. destruct (IH _ _ H) as (ps1 & -> & F). exists (p :: ps1). split; [reflexivity|constructor; [exact (entry_chk _ _ _ E)|exact F]].
Qed.
Lemma call_chk : forall ps s, chk_call ps s = true -> fine_call true ps s.
Proof.
  intros ps s H. unfold chk_call in H. destruct (chk_pos (kwargs s) ps (entries s)) as [ps2|] eqn:E; [|discriminate]. apply andb_true_iff in H as [H1 H2].
  destruct (pos_chk _ _ _ _ E) as (ps1 & -> & F). exists ps1, ps2. split; [reflexivity|]. split; [exact F|]. split; [exact (proj1 (keys_in _ _) H1)|].
  apply Forall_forall. intros p Hp. rewrite forallb_forall in H2. specialize (H2 p Hp). unfold chk_rest in H2. destruct (existsb (String.eqb (p_name p)) (map fst (kwargs s))) eqn:X.
  - left. split; [apply ex_in; exact X|]. destruct (p_cls p); [reflexivity|discriminate].
  - right. split; [intros I; apply ex_in in I; congruence|]. apply andb_true_iff in H2 as [A B]. split; [apply negb_true_iff; exact A | exact (null_ok _ _ B)].
Qed.
Lemma step_chk : forall s t t', chk_step s t = Some t' -> tmpl_step s t t'.
Proof.
  intros s t t' H. unfold chk_step in H. destruct (String.eqb_spec (lower (s_name s)) "save") as [E|N].
  - left. split; [exact E|]. unfold suffix_of. destruct (s_kw s) as [kw|].
    + destruct (assoc "suffix" kw) as [[x|v]|]; [| discriminate |]; (destruct t; cbv iota beta in H; [discriminate | |]; injection H as <-); (split; [|split; [discriminate|reflexivity]]); solve [exists x; left; reflexivity | exists EmptyString; right; split; reflexivity].
    + destruct t; cbv iota beta in H; [discriminate| |]; injection H as <-; (split; [exists EmptyString; reflexivity | split; [discriminate|reflexivity]]).
  - right. split; [exact N|]. destruct (s_skip s) as [[]|] eqn:K; [discriminate| |]; (destruct (assoc (s_name s) sigs) as [ps|] eqn:A; [|discriminate]; destruct (chk_call ps s) eqn:C; [|discriminate];
      split; [unfold skipped; congruence|]; exists ps; split; [apply assoc_split in A as (a & b & -> & _); apply in_or_app; right; left; reflexivity | split; [exact (call_chk _ _ C) | exact H]]).
Qed.

(** * Generation *)
Lemma effect_kw : forall n kw kw' t, assoc "inputmode" kw = assoc "inputmode" kw' -> assoc "cal_type" kw = assoc "cal_type" kw' -> effect n kw t = effect n kw' t.
Proof. intros n kw kw' t H1 H2. unfold effect. rewrite H1, H2. reflexivity. Qed.
Lemma null_keys : forall kw kw' p, map fst kw = map fst kw' -> no_cal_ok kw p -> no_cal_ok kw' p.
Proof. intros kw kw' p E [H1 H2]. split; [exact H1|]. rewrite <- E. exact H2. Qed.
Lemma fine_keys : forall jit s s' ps, map fst (kwargs s) = map fst (kwargs s') -> s_calibs s = s_calibs s' -> fine_call jit ps s -> fine_call jit ps s'.
Proof.
  intros jit s s' ps E EC (ps1 & ps2 & -> & F & K & R). exists ps1, ps2. split; [reflexivity|]. unfold entries in *. rewrite <- EC, <- E. split; [|split; [exact K|]].
  - clear - F E. induction F as [|p x ps1 l (H1 & H2 & H3) F IH]; constructor; [|exact IH]. split; [exact H1|]. split; [exact H2|].
    destruct (snd x) as [a|]; [intros J A O; exact (null_keys _ _ _ E (H3 J A O)) | split; [exact (proj1 H3) | exact (null_keys _ _ _ E (proj2 H3))]].
  - clear - R E. induction R as [|p ps2 H R IH]; constructor; [|exact IH]. unfold fine_rest in *. rewrite <- E. destruct H as [H|(H1 & H2 & H3)]; [left; exact H | right]. split; [exact H1|]. split; [exact H2|]. exact (null_keys _ _ _ E H3).
Qed.
Lemma assoc_other : forall {X} k k' (v v' : X) pre post, k <> k' -> assoc k' (pre ++ (k, v) :: post) = assoc k' (pre ++ (k, v') :: post).
Proof.
  intros X k k' v v' pre post N. induction pre as [|[a x] pre IH]; cbn [app assoc]; [|destruct (String.eqb a k'); [reflexivity|exact IH]].
  destruct (String.eqb_spec k k'); [contradiction|reflexivity].
Qed.
Lemma dark_same_call : forall outdir s s', dark_dir outdir s s' -> s_name s' = s_name s /\ s_calibs s' = s_calibs s /\ s_skip s' = s_skip s /\ map fst (kwargs s) = map fst (kwargs s')
  /\ assoc "inputmode" (kwargs s) = assoc "inputmode" (kwargs s') /\ assoc "cal_type" (kwargs s) = assoc "cal_type" (kwargs s')
  /\ (is_save s -> s' = s).
Proof.
  intros outdir s s' D. unfold dark_dir in D. destruct (string_dec (lower (s_name s)) "dark_subtraction") as [E|N].
  - destruct D as (pre & d & post & K & NI & ->). cbn [s_name s_calibs s_skip]. unfold kwargs. rewrite K. cbn [s_kw].
    split; [reflexivity|]. split; [reflexivity|]. split; [reflexivity|]. split; [rewrite !map_app; reflexivity|]. split; [apply assoc_other; discriminate|]. split; [apply assoc_other; discriminate|].
    intros S1. unfold is_save in S1. rewrite E in S1. discriminate.
  - subst s'. repeat split.
Qed.
Lemma fill_same : forall find s s1, fill_spec known false find s s1 -> s_name s1 = s_name s /\ s_kw s1 = s_kw s /\ s_skip s1 = s_skip s.
Proof.
  intros find s s1 F. unfold fill_spec in F. destruct (s_calibs s) as [l|]; [|subst; repeat split]. destruct F as (l' & b & FA & ->). unfold with_calibs; cbn [s_name s_kw s_skip].
  assert (B : b = false). { destruct b; [|reflexivity]. destruct (proj1 (filled_skip _ _ _ _ _ _ FA) eq_refl) as (k & a & _ & _ & _ & _ & X). discriminate. } subst b. repeat split.
Qed.

Lemma gen_step : forall fill find outdir s s' t t', tmpl_step s t t' -> prepared known fill false find outdir s s' -> (fill = false -> s_calibs s <> None -> t <> TNone) -> fine_step (negb fill) s' t t'.
Proof.
  intros fill find outdir s s' t t' T (s1 & F & D) JN. destruct (dark_same_call _ _ _ D) as (N1 & C1 & K1 & E1 & I1 & Y1 & SV).
  assert (B : s_name s1 = s_name s /\ s_kw s1 = s_kw s /\ s_skip s1 = s_skip s /\ (s_calibs s1 <> None -> s_calibs s <> None)).
  { destruct fill; [|subst s1; repeat split; intros X; exact X]. destruct (fill_same _ _ _ F) as (A & B & C). split; [exact A|]. split; [exact B|]. split; [exact C|].
    unfold fill_spec in F. destruct (s_calibs s) eqn:CS; [discriminate|]. subst s1. rewrite CS. intros X; exact X. }
  destruct B as (N2 & K2 & SK2 & C2). assert (KW : kwargs s1 = kwargs s) by (unfold kwargs; rewrite K2; reflexivity).
  destruct T as [(S1 & SX & NT & ->)|(NS & NK & ps & I & FC & E)].
  - left. assert (S2 : is_save s1) by (unfold is_save; rewrite N2; exact S1). rewrite (SV S2). split; [exact S2|]. split; [|split; [exact NT|reflexivity]].
    destruct SX as (x & SX). exists x. unfold suffix_of in *. rewrite K2. exact SX.
  - right. split; [unfold is_save in *; rewrite N1, N2; exact NS|]. split; [unfold skipped in *; rewrite K1, SK2; exact NK|].
    split; [intros J X; rewrite C1 in X; apply JN; [apply negb_true_iff; exact J | exact (C2 X)]|]. exists ps. rewrite N1, N2. split; [exact I|].
    split; [|rewrite <- E, <- KW; apply effect_kw; symmetry; assumption].
    apply (fine_keys _ s1 s' ps E1 (eq_sym C1)). destruct fill; cbn [negb].
    + destruct FC as (ps1 & ps2 & -> & FE & K & R). exists ps1, ps2. split; [reflexivity|]. rewrite KW. split; [|split; assumption].
      unfold fill_spec in F. unfold entries in *. destruct (s_calibs s) as [l|] eqn:CS.
      * destruct F as (l' & b & FA & ->). unfold with_calibs; cbn [s_calibs]. exact (proj2 (entries_resolved _ _ _ _ _ _ FE FA)).
      * subst s1. rewrite CS. inversion FE; constructor.
    + subst s1. exact FC.
Qed.
Definition no_null_start (l : list step) (t : ty) : Prop := t <> TNone \/ forall s, In s l -> s_calibs s = None.
Lemma effect_not_none : forall n kw t t', effect n kw t = Some t' -> t' <> TNone.
Proof.
  intros n kw t t' H -> . unfold effect in H. destruct (assoc n updates) as [[a b]|].
  - destruct t as [|l|]; [discriminate| |discriminate]. destruct (String.eqb l a); discriminate.
  - destruct (String.eqb n "create_bad_pixel_map"); [discriminate|]. destruct (String.eqb n "calibrate_fluxcal_aper"); [destruct t; discriminate|].
    destruct t as [|l|]; [discriminate| |discriminate]. destruct (existsb (String.eqb n) makers); [discriminate|]. destruct (String.eqb n "get_pc_mean").
    + destruct (assoc "inputmode" kw) as [[m|]|]; try discriminate. destruct (String.eqb m "darks"); [discriminate|]. destruct (String.eqb m "illuminated"); discriminate.
    + destruct (String.eqb n "sort_pupilimg_frames"); [|discriminate]. destruct (assoc "cal_type" kw) as [[m|]|]; try discriminate. destruct (cal_type_ok m); discriminate.
Qed.
Lemma gen_fine : forall fill find outdir l l', Forall2 (prepared known fill false find outdir) l l' -> forall t t', chk l t = Some t' -> (fill = false -> t <> TNone) -> fine (negb fill) l' t t'.
Proof.
  intros fill find outdir l l' F. induction F as [|s s' l l' P F IH]; intros t t' C N; cbn [chk] in C.
  - injection C as ->. constructor.
  - destruct (chk_step s t) as [t1|] eqn:E; [|discriminate]. apply step_chk in E. econstructor; [exact (gen_step _ _ _ _ _ _ _ E P (fun J _ => N J))|]. apply IH; [exact C|].
    intros J. destruct E as [(_ & _ & NT & ->)|(_ & _ & ps & _ & _ & E)]; [exact NT | exact (effect_not_none _ _ _ _ E)].
Qed.

(** * The shipped templates *)
Definition decl_b (n : string) : option ty :=
  if prefix "l1_" n || existsb (String.eqb n) ["build_trad_dark_full_frame.json"; "build_trad_dark_image.json"; "test.json"; "trap_pump_cal.json"] then Some (TData "L1")
  else if prefix "l2a_" n then Some (TData "L2a") else if prefix "l2b_" n then Some (TData "L2b") else if prefix "l3_" n then Some (TData "L3")
  else if String.eqb n "bp_map.json" then Some TNone else None.
Definition all_ok : bool :=
  forallb (fun x => match decl_b (fst x) with None => false | Some t => match chk (r_steps (snd x)) t with Some _ => true | None => String.eqb (fst x) "l2b_to_l4.json" end end) templates.
Lemma all_ok_true : all_ok = true. Proof. vm_compute. reflexivity. Qed.
Lemma declared_b : forall n r t, In (n, r) templates -> declared n t -> decl_b n = Some t.
Proof.
  intros n r t I D.
  assert (G : forallb (fun x => let n := fst x in
     (negb (prefix "l1_" n || existsb (String.eqb n) ["build_trad_dark_full_frame.json"; "build_trad_dark_image.json"; "test.json"; "trap_pump_cal.json"]) || match decl_b n with Some (TData l) => String.eqb l "L1" | _ => false end)
     && (negb (prefix "l2a_" n) || match decl_b n with Some (TData l) => String.eqb l "L2a" | _ => false end)
     && (negb (prefix "l2b_" n) || match decl_b n with Some (TData l) => String.eqb l "L2b" | _ => false end)
     && (negb (prefix "l3_" n) || match decl_b n with Some (TData l) => String.eqb l "L3" | _ => false end)) templates = true) by (vm_compute; reflexivity).
  rewrite forallb_forall in G. specialize (G _ I). cbn zeta in G. cbn [fst] in G. apply andb_true_iff in G as [G G4]. apply andb_true_iff in G as [G G3]. apply andb_true_iff in G as [G1 G2].
  assert (Q1 : forall a o l, negb a || match o with Some (TData m) => String.eqb m l | _ => false end = true -> a = true -> o = Some (TData l)).
  { intros a o l H ->. cbn [negb orb] in H. destruct o as [[|m|]|]; try discriminate. apply String.eqb_eq in H. subst; reflexivity. }
  inversion D as [n0 H|n0 H|n0 H|n0 H|]; subst.
  - apply (Q1 _ _ _ G1). apply orb_true_iff. destruct H as [H|H]; [left; exact H | right; apply ex_in; exact H].
  - exact (Q1 _ _ _ G2 H).
  - exact (Q1 _ _ _ G3 H).
  - exact (Q1 _ _ _ G4 H).
  - reflexivity.
Qed.
Lemma shipped_typed : forall n r t, In (n, r) templates -> declared n t -> n <> "l2b_to_l4.json" -> exists t', chk (r_steps r) t = Some t'.
Proof.
  intros n r t I D N. apply (declared_b _ _ _ I) in D. assert (G := all_ok_true). unfold all_ok in G. rewrite forallb_forall in G. specialize (G _ I). cbn [fst snd] in G. rewrite D in G.
  destruct (chk (r_steps r) t) as [t'|]; [exists t'; reflexivity|]. apply String.eqb_eq in G. contradiction.
Qed.
Lemma shipped_declared : forall n r, In (n, r) templates -> exists t, declared n t.
Proof.
  intros n r I. assert (G := all_ok_true). unfold all_ok in G. rewrite forallb_forall in G. specialize (G _ I). cbn [fst snd] in G. unfold decl_b in G.
  destruct (prefix "l1_" n) eqn:P1; cbn [orb] in G; [exists (TData "L1"); constructor; left; exact P1|].
  destruct (existsb (String.eqb n) ["build_trad_dark_full_frame.json"; "build_trad_dark_image.json"; "test.json"; "trap_pump_cal.json"]) eqn:P; [exists (TData "L1"); constructor; right; apply ex_in; exact P|].
  destruct (prefix "l2a_" n) eqn:P2; [exists (TData "L2a"); constructor; exact P2|]. destruct (prefix "l2b_" n) eqn:P3; [exists (TData "L2b"); constructor; exact P3|]. destruct (prefix "l3_" n) eqn:P4; [exists (TData "L3"); constructor; exact P4|].
  destruct (String.eqb_spec n "bp_map.json") as [->|]; [exists TNone; constructor|discriminate].
Qed.
Lemma picks_shipped : forall hs h l n, picks hs h l -> In n l -> exists r lvl, In (n, r) templates /\ g_lvl h = Some lvl /\ declared n (TData lvl) /\ n <> "l2b_to_l4.json".
Proof.
  assert (T : forall n, existsb (fun x => String.eqb (fst x) n) templates = true -> exists r, In (n, r) templates).
  { intros n H. apply existsb_exists in H as ([m r] & H & E). apply String.eqb_eq in E. cbn [fst] in E. subst. exists r; exact H. }
  assert (F : forall hs h l n, picks hs h l -> In n l -> exists lvl, g_lvl h = Some lvl /\ declared n (TData lvl) /\ existsb (fun x => String.eqb (fst x) n) templates = true /\ n <> "l2b_to_l4.json").
  { intros hs h l n P I. inversion P as [L|v L V E|L V|L V|l0 L V K|L V|v L V N1 N2|l0 L V K|v L V N1 N2|v L V N1 N2|v L V N1|L V|v L V N1|f L V N1|f L V N1]; subst;
      try (inversion K; subst); cbn [In] in I; repeat (destruct I as [<-|I]); try contradiction; eexists; (split; [exact L|]); (split; [constructor; first [reflexivity | left; reflexivity | right; apply ex_in; reflexivity]|split; [vm_compute; reflexivity|discriminate]]). }
  intros hs h l n P I. destruct (F _ _ _ _ P I) as (lvl & A & B & C & D). destruct (T n C) as (r & R). exists r, lvl. split; [exact R|]. split; [exact A|]. split; [exact B|exact D].
Qed.
Lemma shipped_reaches : forall n r t t', In (n, r) templates -> declared n t -> In (n, t') reaches -> chk (r_steps r) t = Some t'.
Proof.
  intros n r t t' I D R. apply (declared_b _ _ _ I) in D.
  assert (G : forallb (fun x => forallb (fun y => negb (String.eqb (fst x) (fst y)) || match decl_b (fst x) with None => false | Some t => match chk (r_steps (snd x)) t, snd y with Some TCal, TCal => true | Some (TData a), TData b => String.eqb a b | _, _ => false end end) reaches) templates = true) by (vm_compute; reflexivity).
  rewrite forallb_forall in G. specialize (G _ I). rewrite forallb_forall in G. specialize (G _ R). cbn [fst snd] in G. rewrite String.eqb_refl in G. cbn [negb orb] in G. rewrite D in G.
  destruct (chk (r_steps r) t) as [[|a|]|]; destruct t' as [|b|]; try discriminate; [apply String.eqb_eq in G; subst|]; reflexivity.
Qed.
Lemma reaches_all : forall n r, In (n, r) templates -> n <> "l2b_to_l4.json" -> exists t', In (n, t') reaches.
Proof.
  intros n r I N. assert (G : forallb (fun x => String.eqb (fst x) "l2b_to_l4.json" || existsb (fun y => String.eqb (fst x) (fst y)) reaches) templates = true) by (vm_compute; reflexivity).
  rewrite forallb_forall in G. specialize (G _ I). cbn [fst] in G. apply orb_true_iff in G as [G|G]; [apply String.eqb_eq in G; contradiction|].
  apply existsb_exists in G as ([m t'] & H & E). apply String.eqb_eq in E. cbn [fst] in E. subst m. exists t'; exact H.
Qed.

Section Shipped.
Context {Dt Cal : Type}.
Notation frame := (frame Dt).
Notation cur := (cur Dt).
Notation event := (event Dt Cal).
Notation wst := (wst Dt Cal).
Variable lookup : list frame -> refr Dt -> string -> result string.
Variable cal_load : string -> string -> result Cal.
Variable img_load : string -> result frame.
Variable sem : string -> option (cur -> list (option Cal) -> list (string * kv) -> result cur).
Variable cls : Cal -> string.
Notation exec := (exec known lookup cal_load sem).
Notation fail_step := (fail_step known lookup cal_load sem).
Notation run_recipe := (run_recipe known lookup cal_load img_load sem).

Lemma template_fine : forall n r t r' g, In (n, r) templates -> declared n t -> n <> "l2b_to_l4.json" -> from_template g r r' -> (fill_now (r_cfg r) g = false -> t <> TNone) ->
  forall t', In (n, t') reaches -> fine (negb (fill_now (r_cfg r') g)) (r_steps r') t t'.
Proof.
  intros n r t r' g I D N (C & SM & find & outdir & F) J t' R. rewrite C. exact (gen_fine _ _ _ _ _ F t t' (shipped_reaches _ _ _ _ I D R) J).
Qed.
Lemma shipped_safe : regular cal_load sem cls -> forall n r t r' g db0, In (n, r) templates -> declared n t -> n <> "l2b_to_l4.json" -> from_template g r r' -> (fill_now (r_cfg r) g = false -> t <> TNone) ->
  forall (c : cur) ev pre s post pre' w1, has_ty c t -> r_steps r' = pre ++ s :: post -> exec g db0 (fun a => with_steps r' (a ++ s :: post)) pre (mkw c ev) pre' w1 ->
  safe lookup cal_load sem cls g db0 (fun x => with_steps r' (pre' ++ x :: post)) s w1.
Proof.
  intros reg n r t r' g db0 I D N FT J c ev pre s post pre' w1 T E X. destruct (reaches_all _ _ I N) as (t' & R). assert (F := template_fine _ _ _ _ _ I D N FT J t' R). rewrite E in F.
  destruct FT as (_ & SM & _). refine (run_safe lookup cal_load sem cls reg g db0 (r_cfg r') pre _ _ pre' w1 X SM _ s post t t' F T _ _); [intros x; reflexivity | reflexivity].
Qed.
Lemma shipped_failures : regular cal_load sem cls -> forall n r t r' g0 db0 sf g r2 w e, In (n, r) templates -> declared n t -> n <> "l2b_to_l4.json" -> g = configure (r_cfg r') g0 -> from_template g r r' ->
  (fill_now (r_cfg r) g = false -> t <> TNone) -> (forall c, loaded img_load r' c -> has_ty c t) -> run_recipe g0 db0 sf r' = (g, r2, w, Some e) ->
  (exists p, In p (r_in r') /\ img_load p = Raise e)
  \/ exists pre s post pre' c w1, r_steps r' = pre ++ s :: post /\ loaded img_load r' c /\ exec g db0 (fun a => with_steps r' (a ++ s :: post)) pre (mkw c (if sf then [ERecipe r'] else [])) pre' w1
     /\ excused lookup cal_load sem cls (db0 ++ registered (w_ev w1)) (w_cur w1) s e.
Proof.
  intros reg n r t r' g0 db0 sf g r2 w e I D N G FT J T X. apply (proj1 (recipe_fail known lookup cal_load sem img_load _ _ _ _ _ _ _ _)) in X as [_ [(_ & _ & pre & p & post & E & _ & P)|(c & pre & s & post & pre' & s' & w1 & L & E & _ & X & F)]].
  - left. exists p. split; [rewrite E; apply in_or_app; right; left; reflexivity | exact P].
  - right. exists pre, s, post, pre', c, w1. split; [exact E|]. split; [exact L|]. split; [exact X|].
    exact (safe_excused lookup cal_load sem cls g db0 _ s w1 s' w e (proj1 (proj2 FT)) (shipped_safe reg n r t r' g db0 I D N FT J c _ pre s post pre' w1 (T c L) E X) F).
Qed.
Lemma shipped_result : regular cal_load sem cls -> forall n r t t' r' g0 db0 sf g r2 w, In (n, r) templates -> declared n t -> In (n, t') reaches -> g = configure (r_cfg r') g0 -> from_template g r r' ->
  (fill_now (r_cfg r) g = false -> t <> TNone) -> (forall c, loaded img_load r' c -> has_ty c t) -> run_recipe g0 db0 sf r' = (g, r2, w, None) -> has_ty (w_cur w) t'.
Proof.
  intros reg n r t t' r' g0 db0 sf g r2 w I D R G FT J T X. assert (N : n <> "l2b_to_l4.json"). { intros ->. repeat (destruct R as [R|R]; [discriminate R|]). destruct R. }
  apply (proj1 (recipe_ok known lookup cal_load sem img_load _ _ _ _ _ _ _)) in X as (_ & c & l & L & X & _).
  assert (F := template_fine _ _ _ _ _ I D N FT J t' R). refine (run_ty lookup cal_load sem cls reg g db0 (r_cfg r') _ _ _ _ _ X (proj1 (proj2 FT)) _ t t' F (T c L)). intros x; reflexivity.
Qed.

(** Recipes generated for files *)
Lemma generated_runs : regular cal_load sem cls -> forall g db files outdir st st' os lvl, g "skip_missing_cal_steps" = false ->
  (forall p f, In p files -> img_load p = Ok f -> g_lvl (f_hdr f) = Some lvl) ->
  autogen_recipe known lookup img_load (fun n => assoc n templates) g db files outdir None st = (st', Ok os) ->
  forall o, In o os -> exists r', value_of st' o = Some r' /\ r_in r' = files /\
    forall g0 db0 sf g1 r2 w e, run_recipe g0 db0 sf r' = (g1, r2, w, Some e) -> g1 "skip_missing_cal_steps" = false -> fill_now (r_cfg r') g1 = fill_now (r_cfg r') g ->
      exists pre s post pre' c w1, r_steps r' = pre ++ s :: post /\ loaded img_load r' c /\ exec g1 db0 (fun a => with_steps r' (a ++ s :: post)) pre (mkw c (if sf then [ERecipe r'] else [])) pre' w1
        /\ excused lookup cal_load sem cls (db0 ++ registered (w_ev w1)) (w_cur w1) s e.
Proof.
  intros reg g db files outdir st st' os lvl SM LV A o Ho. destruct (autogen_fresh known lookup img_load _ _ _ _ _ _ _ _ A) as (f & fs & names & M & P & _ & _ & F2).
  assert (X : exists n r sts, In n names /\ assoc n templates = Some r /\ Forall2 (prepared known (fill_now (r_cfg r) g) (g "skip_missing_cal_steps") (lookup db (RFrame f)) outdir) (r_steps r) sts /\ value_of st' o = Some (mkrec (r_name r) false (r_cfg r) (r_in r ++ files) outdir sts)).
  { clear - F2 Ho. induction F2 as [|n o' names os (r & sts & H) F IH]; [destruct Ho|]. destruct Ho as [->|Ho]; [exists n, r, sts; split; [left; reflexivity|exact H]|].
    destruct (IH Ho) as (n' & r' & sts' & H1 & H2). exists n', r', sts'. split; [right; exact H1|exact H2]. }
  destruct X as (n & r & sts & Hn & AS & PR & V). eexists. split; [exact V|].
  destruct (picks_shipped _ _ _ _ P Hn) as (r0 & lvl0 & I0 & L0 & D & N).
  assert (I : In (n, r) templates) by (apply assoc_split in AS as (a & b & -> & _); apply in_or_app; right; left; reflexivity).
  assert (IN0 : r_in r = []). { assert (G : forallb (fun x => match r_in (snd x) with [] => true | _ => false end) templates = true) by (vm_compute; reflexivity). rewrite forallb_forall in G. specialize (G _ I). cbn [snd] in G. destruct (r_in r); [reflexivity|discriminate]. }
  cbn [r_in]. rewrite IN0. cbn [app]. split; [reflexivity|].
  assert (NF : files <> []) by (intros ->; discriminate M).
  apply mapW_ok in M. assert (LE : Some lvl = Some lvl0). { destruct files as [|p ps]; [contradiction|]. inversion M as [|a b c d E1 E2]; subst. rewrite <- L0. symmetry. exact (LV p f (or_introl eq_refl) E1). } injection LE as <-.
  intros g0 db0 sf g1 r2 w e X SM1 FN. cbn [r_cfg r_steps] in *.
  assert (G1 : g1 = configure (r_cfg r) g0). { apply (proj1 (recipe_fail known lookup cal_load sem img_load _ _ _ _ _ _ _ _)) in X as [G1 _]. exact G1. }
  set (r' := mkrec (r_name r) false (r_cfg r) files outdir sts) in *.
  assert (FT : from_template g1 r r'). { split; [reflexivity|]. split; [exact SM1|]. exists (lookup db (RFrame f)), outdir. rewrite FN. rewrite SM in PR. exact PR. }
  assert (T : forall c, loaded img_load r' c -> has_ty c (TData lvl)).
  { intros c L. unfold loaded in L. cbn [r' r_in] in L. destruct files as [|p ps]; [contradiction|]. destruct L as (fs' & F & ->). exists (map (set_recipe r') fs'). split; [reflexivity|]. split.
    - inversion F; subst. discriminate.
    - intros f0 H0. apply in_map_iff in H0 as (f1 & <- & H1). cbn [set_recipe f_hdr]. revert H1. clear - F LV. revert LV. induction F as [|p0 f2 ps0 fs0 E F IH]; intros LV H1; [destruct H1|]. destruct H1 as [->|H1]; [exact (LV p0 f1 (or_introl eq_refl) E) | apply IH; [intros q q1 Hq; apply LV; right; exact Hq | exact H1]]. }
  destruct (shipped_failures reg n r (TData lvl) r' g0 db0 sf g1 r2 w e I D N G1 FT (fun _ => ltac:(discriminate)) T X) as [(p & Hp & E)|H]; [|exact H].
  exfalso. cbn [r' r_in] in Hp. clear - Hp E M. revert M. generalize (f :: fs). intros fl M. induction M as [|p0 f0 ps fl E0 M IH]; [destruct Hp|]. destruct Hp as [->|Hp]; [congruence | exact (IH Hp)].
Qed.

(** l2b_to_l4.json never completes. *)
Lemma l2b_to_l4_fails : (forall fn c kw, sem "do_psf_subtraction" = Some fn -> ~ In "measure_klip_thrupt" (map fst kw) \/ ~ In "measure_1d_core_thrupt" (map fst kw) -> fn c [] kw = Raise AssertionError) ->
  forall g0 db0 sf r' g r2 w fill sm find outdir, Forall2 (prepared known fill sm find outdir) (r_steps t_l2b_to_l4) (r_steps r') -> run_recipe g0 db0 sf r' <> (g, r2, w, None).
Proof.
  intros HS g0 db0 sf r' g r2 w fill sm find outdir P X. apply (proj1 (recipe_ok known lookup cal_load sem img_load _ _ _ _ _ _ _)) in X as (_ & c & l & L & X & _).
  assert (HP : exists s', In s' (r_steps r') /\ s' = mkstep "do_psf_subtraction" None None None).
  { assert (E : exists p q, r_steps t_l2b_to_l4 = p ++ mkstep "do_psf_subtraction" None None None :: q) by (eexists [_;_;_;_;_;_], _; reflexivity).
    destruct E as (p & q & E). rewrite E in P. apply Forall2_app_inv_l in P as (p' & q' & _ & P & ->). inversion P as [|a b la lb (s1 & F & D) P1]; subst. exists b. split; [apply in_or_app; right; left; reflexivity|].
    assert (F1 : s1 = mkstep "do_psf_subtraction" None None None) by (destruct fill; exact F). subst s1. exact D. }
  destruct HP as (s' & I & ->). clear - X I HS. induction X as [mk w0|mk s t w0 s1 w1 t1 w2 X1 X2 IH]; [destruct I|]. destruct I as [->|I]; [|exact (IH I)].
  inversion X1 as [a c0 ev x c' ev' S1 SX SV E1 E2 E3 E4 | a w3 fn NS SE SK E1 E2 E3 E4 | a c0 ev fn c' NS SE SK CN FN E1 E2 E3 E4 | a c0 ev fn l s2 c1 l1 args c' NS SE SK CN RS C1 A FN E1 E2 E3 E4]; subst.
  - discriminate S1.
  - discriminate SK.
  - cbn [s_name] in SE. rewrite (HS _ _ _ SE) in FN; [discriminate|]. left. intros [].
  - discriminate CN.
Qed.
(** bp_map.json with a missing dark and skip_missing_cal_steps *)
Lemma bp_map_skip : forall find outdir r' g0 db0 sf g r2 w e, sem "create_bad_pixel_map" <> None -> find "Dark" = Raise ValueError -> r_in r' = [] ->
  Forall2 (prepared known true true find outdir) (r_steps t_bp_map) (r_steps r') -> run_recipe g0 db0 sf r' = (g, r2, w, e) -> e = Some AttributeError.
Proof.
  intros find outdir r' g0 db0 sf g r2 w e SE LK RI P X. cbn [t_bp_map r_steps] in P.
  inversion P as [|a s1 la lb (s1' & F1 & D1) P1 E0 E1]; subst. inversion P1 as [|a s2 la lb2 (s2' & F2 & D2) P2 E2 E3]; subst. inversion P2; subst. clear P P1 P2.
  cbn [fill_spec s_calibs] in F2. subst s2'. assert (D2' : s2 = mkstep "save" None None None) by exact D2. clear D2. subst s2.
  destruct F1 as (l' & b & FA & ->). assert (B : b = true). { apply (filled_skip _ _ _ _ _ _ FA). exists "Dark", "AUTOMATIC". split; [left; reflexivity|]. split; [apply mentions_iff; reflexivity|]. split; [exact LK|]. split; [apply not_mentions; reflexivity|reflexivity]. }
  subst b. match type of D1 with dark_dir _ ?x _ => assert (D1' : s1 = x) by exact D1 end. clear D1. subst s1. unfold WalkModel.run_recipe in X. rewrite RI in X. symmetry in E1. rewrite E1 in X. cbn [run_steps] in X.
  destruct (sem "create_bad_pixel_map") as [fn|] eqn:SB; [|contradiction].
  rewrite (run_skip known lookup cal_load sem) with (fn := fn) in X; [| discriminate | exact SB | reflexivity].
  rewrite (empty_save known lookup cal_load sem) with (x := EmptyString) in X; [| reflexivity | reflexivity]. injection X as _ _ _ <-. reflexivity.
Qed.
(** an entry resolved to None at generation, run with just-in-time resolution *)
Lemma optional_jit : forall g db0 mk s (w : wst) fn k f, ~ is_save s -> sem (s_name s) = Some fn -> ~ skipped s -> s_calibs s = Some [(k, None)] -> fill_now (r_cfg (mk s)) g = false ->
  hd_error (frames_of (w_cur w)) = Some f -> exists s', run_step known lookup cal_load sem g db0 mk s w = (s', w, Some AttributeError).
Proof.
  intros g db0 mk s [c ev] fn k f NS SE NK CN J HF. eexists. apply (step_fail known lookup cal_load sem). cbn [w_cur] in HF.
  apply e_jit_fill with (fn := fn) (rf := RFrame f); [exact NS|exact SE|exact NK|exact J| |].
  - destruct c as [|[|f0 fs]|f0]; cbn [frames_of hd_error ref_of] in *; try discriminate; injection HF as ->; reflexivity.
  - exists [], [], (k, None), [], false. split; [exact CN|]. split; [reflexivity|]. split; constructor.
Qed.
End Shipped.
