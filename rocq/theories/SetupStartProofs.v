(** Start-up: repeated and interrupted starts. *)
From Coq Require Import List Arith Bool ZArith QArith String Ascii Lia.
From Verif Require Import Base CalDBModel CalDBSpec CalDBProofs SetupModel SetupSpec SetupProofs SetupConfigProofs SetupDbProofs.
Import ListNotations.
Local Open Scope list_scope.

(** ** Every state passed *)
Definition keeps {A} (R : disk -> disk -> Prop) (m : M A) : Prop := forall d, R d (snd (fst (m d))) /\ Forall (R d) (fst (fst (m d))).
Lemma keeps_bind : forall A B (R : disk -> disk -> Prop) (m : M A) (k : A -> M B), (forall a b c, R a b -> R b c -> R a c) -> keeps R m -> (forall a, keeps R (k a)) -> keeps R (mbind m k).
Proof.
  intros A B R m k T M0 K d. unfold mbind. destruct (M0 d) as [M1 M2]. destruct (m d) as [[tr d1] [a|e]]; cbn [fst snd] in *; [|auto]. destruct (K a d1) as [K1 K2]. destruct (k a d1) as [[tr' d2] r]; cbn [fst snd] in *. split; [exact (T _ _ _ M1 K1)|]. apply Forall_app. split; [exact M2|]. apply (Forall_impl _ (P := R d1)); [|exact K2]. intros x X. exact (T _ _ _ M1 X).
Qed.
Lemma keeps_pure : forall A (R : disk -> disk -> Prop) (m : M A), (forall d, R d d) -> (forall d, exists r, m d = ([], d, r)) -> keeps R m.
Proof. intros A R m RF P d. destruct (P d) as (r & ->). cbn. auto. Qed.
Lemma files_refl : forall d, files_kept d d.
Proof. intros d dir l E. exists []. rewrite app_nil_r. split; [exact E|intros n f []]. Qed.
Lemma files_trans : forall a b c, files_kept a b -> files_kept b c -> files_kept a c.
Proof.
  intros a b c A B dir l E. destruct (A dir l E) as (x & X1 & X2). destruct (B dir _ X1) as (y & Y1 & Y2). exists (x ++ y). rewrite app_assoc. split; [exact Y1|]. intros n f I. apply in_app_or in I as [I|I]; [apply (X2 n f I)|]. destruct (Y2 n f I) as [P Q]. split; [exact P|]. intros J. apply Q. rewrite map_app. apply in_or_app. auto.
Qed.
Lemma files_same : forall d d', (forall q, d_dirs d' q = d_dirs d q) -> files_kept d d'.
Proof. intros d d' H dir l E. exists []. rewrite app_nil_r, H. split; [exact E|intros n f []]. Qed.
Lemma files_new : forall d d' q, (forall p, d_dirs d' p = d_dirs d p \/ p = q /\ d_dirs d p = None /\ d_dirs d' p = Some []) -> files_kept d d'.
Proof. intros d d' q H dir l E. exists []. rewrite app_nil_r. destruct (H dir) as [->|(_ & X & _)]; [|congruence]. split; [exact E|intros n f []]. Qed.
Lemma create_keeps : forall home, keeps files_kept (create_config_dir home).
Proof.
  intros home d. destruct (made_states home d) as (M1 & M2 & M3). pose proof (files_new d (made home d) (calibs_dir home) M2) as FM.
  assert (FK : Forall (files_kept d) (making home d)) by (apply Forall_forall; intros x I; apply making_states in I as (_ & _ & I); apply (files_new d x _ I)).
  assert (FW : forall t, Forall (files_kept d) (writing t (made home d))). { intros t. apply Forall_forall. intros x I. apply writing_states in I as (k & ->). apply (files_trans d (made home d)); [exact FM|]. apply files_same. reflexivity. }
  assert (FH : forall t, files_kept d (with_home (Folder (Some t)) (made home d))) by (intros t; apply (files_trans d (made home d)); [exact FM|apply files_same; reflexivity]).
  rewrite create_eq. destruct (d_home d) as [|t|[t|]]; [destruct (config_of home d)|destruct (parse t); [destruct (config_of home d)|]| |destruct (config_of home d)]; cbn [fst snd]; (split; [try exact FM; try apply FH; try apply files_refl|try exact FK; try (apply Forall_app; split; [exact FK|apply FW]); try constructor]).
Qed.
Lemma only_db_files : forall p d x, only_db p d x -> files_kept d x.
Proof. intros p d x (_ & H & _). apply files_same. exact H. Qed.
Lemma open_keeps : forall p, keeps files_kept (open_db p).
Proof. intros p d. destruct (open_eq p d) as (tr & d' & -> & F & O & _). cbn [fst snd]. split; [apply (only_db_files p); exact O|]. apply (Forall_impl _ (P := only_db p d)); [apply only_db_files|exact F]. Qed.
Lemma add_keeps : forall p es, keeps files_kept (add_entries p es).
Proof.
  intros p es. induction es as [|e es IH]; [apply keeps_pure; [apply files_refl|intros d; eexists; reflexivity]|]. cbn [add_entries]. apply keeps_bind; [apply files_trans| |intros _; exact IH]. unfold add_entry.
  apply keeps_bind; [apply files_trans|apply keeps_pure; [apply files_refl|intros d; eexists; reflexivity]|]. intros _. apply keeps_bind; [apply files_trans|apply keeps_pure; [apply files_refl|intros d; eexists; reflexivity]|].
  intros [b|]; [|apply keeps_pure; [apply files_refl|intros d; eexists; reflexivity]]. apply keeps_bind; [apply files_trans|apply keeps_pure; [apply files_refl|intros d; eexists; reflexivity]|]. intros b' d. destruct (save_eq p b' d) as (tr & -> & F). cbn [fst snd]. split; [apply files_same; reflexivity|]. apply (Forall_impl _ (P := only_db p d)); [apply only_db_files|exact F].
Qed.
Lemma scan_keeps : forall p dir, keeps files_kept (scan p dir).
Proof.
  intros p dir. unfold scan. apply keeps_bind; [apply files_trans|apply keeps_pure; [apply files_refl|intros d; eexists; reflexivity]|]. intros l. apply keeps_bind; [apply files_trans|apply keeps_pure; [apply files_refl|intros d; eexists; reflexivity]|]. intros es. apply add_keeps.
Qed.
Lemma initialize_keeps : forall now hash s, keeps files_kept (initialize now hash s).
Proof.
  intros now hash s d. destruct (s_calibs s) as [dir|] eqn:SC; [|rewrite defaults_unset by exact SC; cbn; split; [apply files_refl|constructor]].
  destruct (d_dirs d dir) as [l|] eqn:E; [|rewrite (defaults_no_directory now hash s dir d SC E); cbn; split; [apply files_refl|constructor]].
  destruct (files_eq now hash s dir d l SC E) as (tr & d1 & l1 & Q & D1 & (S1 & S2 & S3) & _ & _ & (x & X1 & _ & X2) & F). rewrite Q. destruct (exists_in dir detector d && exists_in dir matrices d); [cbn; split; [apply files_refl|constructor]|].
  assert (K1 : forall z lz y, d_dirs z dir = Some lz -> same_but_dir dir d z -> lz = l ++ y -> (forall n f, In (n, f) y -> (n = detector \/ n = matrices) /\ ~ In n (map fst l)) -> files_kept d z).
  { intros z lz y Z1 (_ & Z2 & _) Z3 Z4 q lq QE. destruct (list_eq_dec ascii_dec q dir) as [->|N]; [|exists []; rewrite app_nil_r, (Z2 q N); split; [exact QE|intros n f []]]. exists y. split; [congruence|]. assert (lq = l) by congruence. subst lq. exact Z4. }
  assert (K2 : files_kept d d1) by (apply (K1 d1 l1 x D1); [split; [exact S1|split; [exact S2|exact S3]]|exact X1|]; intros n f I; destruct (X2 n f I) as [A [[B _]|[B _]]]; auto).
  assert (K3 : Forall (files_kept d) tr).
  { apply Forall_forall. intros z I. rewrite Forall_forall in F. destruct (F z I) as (lz & Z1 & Z2 & [Z3|[[_ (y & Z3 & Z4)]|(Z3 & Z4 & Z5)]]).
    - apply (K1 z lz x Z1 Z2); [congruence|]. intros n f J. destruct (X2 n f J) as [A [[B _]|[B _]]]; auto.
    - apply (K1 z lz y Z1 Z2 Z3 Z4).
    - apply (K1 z lz _ Z1 Z2 Z3). intros n f [J|[]]. injection J as <- <-. auto. }
  destruct (s_caldb s) as [p|]; [|cbn [fst snd]; auto]. pose proof (keeps_bind _ _ files_kept (open_db p) (fun _ => scan p dir) files_trans (open_keeps p) (fun _ => scan_keeps p dir) d1) as [B1 B2].
  destruct (mbind (open_db p) (fun _ => scan p dir) d1) as [[tr' d'] r]. cbn [fst snd] in *. split; [apply (files_trans d d1); assumption|]. apply Forall_app. split; [exact K3|]. apply (Forall_impl _ (P := files_kept d1)); [|exact B2]. intros z. apply files_trans. exact K2.
Qed.
Lemma settings_keeps : forall R : disk -> disk -> Prop, (forall d, R d d) -> keeps R update_settings.
Proof. intros R RF. apply keeps_pure; [exact RF|]. intros d. destruct (update_settings d) as [[tr d'] r] eqn:E. apply settings_only_read in E as [-> ->]. eauto. Qed.
Lemma start_keeps : forall home now hash, keeps files_kept (start home now hash).
Proof.
  intros home now hash. unfold start. apply keeps_bind; [apply files_trans|apply create_keeps|]. intros _. apply keeps_bind; [apply files_trans|apply settings_keeps; apply files_refl|]. intros s. apply keeps_bind; [apply files_trans|apply initialize_keeps|]. intros _. apply keeps_pure; [apply files_refl|intros d; eexists; reflexivity].
Qed.
(** A start never changes or removes a file, wherever it is interrupted. *)
Theorem start_keeps_files : forall home now hash d x, passes (start home now hash) d x -> files_kept d x.
Proof. intros home now hash d x [->|I]; [apply files_refl|]. destruct (start_keeps home now hash d) as [_ F]. rewrite Forall_forall in F. apply F. exact I. Qed.

(** ** The settings of a new configuration *)
Lemma plain_expands : forall t, ~ In "%"%char t -> expands t t.
Proof. induction t as [|c t IH]; intros N; [constructor|]. constructor; [intros ->; apply N; left; reflexivity|]. apply IH. intros I. apply N. right. exact I. Qed.
Theorem default_settings : forall home caldb u v d, absolute home -> one_line caldb -> trimmed caldb -> expands home u -> expands caldb v -> d_home d = Folder (Some (default_text home caldb)) ->
  update_settings d = ([], d, Ok (mksettings (Some v) (Some (u ++ tx "/.corgidrp/default_calibs")) false false false)).
Proof. intros home caldb u v d A L T U V H. apply (settings_iff d _ _ _ H (default_written home caldb A L T)). apply fresh_settings; assumption. Qed.
Definition home_settings (home : text) : settings := mksettings (Some (in_home home "corgidrp_caldb.csv")) (Some (in_home home "default_calibs")) false false false.
Lemma home_settings_eq : forall home d, absolute home -> ~ In "%"%char home -> d_home d = Folder (Some (default_text home (in_home home "corgidrp_caldb.csv"))) -> update_settings d = ([], d, Ok (home_settings home)).
Proof.
  intros home d A N H. pose proof (plain_expands home N) as U. pose proof (expands_home home "corgidrp_caldb.csv" home eq_refl U) as V. apply (default_settings home (in_home home "corgidrp_caldb.csv") home _ d A); [apply one_line_home; [apply A|reflexivity]| |exact U|exact V|exact H].
  apply (trimmed_home home (tx "corgidrp_caldb.cs") "v"); [apply A|reflexivity].
Qed.

(** ** Sequences *)
Lemma ends_bind : forall A B (m : M A) (k : A -> M B) d d1 a d2 r, ends m d d1 (Ok a) -> ends (k a) d1 d2 r -> ends (mbind m k) d d2 r.
Proof. intros A B m k d d1 a d2 r [H1 H2] [K1 K2]. unfold ends, mbind. destruct (m d) as [[tr x] y]. cbn [fst snd] in *. subst x y. destruct (k a d1) as [[tr' x] y]. cbn [fst snd] in *. auto. Qed.
Lemma ends_bind_fail : forall A B (m : M A) (k : A -> M B) d d1 e, ends m d d1 (Raise e) -> ends (mbind m k) d d1 (Raise e).
Proof. intros A B m k d d1 e [H1 H2]. unfold ends, mbind. destruct (m d) as [[tr x] y]. cbn [fst snd] in *. subst x y. auto. Qed.
Lemma ends_pure : forall A (m : M A) d r, m d = ([], d, r) -> ends m d d r.
Proof. intros A m d r E. unfold ends. rewrite E. auto. Qed.

(** ** Repeated starts *)
Lemma settled : forall home d t, d_home d = Folder (Some t) -> d_dirs d (calibs_dir home) <> None -> create_config_dir home d = ([], d, Ok tt).
Proof. intros home d t H N. rewrite create_eq. unfold making, made. rewrite H. destruct (d_dirs d (calibs_dir home)) as [l|]; [|congruence]. reflexivity. Qed.
Lemma create_home : forall home d d', ends (create_config_dir home) d d' (Ok tt) -> (exists t, d_home d' = Folder (Some t)) /\ d_dirs d' (calibs_dir home) <> None.
Proof.
  intros home d d' [<- H2]. assert (MD : d_dirs (made home d) (calibs_dir home) <> None). { unfold made. destruct (d_dirs d (calibs_dir home)) eqn:E; [destruct (d_home d); cbn; congruence|]. cbn. rewrite set_same. discriminate. }
  destruct (made_states home d) as (_ & _ & M3). rewrite create_eq in *. destruct (d_home d) as [|t|[t|]]; [destruct (config_of home d)|destruct (parse t); [destruct (config_of home d)|]| |destruct (config_of home d)]; cbn [fst snd d_home d_dirs with_home] in *; try discriminate H2; (split; [eauto|exact MD]).
Qed.
Lemma scan_home : forall p dir d, d_home (snd (fst (mbind (open_db p) (fun _ => scan p dir) d))) = d_home d /\ d_dirs (snd (fst (mbind (open_db p) (fun _ => scan p dir) d))) = d_dirs d.
Proof.
  assert (AD : forall p es d, d_home (snd (fst (add_entries p es d))) = d_home d /\ d_dirs (snd (fst (add_entries p es d))) = d_dirs d).
  { intros p es. induction es as [|e es IH]; intros d; [auto|]. cbn [add_entries]. unfold mbind, add_entry, mbind, look, lift. destruct (row_of_entry true e) as [r|x]; [|auto]. destruct (d_dbs d p) as [b|]; [|auto]. destruct (create_entry e b) as [b'|x]; [|auto]. unfold save_db, acts. cbn [app].
    destruct (IH (with_db p b' d)) as [I1 I2]. destruct (add_entries p es (with_db p b' d)) as [[tr d'] r']. cbn [fst snd] in *. rewrite I1, I2. auto. }
  intros p dir d. unfold mbind. assert (OP : d_home (snd (fst (open_db p d))) = d_home d /\ d_dirs (snd (fst (open_db p d))) = d_dirs d) by (unfold open_db, mbind, look, save_db, acts; destruct (d_dbs d p); auto).
  destruct (open_db p d) as [[tr d1] [[]|e]]; cbn [fst snd] in *; [|auto]. unfold scan, mbind, look, lift. destruct (load_files (match d_dirs d1 dir with Some l => l | None => [] end)) as [es|e]; [|auto].
  match goal with |- context [add_entries p ?l d1] => destruct (AD p l d1) as [A1 A2]; destruct (add_entries p l d1) as [[tr' d'] r] end. cbn [fst snd app] in *. destruct OP. split; congruence.
Qed.
Lemma initialize_after : forall now hash s d d', ends (initialize now hash s) d d' (Ok tt) -> d_home d' = d_home d /\ exists dir, s_calibs s = Some dir /\ present d' dir detector /\ present d' dir matrices.
Proof.
  intros now hash s d d' H. destruct (s_calibs s) as [dir|] eqn:SC; [|unfold ends in H; rewrite defaults_unset in H by exact SC; destruct H; discriminate].
  destruct (d_dirs d dir) as [l|] eqn:E; [|unfold ends in H; rewrite (defaults_no_directory now hash s dir d SC E) in H; destruct H; discriminate].
  destruct (files_eq now hash s dir d l SC E) as (tr & d1 & l1 & Q & D1 & (S1 & S2 & S3) & I1 & I2 & _). unfold ends in H. rewrite Q in H. destruct (exists_in dir detector d && exists_in dir matrices d) eqn:X.
  - destruct H as [<- _]. cbn. split; [reflexivity|]. exists dir. apply andb_true_iff in X as [X1 X2]. split; [reflexivity|]. split; apply exists_iff; assumption.
  - destruct (s_caldb s) as [p|]; [|destruct H; discriminate]. destruct (scan_home p dir d1) as [B1 B2]. destruct (mbind (open_db p) (fun _ => scan p dir) d1) as [[tr' d2] r]. cbn [fst snd] in *. destruct H as [<- _]. split; [congruence|]. exists dir. split; [reflexivity|].
    split; [apply in_map_iff in I1 as ([n f] & N & J)|apply in_map_iff in I2 as ([n f] & N & J)]; cbn [fst] in N; subst n; exists l1, f; rewrite B2; auto.
Qed.
Lemma start_parts : forall home now hash d d' s, ends (start home now hash) d d' (Ok s) -> exists d1, ends (create_config_dir home) d d1 (Ok tt) /\ update_settings d1 = ([], d1, Ok s) /\ ends (initialize now hash s) d1 d' (Ok tt).
Proof.
  intros home now hash d d' s [H1 H2]. unfold start, mbind in *. destruct (create_config_dir home d) as [[tr d1] [[]|e]] eqn:C0; [|discriminate H2]. exists d1. split; [unfold ends; rewrite C0; auto|].
  destruct (update_settings d1) as [[tr2 d2] [s'|e]] eqn:U; [|discriminate H2]. destruct (settings_only_read _ _ _ _ U) as [-> ->]. unfold ends. destruct (initialize now hash s' d1) as [[tr3 d3] [[]|e]] eqn:I; cbn [fst snd app ret] in *; [|discriminate H2]. injection H2 as ->. split; [reflexivity|]. rewrite I. auto.
Qed.
(** After a successful start further starts change nothing. *)
Theorem start_again : forall home now hash now' hash' d d' s, ends (start home now hash) d d' (Ok s) -> start home now' hash' d' = ([], d', Ok s).
Proof.
  intros home now hash now' hash' d d' s H. destruct (start_parts _ _ _ _ _ _ H) as (d1 & C0 & U & I). destruct (create_home _ _ _ C0) as [(t & T) N]. destruct (initialize_after _ _ _ _ _ I) as [H1 (dir & SC & P1 & P2)].
  assert (K : files_kept d1 d') by (destruct (initialize_keeps now hash s d1) as [K _]; destruct I as [<- _]; exact K).
  assert (N' : d_dirs d' (calibs_dir home) <> None). { destruct (d_dirs d1 (calibs_dir home)) as [l|] eqn:E; [|congruence]. destruct (K _ _ E) as (x & -> & _). discriminate. }
  unfold start, mbind. rewrite (settled home d' t); [|congruence|exact N']. assert (U' : update_settings d' = ([], d', Ok s)). { revert U. unfold update_settings, mbind, look, lift. rewrite H1, T. destruct (parse t) as [c|e]; [|discriminate]. intros E. destruct (read_settings c) as [x|e]; [|discriminate E]. congruence. }
  rewrite U', (defaults_present now' hash' s dir d' SC P1 P2). reflexivity.
Qed.
(** With both files there a start leaves all databases as they are. *)
Theorem start_present : forall home now hash d t c s dir, absolute home -> d_home d = Folder (Some t) -> written t c -> settings_are c s -> s_calibs s = Some dir -> present d dir detector -> present d dir matrices ->
  (exists d', ends (start home now hash) d d' (Ok s)) /\ forall x, passes (start home now hash) d x \/ (exists r, ends (start home now hash) d x r) -> (forall q, d_dbs x q = d_dbs d q) /\ d_home x = Folder (Some t).
Proof.
  intros home now hash d t c s dir A H W S0 SC P1 P2. destruct (config_kept home d t A H) as [(d1 & E1 & W1) CK]. destruct W1 as (W1 & W2 & W3 & W4).
  assert (PP : forall n, present d dir n -> present d1 dir n). { intros n (l & f & X & Y). destruct (W3 dir) as [E|(_ & E & _)]; [|congruence]. exists l, f. rewrite E. auto. }
  assert (U : update_settings d1 = ([], d1, Ok s)) by (apply (settings_iff d1 t c s W1 W); exact S0). pose proof (defaults_present now hash s dir d1 SC (PP _ P1) (PP _ P2)) as I.
  assert (Q : start home now hash d = (fst (fst (create_config_dir home d)), d1, Ok s)). { unfold start, mbind. destruct E1 as [E1 E2]. destruct (create_config_dir home d) as [[tr x] y]. cbn [fst snd] in *. subst x y. rewrite U, I. cbn. rewrite app_nil_r. reflexivity. }
  split; [exists d1; unfold ends; rewrite Q; auto|]. intros x X.
  assert (Y : passes (create_config_dir home) d x \/ x = d1). { unfold passes, ends in X. rewrite Q in X. cbn [fst snd] in X. destruct X as [X|(r & <- & _)]; [left; exact X|auto]. }
  destruct Y as [Y| ->]; [|split; [exact W2|exact W1]]. split; [apply (config_crash home d x A Y)|apply CK; exact Y].
Qed.

(** ** Interrupted starts *)
Lemma string_inj : forall a b, string_of_list_ascii a = string_of_list_ascii b -> a = b.
Proof. intros a b E. rewrite <- (list_ascii_of_string_of_list_ascii a), E. apply list_ascii_of_string_of_list_ascii. Qed.
Lemma absolute_in_home : forall home a d, absolute home -> forallb (fun c => negb (Ascii.eqb c eol)) a = true -> d <> "/"%char -> d <> eol -> absolute (home ++ tx "/.corgidrp/" ++ a ++ [d]).
Proof.
  intros home a d ((t & ->) & L & _) P D1 D2. split; [eexists; reflexivity|]. split.
  - apply one_line_app; [exact L|]. apply one_line_app; [apply one_line_check; reflexivity|]. apply one_line_app; [apply one_line_check; exact P|]. intros [X|[]]. congruence.
  - intros s E. rewrite !app_assoc in E. apply app_inj_tail in E as [_ E]. congruence.
Qed.
Lemma covers_dec : forall d p dir, covers d p dir \/ ~ covers d p dir.
Proof.
  intros d p dir. unfold covers. destruct (d_dbs d p) as [b|]; [|right; intros (b & r & r' & X & _); discriminate X].
  destruct (lookup b (string_of_list_ascii (dir ++ tx "/" ++ detector))) as [r|] eqn:E1; [|right; intros (b' & r & r' & X & Y & _); injection X as <-; congruence].
  destruct (lookup b (string_of_list_ascii (dir ++ tx "/" ++ matrices))) as [r'|] eqn:E2; [|right; intros (b' & x & x' & X & _ & _ & Y & _); injection X as <-; congruence].
  destruct (string_dec (r_type r) "DetectorParams") as [T1|T1]; [|right; intros (b' & x & x' & X & Y & Z & _); injection X as <-; congruence].
  destruct (string_dec (r_type r') "FpamFsamCal") as [T2|T2]; [|right; intros (b' & x & x' & X & _ & _ & Y & Z); injection X as <-; congruence]. left. exists b, r, r'. auto.
Qed.
Lemma entered_covers : forall d p dir l b b', d_dbs d p = Some b' -> NoDup (map fst l) -> Forall (default_file dir) l -> In detector (map fst l) -> In matrices (map fst l) -> entered l b b' -> covers d p dir.
Proof.
  intros d p dir l b b' D0 ND F I1 I2 [_ EN]. rewrite Forall_forall in F.
  assert (G : forall n c lab, In n (map fst l) -> (n = detector /\ c = DetectorParams \/ n = matrices /\ c = FpamFsamCal) -> labels c = Some lab -> exists r, lookup b' (string_of_list_ascii (dir ++ tx "/" ++ n)) = Some r /\ r_type r = lab).
  { intros n c lab I NC LB. apply in_map_iff in I as ([m f] & M0 & I). cbn [fst] in M0. subst m. destruct (F _ I) as (e & E & P & _ & _ & K). cbn [fst snd] in *. subst f. pose proof names_differ as ND'.
    assert (CE : forall e' n', In (n', Loads e') l -> e_path e' = string_of_list_ascii (dir ++ tx "/" ++ n) -> e_class e' = c).
    { intros e' n' I' P'. destruct (F _ I') as (e2 & E2 & Q2 & _ & _ & K2). cbn [fst snd] in *. injection E2 as <-. rewrite Q2 in P'. apply string_inj in P'. apply app_inv_head in P'. apply app_inv_head in P'. subst n'. destruct NC as [[-> ->]|[-> ->]]; destruct K2 as [[X Y]|[X Y]]; congruence. }
    destruct (EN (string_of_list_ascii (dir ++ tx "/" ++ n))) as [(e' & r & (n' & I' & _) & P' & DS & LK)|[NO _]].
    - exists r. split; [exact LK|]. pose proof (ds_type _ _ DS) as T. rewrite (CE e' n' I' P'), LB in T. congruence.
    - exfalso. apply (NO e); [|exact P]. exists n. split; [exact I|]. split; [apply (default_fits dir n (Loads e)); exact (F _ I)|]. rewrite (CE e n I P), LB. discriminate. }
  destruct (G detector DetectorParams "DetectorParams"%string I1) as (r & R1 & R2); [auto|reflexivity|]. destruct (G matrices FpamFsamCal "FpamFsamCal"%string I2) as (r' & R1' & R2'); [auto|reflexivity|]. exists b', r, r'. auto 6.
Qed.
Lemma default_honest : forall dir l, NoDup (map fst l) -> Forall (default_file dir) l -> honest dir l /\ loadable l.
Proof.
  intros dir l ND F. rewrite Forall_forall in F. split.
  - split; [exact ND|]. intros n e I. destruct (F _ I) as (e' & E & P & C0 & _). cbn [fst snd] in *. injection E as <-. auto.
  - split; [intros n _ I; destruct (F _ I) as (e & E & _); discriminate E|]. intros e (n & I & _). destruct (F _ I) as (e' & E & _ & _ & D0 & _). cbn [snd] in E. injection E as <-. exact D0.
Qed.
(** A start that makes the default files. *)
Lemma start_covers : forall home now hash d l, (forall q, is_abs (hash q) = false) -> absolute home -> ~ In "%"%char home ->
  d_home d = Absent \/ d_home d = Folder None \/ d_home d = Folder (Some (default_text home (in_home home "corgidrp_caldb.csv"))) ->
  d_dirs d (in_home home "default_calibs") = Some l \/ d_dirs d (in_home home "default_calibs") = None /\ l = [] -> NoDup (map fst l) -> Forall (default_file (in_home home "default_calibs")) l -> ~ In matrices (map fst l) -> tidy (rows_of d (in_home home "corgidrp_caldb.csv")) ->
  exists d', ends (start home now hash) d d' (Ok (home_settings home)) /\ covers d' (in_home home "corgidrp_caldb.csv") (in_home home "default_calibs").
Proof.
  intros home now hash d l HH A NP H DL ND F NM T. set (p := in_home home "corgidrp_caldb.csv") in *. set (dir := in_home home "default_calibs") in *.
  assert (C0 : exists d1, ends (create_config_dir home) d d1 (Ok tt) /\ with_folder home (Folder (Some (default_text home p))) d d1).
  { assert (FR : d_home d = Absent \/ d_home d = Folder None -> exists d1, ends (create_config_dir home) d d1 (Ok tt) /\ with_folder home (Folder (Some (default_text home p))) d d1).
    { intros X. destruct (config_fresh home d A X) as (d1 & [(_ & E & W)|(N & _)]); [eauto|]. exfalso. apply N. exists home. apply plain_expands. exact NP. }
    destruct H as [H|[H|H]]; [apply FR; auto|apply FR; auto|]. apply (config_kept home d _ A H). }
  destruct C0 as (d1 & E1 & W1 & W2 & W3 & W4). pose proof (home_settings_eq home d1 A NP W1) as U. fold dir in W3, W4.
  assert (D1 : d_dirs d1 dir = Some l). { destruct (W3 dir) as [E|(_ & E & E')]; destruct DL as [X|[X ->]]; congruence. }
  destruct (default_honest dir l ND F) as [HO LD]. assert (AD : absolute dir) by (apply (absolute_in_home home (tx "default_calib") "s" A); [reflexivity|discriminate|discriminate]).
  assert (RW : rows_of d1 p = rows_of d p) by (unfold rows_of; rewrite W2; reflexivity).
  destruct (defaults_missing now hash (home_settings home) dir p d1 l HH AD eq_refl eq_refl D1 HO) as (d2 & r & l' & E2 & CP & D2 & _ & _ & _ & R & G & _); [rewrite RW; exact T|intros [_ (l0 & f & X & I)]; apply NM; rewrite D1 in X; injection X as <-; apply in_map_iff; exists (matrices, f); auto|].
  apply R in LD as RO. subst r. destruct (G LD) as (b' & B1 & B2). exists d2. split.
  - unfold start. apply (ends_bind _ _ _ _ d d1 tt); [exact E1|]. apply (ends_bind _ _ _ _ d1 d1 (home_settings home)); [apply ends_pure; exact U|]. apply (ends_bind _ _ _ _ d1 d2 tt); [exact E2|]. apply ends_pure. reflexivity.
  - destruct (completed_honest dir l l' CP HO) as [ND' _]. destruct CP as (x & -> & _ & FX & _ & J1 & J2). apply (entered_covers d2 p dir (l ++ x) (rows_of d1 p) b' B1 ND'); [apply Forall_app; split; assumption|exact J1|exact J2|exact B2].
Qed.
(** Where a first start is interrupted decides what the next one does. *)
Theorem start_recovers : forall home now hash now' hash' d x, (forall q, is_abs (hash q) = false) -> (forall q, is_abs (hash' q) = false) -> absolute home -> ~ In "%"%char home ->
  d_home d = Absent \/ d_home d = Folder None -> d_dirs d (in_home home "default_calibs") = None \/ d_dirs d (in_home home "default_calibs") = Some [] -> tidy (rows_of d (in_home home "corgidrp_caldb.csv")) ->
  passes (start home now hash) d x ->
  (exists a b, b <> [] /\ default_text home (in_home home "corgidrp_caldb.csv") = a ++ b /\ d_home x = Folder (Some a))
  \/ (exists l, d_dirs x (in_home home "default_calibs") = Some l /\ (In (detector, Damaged) l \/ In (matrices, Damaged) l))
  \/ (present x (in_home home "default_calibs") detector /\ present x (in_home home "default_calibs") matrices /\ ~ covers x (in_home home "corgidrp_caldb.csv") (in_home home "default_calibs"))
  \/ exists d', ends (start home now' hash') x d' (Ok (mksettings (Some (in_home home "corgidrp_caldb.csv")) (Some (in_home home "default_calibs")) false false false)) /\ covers d' (in_home home "corgidrp_caldb.csv") (in_home home "default_calibs").
Proof.
  intros home now hash now' hash' d x HH HH' A NP H DL T PS. fold (home_settings home). set (p := in_home home "corgidrp_caldb.csv") in *. set (dir := in_home home "default_calibs") in *. set (full := default_text home p) in *.
  assert (C0 : exists d1, ends (create_config_dir home) d d1 (Ok tt) /\ with_folder home (Folder (Some full)) d d1). { destruct (config_fresh home d A H) as (d1 & [(_ & E & W)|(N & _)]); [eauto|]. exfalso. apply N. exists home. apply plain_expands. exact NP. }
  destruct C0 as (d1 & E1 & W1 & W2 & W3 & W4). fold dir in W3, W4. pose proof (home_settings_eq home d1 A NP W1) as U.
  assert (AD : absolute dir) by (apply (absolute_in_home home (tx "default_calib") "s" A); [reflexivity|discriminate|discriminate]).
  assert (D1 : d_dirs d1 dir = Some []). { destruct (W3 dir) as [E|(_ & E & E')]; destruct DL as [X|X]; congruence. }
  assert (PP : passes (create_config_dir home) d x \/ In x (fst (fst (initialize now hash (home_settings home) d1)))).
  { destruct PS as [->|PS]; [left; left; reflexivity|]. revert PS. unfold start, mbind, passes. destruct E1 as [Y1 Y2]. destruct (create_config_dir home d) as [[tr y] z]. cbn [fst snd] in *. subst y z. rewrite U. destruct (initialize now hash (home_settings home) d1) as [[tr' y] [[]|e]]; cbn [fst snd app ret]; rewrite ?app_nil_r; intros I; apply in_app_or in I as [I|I]; auto. }
  assert (BOTH : d_home x = Folder (Some full) -> present x dir detector -> present x dir matrices -> (present x dir detector /\ present x dir matrices /\ ~ covers x p dir) \/ exists d', ends (start home now' hash') x d' (Ok (home_settings home)) /\ covers d' p dir).
  { intros HX P1 P2. destruct (covers_dec x p dir) as [CV|CV]; [|auto]. right.
    destruct (config_kept home x full A HX) as [(x1 & X1 & Z1 & Z2 & Z3 & Z4) _]. pose proof (home_settings_eq home x1 A NP Z1) as UX.
    assert (P' : forall n, present x dir n -> present x1 dir n). { intros n (l & f & I & J). destruct (Z3 dir) as [E|(_ & E & _)]; [|congruence]. exists l, f. rewrite E. auto. }
    exists x1. split.
    - unfold start. apply (ends_bind _ _ _ _ x x1 tt); [exact X1|]. apply (ends_bind _ _ _ _ x1 x1 (home_settings home)); [apply ends_pure; exact UX|]. apply (ends_bind _ _ _ _ x1 x1 tt); [apply ends_pure; apply (defaults_present now' hash' (home_settings home) dir x1 eq_refl); auto|]. apply ends_pure. reflexivity.
    - destruct CV as (b & r & r' & B & R). exists b, r, r'. rewrite Z2. auto. }
  destruct PP as [PC|PI].
  - destruct (config_crash home d x A PC) as (B1 & B2 & B3). fold dir in B2.
    assert (RW : tidy (rows_of x p)) by (unfold rows_of in *; rewrite B1; exact T).
    assert (DX : d_dirs x dir = Some [] \/ d_dirs x dir = None /\ @nil (text * file) = []). { destruct (B2 dir) as [E|(_ & _ & E)]; rewrite E; [|auto]. destruct DL as [->| ->]; auto. }
    assert (GO : d_home x = Absent \/ d_home x = Folder None \/ d_home x = Folder (Some full) -> exists d', ends (start home now' hash') x d' (Ok (home_settings home)) /\ covers d' p dir) by (intros HX; apply (start_covers home now' hash' x [] HH' A NP HX DX); [constructor|constructor|intros []|exact RW]).
    destruct B3 as [B3|[[(t & B3) _]|[_ [B3|(d2 & a & b & X1 & X2 & X3)]]]].
    + right. right. right. apply GO. rewrite B3. destruct H as [H|H]; auto.
    + destruct H as [H|H]; congruence.
    + right. right. right. apply GO. auto.
    + assert (d2 = d1) by (destruct X1 as [<- _]; destruct E1 as [<- _]; reflexivity). subst d2. rewrite W1 in X2. injection X2 as X2. destruct b as [|c b].
      * rewrite app_nil_r in X2. right. right. right. apply GO. rewrite X3, X2. auto.
      * left. exists a, (c :: b). split; [discriminate|]. split; [exact X2|exact X3].
  - right. destruct (files_eq now hash (home_settings home) dir d1 [] eq_refl D1) as (tr & d2 & l2 & Q & D2 & (S1 & S2 & S3) & I1 & I2 & (y & Y1 & Y2 & Y3) & F). cbn [app] in Y1. subst y. rewrite Q in PI. unfold exists_in in PI. rewrite D1 in PI. cbn [tlookup andb s_caldb home_settings] in PI. fold p in PI.
    assert (PRES : forall z n, d_dirs z dir = Some l2 -> In n (map fst l2) -> present z dir n). { intros z n E I. apply in_map_iff in I as ([m f] & <- & I). exists l2, f. auto. }
    assert (ST : In x tr \/ d_dirs x dir = Some l2 /\ d_home x = Folder (Some full)).
    { pose proof (open_eq p d2) as (tro & do' & OE & OF & (O1 & O2 & O3) & O4). unfold mbind in PI. rewrite OE in PI. destruct (scan p dir do') as [[trs ds] rs] eqn:SE. cbn [fst snd] in PI. apply in_app_or in PI as [PI|PI]; [auto|]. right. apply in_app_or in PI as [PI|PI].
      - rewrite Forall_forall in OF. destruct (OF x PI) as (Z1 & Z2 & _). rewrite Z1, Z2. split; [exact D2|]. rewrite S1. exact W1.
      - assert (CP : completed dir [] l2) by (apply (files_completed now hash dir [] l2 HH AD I1 I2); exists l2; auto). assert (HO : honest dir l2) by (apply (completed_honest dir [] l2 CP); split; [constructor|intros n e []]). assert (TD : tidy (rows_of d2 p)) by (unfold rows_of in *; rewrite S3, W2; exact T).
        destruct (scan_spec p dir do' l2 (rows_of d2 p)) as (trs' & ds' & rs' & SE' & SF & _); [rewrite O2; exact D2|exact O4|exact HO|exact TD|]. rewrite SE in SE'. injection SE' as <- <- <-. rewrite Forall_forall in SF. destruct (SF x PI) as (Z1 & Z2 & _). rewrite Z1, Z2, O1, O2. split; [exact D2|]. rewrite S1. exact W1. }
    destruct ST as [ST|[Z1 Z2]]; [|right; apply BOTH; [exact Z2|apply PRES; assumption|apply PRES; assumption]].
    rewrite Forall_forall in F. destruct (F x ST) as (lx & L1 & (Z1 & Z2 & Z3) & [->|[[DM _]|(-> & _ & _)]]).
    + right. apply BOTH; [rewrite Z1; exact W1|apply PRES; assumption|apply PRES; assumption].
    + left. exists lx. auto.
    + right. right. cbn [app] in L1. apply (start_covers home now' hash' x [(detector, Loads (detparams now hash (pjoin dir detparams_name)))] HH' A NP); [right; right; rewrite Z1; exact W1|left; exact L1|constructor; [intros []|constructor]|constructor; [apply detparams_default; assumption|constructor]|intros [X|[]]; discriminate X|].
      unfold rows_of in *. rewrite Z3, W2. exact T.
Qed.
(** A first start that is not interrupted. *)
Theorem start_fresh : forall home now hash d, (forall q, is_abs (hash q) = false) -> absolute home -> ~ In "%"%char home ->
  d_home d = Absent \/ d_home d = Folder None -> d_dirs d (in_home home "default_calibs") = None \/ d_dirs d (in_home home "default_calibs") = Some [] -> tidy (rows_of d (in_home home "corgidrp_caldb.csv")) ->
  exists d', ends (start home now hash) d d' (Ok (mksettings (Some (in_home home "corgidrp_caldb.csv")) (Some (in_home home "default_calibs")) false false false)) /\ covers d' (in_home home "corgidrp_caldb.csv") (in_home home "default_calibs").
Proof.
  intros home now hash d HH A NP H DL T. apply (start_covers home now hash d [] HH A NP); [destruct H; auto|destruct DL; auto|constructor|constructor|intros []|exact T].
Qed.
