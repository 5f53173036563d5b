(** Start-up: the folder and the configuration file. *)
From Coq Require Import List Arith Bool ZArith String Ascii Lia.
From Verif Require Import Base CalDBModel SetupModel SetupSpec SetupProofs.
Import ListNotations.
Local Open Scope list_scope.

(** ** Paths *)
Lemma pjoin_plain : forall a b, a <> [] -> (forall t, a <> t ++ ["/"%char]) -> pjoin a b = a ++ tx "/" ++ b.
Proof.
  intros a b N H. unfold pjoin. destruct (rev a) as [|c t] eqn:R; [exfalso; apply N; rewrite <- (rev_involutive a), R; reflexivity|].
  destruct (Ascii.eqb_spec c "/") as [->|X]; [|reflexivity]. exfalso. apply (H (rev t)). rewrite <- (rev_involutive a), R. reflexivity.
Qed.
Lemma folder_eq : forall home, absolute home -> folder home = home ++ tx "/.corgidrp".
Proof. intros home ((t & E) & _ & H). unfold folder. rewrite pjoin_plain; [reflexivity|rewrite E; discriminate|exact H]. Qed.
Lemma tail_app : forall (h : text) a c t, h ++ a ++ [c] = t ++ ["/"%char] -> c = "/"%char.
Proof. intros h a c t E. rewrite app_assoc in E. apply app_inj_tail in E. apply E. Qed.
Lemma calibs_eq : forall home, absolute home -> calibs_dir home = in_home home "default_calibs".
Proof.
  intros home A. unfold calibs_dir. rewrite (folder_eq home A). rewrite pjoin_plain; [rewrite <- app_assoc; reflexivity|destruct home; discriminate|].
  intros t E. assert (X : "p"%char = "/"%char); [|discriminate X]. apply (tail_app home (tx "/.corgidr") "p" t). exact E.
Qed.
Lemma caldb_eq : forall home, absolute home -> pjoin (folder home) (tx "corgidrp_caldb.csv") = in_home home "corgidrp_caldb.csv".
Proof.
  intros home A. rewrite (folder_eq home A). rewrite pjoin_plain; [rewrite <- app_assoc; reflexivity|destruct home; discriminate|].
  intros t E. assert (X : "p"%char = "/"%char); [|discriminate X]. apply (tail_app home (tx "/.corgidr") "p" t). exact E.
Qed.

(** ** Percent signs *)
Lemma expand_app : forall a b, ~ In "%"%char b -> match expand a with Ok u => expand (a ++ b) = Ok (u ++ b) | Raise _ => exists e, expand (a ++ b) = Raise e end.
Proof.
  intros a b N. assert (B : expand b = Ok b). { clear a. induction b as [|c b IH]; [reflexivity|]. cbn [expand]. destruct (Ascii.eqb_spec c "%") as [->|X]; [exfalso; apply N; left; reflexivity|]. rewrite IH; [reflexivity|]. intros I. apply N. right. exact I. }
  assert (Q : forall n a, (List.length a <= n)%nat -> match expand a with Ok u => expand (a ++ b) = Ok (u ++ b) | Raise _ => exists e, expand (a ++ b) = Raise e end).
  { induction n as [|n IH]; intros x L; destruct x as [|c x]; try (cbn in L; lia); [exact B|exact B|]. cbn [expand app]. cbn [List.length] in L. destruct (Ascii.eqb_spec c "%") as [->|X].
    - destruct x as [|d x]; cbn [app].
      + destruct b as [|d b]; [eauto|]. destruct (Ascii.eqb_spec d "%") as [->|Y]; [exfalso; apply N; left; reflexivity|eauto].
      + cbn [List.length] in L. destruct (Ascii.eqb_spec d "%") as [->|Y]; [|eauto]. specialize (IH x ltac:(lia)). destruct (expand x) as [u|e]; cbn [bind]; [rewrite IH; reflexivity|]. destruct IH as (e' & ->). cbn. eauto.
    - specialize (IH x ltac:(lia)). destruct (expand x) as [u|e]; cbn [bind]; [rewrite IH; reflexivity|]. destruct IH as (e' & ->). cbn. eauto. }
  apply (Q (List.length a)). lia.
Qed.
Lemma settable_iff : forall v, settable v = Ok v <-> exists u, expands v u.
Proof. intros v. unfold settable. destruct (expand v) as [u|e] eqn:E; split; try discriminate; [intros _; exists u; apply expands_iff; exact E|reflexivity|]. intros (u & H). apply expands_iff in H. congruence. Qed.
Lemma settable_cases : forall v, settable v = Ok v \/ settable v = Raise ValueError.
Proof. intros v. unfold settable. destruct (expand v); auto. Qed.
Lemma no_percent : forall s, forallb (fun c => negb (Ascii.eqb c "%")) s = true -> ~ In "%"%char s.
Proof. intros s H I. rewrite forallb_forall in H. specialize (H _ I). discriminate H. Qed.
Lemma settable_home : forall home s, forallb (fun c => negb (Ascii.eqb c "%")) (tx s) = true -> (settable (in_home home s) = Ok (in_home home s) <-> exists u, expands home u).
Proof.
  intros home s P. unfold settable, in_home. assert (N : ~ In "%"%char (tx "/.corgidrp/" ++ tx s)) by (intros I; apply in_app_or in I as [I|I]; [revert I; apply no_percent; reflexivity|revert I; apply no_percent; exact P]).
  pose proof (expand_app home _ N) as H. destruct (expand home) as [u|e] eqn:E.
  - rewrite H. split; [intros _; exists u; apply expands_iff; exact E|reflexivity].
  - destruct H as (e' & ->). split; [discriminate|]. intros (u & X). apply expands_iff in X. congruence.
Qed.
Lemma expands_home : forall home s u, forallb (fun c => negb (Ascii.eqb c "%")) (tx s) = true -> expands home u -> expands (in_home home s) (u ++ tx "/.corgidrp/" ++ tx s).
Proof.
  intros home s u P H. apply expands_iff in H. apply expands_iff. assert (N : ~ In "%"%char (tx "/.corgidrp/" ++ tx s)) by (intros I; apply in_app_or in I as [I|I]; [revert I; apply no_percent; reflexivity|revert I; apply no_percent; exact P]).
  pose proof (expand_app home _ N) as X. rewrite H in X. exact X.
Qed.

(** ** The new configuration *)
Definition fresh_config (home caldb : text) : config :=
  [(tx "PATH", [(tx "caldb", caldb); (tx "default_calibs", in_home home "default_calibs")]);
   (tx "DATA", [(tx "track_individual_errors", tx "False")]);
   (tx "WALKER", [(tx "skip_missing_cal_steps", tx "False"); (tx "jit_calib_id", tx "False")])].
Lemma new_config_none : forall home, absolute home -> (exists u, expands home u) -> new_config home None = Ok (fresh_config home (in_home home "corgidrp_caldb.csv")).
Proof. intros home A H. unfold new_config. rewrite (caldb_eq home A), (calibs_eq home A). rewrite (proj2 (settable_home home "corgidrp_caldb.csv" eq_refl) H), (proj2 (settable_home home "default_calibs" eq_refl) H). reflexivity. Qed.
Lemma new_config_some : forall home o, absolute home -> (exists u, expands home u) -> (exists u, expands o u) -> new_config home (Some o) = Ok (fresh_config home o).
Proof. intros home o A H O. unfold new_config. rewrite (caldb_eq home A), (calibs_eq home A). rewrite (proj2 (settable_home home "corgidrp_caldb.csv" eq_refl) H), (proj2 (settable_home home "default_calibs" eq_refl) H). cbn [bind]. rewrite (proj2 (settable_iff o) O). reflexivity. Qed.
Lemma new_config_bad : forall home o, absolute home -> ~ (exists u, expands home u) -> new_config home o = Raise ValueError.
Proof. intros home o A H. unfold new_config. rewrite (caldb_eq home A). destruct (settable_cases (in_home home "corgidrp_caldb.csv")) as [E|E]; [exfalso; apply H; apply (settable_home home "corgidrp_caldb.csv" eq_refl) in E; exact E|]. rewrite E. reflexivity. Qed.
Lemma new_config_bad_old : forall home o, absolute home -> (exists u, expands home u) -> ~ (exists u, expands o u) -> new_config home (Some o) = Raise ValueError.
Proof. intros home o A H O. unfold new_config. rewrite (caldb_eq home A), (calibs_eq home A). rewrite (proj2 (settable_home home "corgidrp_caldb.csv" eq_refl) H), (proj2 (settable_home home "default_calibs" eq_refl) H). cbn [bind]. destruct (settable_cases o) as [E|E]; [exfalso; apply O, settable_iff; exact E|]. rewrite E. reflexivity. Qed.
Lemma tabbed_line : forall l, one_line l -> tabbed l = l.
Proof. intros l H. unfold tabbed. induction l as [|c l IH]; [reflexivity|]. cbn [flat_map]. destruct (Ascii.eqb_spec c newline) as [->|N]; [exfalso; apply H; left; reflexivity|]. cbn [app]. rewrite IH; [reflexivity|]. intros I. apply H. right. exact I. Qed.
Lemma one_line_app : forall a b, one_line a -> one_line b -> one_line (a ++ b).
Proof. intros a b A B I. apply in_app_or in I as [I|I]; auto. Qed.
Lemma one_line_check : forall s, forallb (fun c => negb (Ascii.eqb c eol)) s = true -> one_line s.
Proof. intros s H I. rewrite forallb_forall in H. specialize (H _ I). discriminate H. Qed.
Lemma one_line_home : forall home s, one_line home -> forallb (fun c => negb (Ascii.eqb c eol)) (tx s) = true -> one_line (in_home home s).
Proof. intros home s H P. unfold in_home. apply one_line_app; [exact H|]. apply one_line_app; apply one_line_check; [reflexivity|exact P]. Qed.
Lemma render_fresh : forall home caldb, one_line home -> one_line caldb -> render (fresh_config home caldb) = default_text home caldb.
Proof.
  intros home caldb H C0. unfold render, fresh_config, default_text, unlines, render_section, render_option. cbn [flat_map fst snd]. rewrite (tabbed_line caldb C0), (tabbed_line (in_home home "default_calibs")) by (apply one_line_home; [exact H|reflexivity]).
  change (tabbed (tx "False")) with (tx "False"). rewrite <- !app_assoc. cbn [tx list_ascii_of_string app]. reflexivity.
Qed.

(** ** What the new configuration says *)
Lemma trimmed_app : forall a b c d t, a = c :: t -> ~ blank c -> ~ blank d -> trimmed (a ++ b ++ [d]).
Proof. intros a b c d t -> C0 D0. split; [intros x y E; cbn [app] in E; injection E as <- _; exact C0|]. intros x y E. rewrite app_assoc in E. apply app_inj_tail in E as [_ <-]. exact D0. Qed.
Lemma trimmed_home : forall home a d, (exists t, home = "/"%char :: t) -> space d = false -> trimmed (home ++ tx "/.corgidrp/" ++ a ++ [d]).
Proof. intros home a d (t & E) D0. rewrite (app_assoc (tx "/.corgidrp/")). apply (trimmed_app home (tx "/.corgidrp/" ++ a) "/" d t E); intros B; apply space_iff in B; [discriminate B|congruence]. Qed.
Lemma has_unlines : forall ls, Forall one_line ls -> has_lines (unlines ls) (ls ++ [[]]).
Proof. intros ls H. induction H as [|l ls L H IH]; [constructor; intros []|]. cbn [unlines flat_map app]. rewrite <- app_assoc. cbn [app]. constructor; [exact L|exact IH]. Qed.
Lemma assigns_eq : forall k v, k <> [] -> trimmed k -> trimmed v -> lower k = k -> forallb (fun c => negb (Ascii.eqb c "=") && negb (Ascii.eqb c ":")) k = true -> (forall c t, k = c :: t -> c <> "#" /\ c <> ";" /\ c <> "[")%char -> assigns (k ++ tx " = " ++ v) k v.
Proof.
  intros k v N T TV L F H. exists k, (tx " "), "="%char, (tx " "), []. assert (B : blanks (tx " ")) by (constructor; [unfold blank; cbn; tauto|constructor]).
  split; [rewrite app_nil_r; reflexivity|]. split; [auto|]. split; [exact B|]. split; [exact B|]. split; [constructor|]. split; [exact N|]. split; [exact T|]. split; [exact TV|]. split; [apply caseless_lower; congruence|]. split; [|exact H].
  apply Forall_forall. intros c I. rewrite forallb_forall in F. specialize (F c I). apply andb_true_iff in F as [A B0]. apply negb_true_iff in A, B0. split; apply Ascii.eqb_neq; assumption.
Qed.
Lemma trimmed_check : forall v, match v with [] => false | c :: _ => negb (space c) end = true -> match rev v with [] => false | c :: _ => negb (space c) end = true -> trimmed v.
Proof.
  intros v A B. split.
  - intros c t ->. intros X. apply space_iff in X. rewrite X in A. discriminate A.
  - intros t c ->. intros X. apply space_iff in X. rewrite rev_app_distr in B. cbn [rev app] in B. rewrite X in B. discriminate B.
Qed.
Lemma heads_eq : forall n, n <> [] -> heads (tx "[" ++ n ++ tx "]") n.
Proof. intros n N. exists []. split; [reflexivity|]. split; [constructor|exact N]. Qed.
Ltac plain_key := first [discriminate | apply trimmed_check; reflexivity | assumption | reflexivity | intros ? ? X; injection X as <- <-; repeat split; discriminate].
Lemma default_written : forall home caldb, absolute home -> one_line caldb -> trimmed caldb -> written (default_text home caldb) (fresh_config home caldb).
Proof.
  intros home caldb ((t & E) & L & _) C0 T. set (ls := [tx "[PATH]"; tx "caldb = " ++ caldb; tx "default_calibs = " ++ in_home home "default_calibs"; [];
   tx "[DATA]"; tx "track_individual_errors = False"; []; tx "[WALKER]"; tx "skip_missing_cal_steps = False"; tx "jit_calib_id = False"; []]).
  exists [], (ls ++ [[]]). split; [|split; [constructor|]].
  - cbn [app]. apply has_unlines. repeat (apply Forall_cons; [first [apply one_line_check; reflexivity | apply one_line_app; [apply one_line_check; reflexivity|first [exact C0|apply one_line_home; [exact L|reflexivity]]]]|]). apply Forall_nil.
  - unfold ls. cbn [app]. unfold fresh_config. assert (SK : skipped []) by (left; constructor).
    assert (TD : trimmed (in_home home "default_calibs")) by (apply (trimmed_home home (tx "default_calib") "s"); [exists t; exact E|reflexivity]). assert (TF : trimmed (tx "False")) by (apply trimmed_check; reflexivity).
    apply (sections_cons (tx "[PATH]") [_; _; _] _ (tx "PATH")); [apply (heads_eq (tx "PATH")); discriminate| | |].
    + apply body_option; [apply (assigns_eq (tx "caldb") caldb); plain_key| |]; [intros [X|[]]; discriminate X|]. apply body_option; [apply (assigns_eq (tx "default_calibs")); plain_key|intros []|]. apply body_skip; [exact SK|constructor].
    + apply (sections_cons (tx "[DATA]") [_; _] _ (tx "DATA")); [apply (heads_eq (tx "DATA")); discriminate| | |].
      * apply body_option; [apply (assigns_eq (tx "track_individual_errors") (tx "False")); plain_key|intros []|]. apply body_skip; [exact SK|constructor].
      * replace (tx "[WALKER]" :: _) with (tx "[WALKER]" :: ([tx "skip_missing_cal_steps = False"; tx "jit_calib_id = False"; []; []] ++ [])) by reflexivity.
        apply sections_cons; [apply (heads_eq (tx "WALKER")); discriminate| |constructor|intros []].
        apply body_option; [apply (assigns_eq (tx "skip_missing_cal_steps") (tx "False")); plain_key|intros [X|[]]; discriminate X|]. apply body_option; [apply (assigns_eq (tx "jit_calib_id") (tx "False")); plain_key|intros []|]. apply body_skip; [exact SK|]. apply body_skip; [exact SK|constructor].
      * intros [X|[]]; discriminate X.
    + intros [X|[X|[]]]; discriminate X.
Qed.
Lemma fresh_settings : forall home caldb u v, expands home u -> expands caldb v -> settings_are (fresh_config home caldb) (mksettings (Some v) (Some (u ++ tx "/.corgidrp/default_calibs")) false false false).
Proof.
  intros home caldb u v U V. unfold settings_are, fresh_config. cbn [s_caldb s_calibs s_track s_skip s_jit]. split; [exists caldb; split; [eexists; split; [left; reflexivity|left; reflexivity]|exact V]|].
  split; [exists (in_home home "default_calibs"); split; [eexists; split; [left; reflexivity|right; left; reflexivity]|apply expands_home; [reflexivity|exact U]]|].
  assert (XF : expands (tx "False") (tx "False")) by (apply expands_iff; reflexivity). assert (CF : caseless (tx "False") (tx "false")) by (apply caseless_lower; reflexivity).
  split; [|split]; right; exists (tx "False"); (split; [|exact CF]); exists (tx "False"); (split; [|exact XF]).
  - eexists. split; [right; left; reflexivity|left; reflexivity].
  - eexists. split; [right; right; left; reflexivity|left; reflexivity].
  - eexists. split; [right; right; left; reflexivity|right; left; reflexivity].
Qed.

(** ** The folder *)
Definition made (home : text) (d : disk) : disk :=
  let d1 := match d_home d with Folder _ => d | _ => with_home (Folder None) d end in
  match d_dirs d (calibs_dir home) with None => with_dir (calibs_dir home) [] d1 | Some _ => d1 end.
Definition making (home : text) (d : disk) : list disk :=
  let d1 := match d_home d with Folder _ => d | _ => with_home (Folder None) d end in
  (match d_home d with Legacy _ => [with_home Absent d] | _ => [] end) ++ (match d_home d with Folder _ => [] | _ => [d1] end) ++ match d_dirs d (calibs_dir home) with None => [with_dir (calibs_dir home) [] d1] | Some _ => [] end.
Definition config_of (home : text) (d : disk) : result config :=
  match d_home d with
  | Legacy t => do c <- parse t; do _ <- new_config home None; do v <- get_item c (tx "PATH") (tx "caldb"); new_config home (Some v)
  | _ => new_config home None
  end.
Definition writing (t : text) (d : disk) : list disk := map (fun k => with_home (Folder (Some (firstn k t))) d) (seq 0 (List.length t)) ++ [with_home (Folder (Some t)) d].
Lemma write_eq : forall t d, write_config t d = (writing t d, with_home (Folder (Some t)) d, Ok tt).
Proof. intros t d. unfold write_config, acts, writing. rewrite map_map. reflexivity. Qed.
Lemma create_eq : forall home d, create_config_dir home d =
  match d_home d with
  | Folder (Some _) => (making home d, made home d, Ok tt)
  | Legacy t => match parse t with
                | Raise e => ([], d, Raise e)
                | Ok _ => match config_of home d with
                          | Ok c => (making home d ++ writing (render c) (made home d), with_home (Folder (Some (render c))) (made home d), Ok tt)
                          | Raise e => (making home d, made home d, Raise e)
                          end
                end
  | _ => match config_of home d with
         | Ok c => (making home d ++ writing (render c) (made home d), with_home (Folder (Some (render c))) (made home d), Ok tt)
         | Raise e => (making home d, made home d, Raise e)
         end
  end.
Proof.
  intros home [n dirs dbs]. unfold create_config_dir, config_of, making, made, mbind, look, lift, act, ret. cbn [d_home d_dirs d_dbs].
  destruct n as [|t|[t|]]; cbn [d_home d_dirs d_dbs with_home with_dir app].
  - destruct (dirs (calibs_dir home)) as [l|]; cbn [d_home d_dirs d_dbs with_home with_dir app]; (destruct (new_config home None) as [c|e] eqn:Q; cbn [bind app]; [rewrite write_eq|]; reflexivity).
  - destruct (parse t) as [c|e]; [|reflexivity]. cbn [bind d_home d_dirs d_dbs with_home with_dir app]. destruct (dirs (calibs_dir home)) as [l|]; cbn [d_home d_dirs d_dbs with_home with_dir app];
      (destruct (new_config home None) as [c0|e] eqn:Q; cbn [bind app]; [|reflexivity]; destruct (get_item c (tx "PATH") (tx "caldb")) as [v|e]; cbn [bind app]; [|reflexivity]; destruct (new_config home (Some v)) as [c1|e]; [rewrite write_eq|]; reflexivity).
  - destruct (dirs (calibs_dir home)) as [l|]; reflexivity.
  - destruct (dirs (calibs_dir home)) as [l|]; cbn [d_home d_dirs d_dbs with_home with_dir app]; (destruct (new_config home None) as [c|e] eqn:Q; cbn [bind app]; [rewrite write_eq|]; reflexivity).
Qed.

Lemma with_folder_made : forall home d, absolute home -> with_folder home (match d_home d with Folder o => Folder o | _ => Folder None end) d (made home d).
Proof.
  intros home [n dirs dbs] A. unfold made. rewrite (calibs_eq home A). cbn [d_home d_dirs d_dbs].
  assert (Q : forall p, (if teqb p (in_home home "default_calibs") then Some [] else dirs p) = dirs p \/ p = in_home home "default_calibs" /\ (if teqb p (in_home home "default_calibs") then Some [] else dirs p) = Some []).
  { intros p. destruct (teqb p (in_home home "default_calibs")) eqn:T; [apply teqb_iff in T; auto|auto]. }
  destruct (dirs (in_home home "default_calibs")) as [l|] eqn:D0; destruct n as [|t|o]; (split; [reflexivity|]; split; [reflexivity|]; cbn [d_dirs with_home with_dir set]; split; [|first [congruence|unfold set; rewrite teqb_refl; discriminate]]; intros p; first [left; reflexivity | unfold set; destruct (Q p) as [X|[-> X]]; [left; exact X|right; auto]]).
Qed.
Lemma with_folder_home : forall home n n' d d', with_folder home n d d' -> with_folder home n' d (with_home n' d').
Proof. intros home n n' d d' (_ & B & C0 & D0). split; [reflexivity|]. split; [exact B|]. split; [exact C0|exact D0]. Qed.
Lemma making_states : forall home d x, In x (making home d) ->
  (d_home x = d_home d \/ (exists t, d_home d = Legacy t) /\ d_home x = Absent \/ (forall o, d_home d <> Folder o) /\ d_home x = Folder None) /\ d_dbs x = d_dbs d /\ forall p, d_dirs x p = d_dirs d p \/ p = calibs_dir home /\ d_dirs d p = None /\ d_dirs x p = Some [].
Proof.
  intros home [n dirs dbs] x I. unfold making in I. cbn [d_home d_dirs d_dbs] in I. cbn [d_home d_dirs d_dbs].
  assert (K : forall m, (d_home x = d_home m /\ d_dbs x = d_dbs m /\ d_dirs x = d_dirs m) -> d_dbs m = dbs -> d_dirs m = dirs \/ (dirs (calibs_dir home) = None /\ d_dirs m = set (calibs_dir home) (Some []) dirs) ->
    d_home x = d_home m /\ d_dbs x = dbs /\ forall p, d_dirs x p = dirs p \/ p = calibs_dir home /\ dirs p = None /\ d_dirs x p = Some []).
  { intros m (H1 & H2 & H3) M1 M2. split; [exact H1|]. split; [congruence|]. intros p. rewrite H3. destruct M2 as [->|[E ->]]; [auto|]. unfold set. destruct (teqb p (calibs_dir home)) eqn:T; [|auto]. apply teqb_iff in T. subst p. auto. }
  apply in_app_or in I as [I|I]; [destruct n; [destruct I| |destruct I]; destruct I as [<-|[]]; cbn; split; [right; left; split; [eauto|reflexivity]|auto]|].
  apply in_app_or in I as [I|I]; [destruct n; [| |destruct I]; destruct I as [<-|[]]; cbn; (split; [right; right; split; [discriminate|reflexivity]|auto])|].
  destruct (dirs (calibs_dir home)) as [l|] eqn:E; [destruct I|]. destruct I as [<-|[]].
  match goal with |- context [with_dir ?p ?l ?m] => destruct (K (with_dir p l m)) as (H1 & H2 & H3); [auto|destruct n; reflexivity|right; split; [reflexivity|destruct n; reflexivity]|] end.
  split; [|split; [exact H2|exact H3]]. destruct n as [|t|o]; cbn; [right; right; split; [discriminate|reflexivity]|right; right; split; [discriminate|reflexivity]|left; reflexivity].
Qed.
Lemma made_states : forall home d, d_dbs (made home d) = d_dbs d /\ (forall p, d_dirs (made home d) p = d_dirs d p \/ p = calibs_dir home /\ d_dirs d p = None /\ d_dirs (made home d) p = Some []) /\ d_home (made home d) = match d_home d with Folder o => Folder o | _ => Folder None end.
Proof.
  intros home [n dirs dbs]. unfold made. cbn [d_home d_dirs d_dbs]. destruct (dirs (calibs_dir home)) as [l|] eqn:E; destruct n as [|t|o]; cbn; (split; [reflexivity|]; split; [|reflexivity]); intros p; auto; unfold set; (destruct (teqb p (calibs_dir home)) eqn:T; [apply teqb_iff in T; subst p; auto|auto]).
Qed.
Lemma writing_states : forall t d x, In x (writing t d) -> exists k, x = with_home (Folder (Some (firstn k t))) d.
Proof. intros t d x I. unfold writing in I. apply in_app_or in I as [I|[<-|[]]]; [apply in_map_iff in I as (k & <- & _); eauto|]. exists (List.length t). rewrite firstn_all. reflexivity. Qed.

(** A configuration file that exists is not touched. *)
Theorem config_kept : forall home d t, absolute home -> d_home d = Folder (Some t) ->
  (exists d', ends (create_config_dir home) d d' (Ok tt) /\ with_folder home (Folder (Some t)) d d') /\ forall x, passes (create_config_dir home) d x -> d_home x = Folder (Some t).
Proof.
  intros home d t A H. unfold ends, passes. rewrite create_eq, H. cbn [fst snd]. split.
  - exists (made home d). split; [auto|]. pose proof (with_folder_made home d A) as W. rewrite H in W. exact W.
  - intros x [->|I]; [exact H|]. apply making_states in I as [[I|[[(s & I) _]|[I _]]] _]; [congruence|congruence|]. exfalso. exact (I _ H).
Qed.
(** A new one. *)
Theorem config_fresh : forall home d, absolute home -> d_home d = Absent \/ d_home d = Folder None ->
  exists d', (exists u, expands home u) /\ ends (create_config_dir home) d d' (Ok tt) /\ with_folder home (Folder (Some (default_text home (in_home home "corgidrp_caldb.csv")))) d d'
             \/ ~ (exists u, expands home u) /\ ends (create_config_dir home) d d' (Raise ValueError) /\ with_folder home (Folder None) d d'.
Proof.
  intros home d A H. assert (Q : create_config_dir home d = match new_config home None with Ok c => (making home d ++ writing (render c) (made home d), with_home (Folder (Some (render c))) (made home d), Ok tt) | Raise e => (making home d, made home d, Raise e) end).
  { rewrite create_eq. unfold config_of. destruct H as [H|H]; rewrite H; reflexivity. }
  assert (W : with_folder home (Folder None) d (made home d)) by (pose proof (with_folder_made home d A) as W; destruct H as [H|H]; rewrite H in W; exact W).
  unfold ends. rewrite Q. destruct (expand home) as [u|e] eqn:E.
  - assert (X : exists u, expands home u) by (exists u; apply expands_iff; exact E). rewrite (new_config_none home A X). cbn [fst snd]. exists (with_home (Folder (Some (render (fresh_config home (in_home home "corgidrp_caldb.csv"))))) (made home d)). left. split; [exact X|]. split; [auto|].
    rewrite render_fresh; [|apply A|apply one_line_home; [apply A|reflexivity]]. apply (with_folder_home home (Folder None)). exact W.
  - assert (X : ~ exists u, expands home u) by (intros (u & X); apply expands_iff in X; congruence). rewrite (new_config_bad home None A X). cbn [fst snd]. exists (made home d). right. auto.
Qed.
(** A file of the old kind: its database setting is kept. *)
Theorem config_legacy : forall home d t c, absolute home -> d_home d = Legacy t -> written t c ->
  (forall v u, stored c "PATH" "caldb" v -> expands v u -> one_line u -> (exists w, expands u w) -> (exists w, expands home w) ->
    exists d', ends (create_config_dir home) d d' (Ok tt) /\ with_folder home (Folder (Some (default_text home u))) d d')
  /\ (~ ((exists w, expands home w) /\ exists v u w, stored c "PATH" "caldb" v /\ expands v u /\ expands u w) ->
    exists d' e, ends (create_config_dir home) d d' (Raise e) /\ with_folder home (Folder None) d d').
Proof.
  intros home d t c A H W0. destruct (written_keys t c W0) as [N F]. pose proof (parse_written t c W0) as P. pose proof (with_folder_made home d A) as W. rewrite H in W. unfold ends. rewrite create_eq. unfold config_of. rewrite H, P. cbn [bind].
  split.
  - intros v u S0 X L U HU. rewrite (new_config_none home A HU). cbn [bind]. unfold get_item. apply (raw_stored c _ _ v N F) in S0. rewrite S0. apply expands_iff in X. rewrite X. cbn [bind]. rewrite (new_config_some home u A HU U). cbn [fst snd]. eexists. split; [split; reflexivity|].
    rewrite render_fresh; [|apply A|exact L]. apply (with_folder_home home (Folder None)). exact W.
  - intros NX. destruct (expand home) as [w|e] eqn:E.
    + assert (HU : exists w, expands home w) by (exists w; apply expands_iff; exact E). rewrite (new_config_none home A HU). cbn [bind]. unfold get_item. destruct (option_raw (turned c) (tx "PATH") (tx "caldb")) as [v|] eqn:S0; [|cbn [bind fst snd]; exists (made home d), KeyError; auto].
      destruct (expand v) as [u|e] eqn:X; [|cbn [bind fst snd]; exists (made home d), e; auto]. cbn [bind]. destruct (expand u) as [w'|e] eqn:Y.
      * exfalso. apply NX. split; [exact HU|]. exists v, u, w'. split; [apply (raw_stored c _ _ v N F); exact S0|]. split; apply expands_iff; assumption.
      * rewrite (new_config_bad_old home u A HU); [cbn [fst snd]; eauto|]. intros (z & Z). apply expands_iff in Z. congruence.
    + rewrite (new_config_bad home None A); [cbn [bind fst snd]; eauto|]. intros (z & Z). apply expands_iff in Z. congruence.
Qed.
(** The states of the disk when the creation is interrupted. *)
Theorem config_crash : forall home d x, absolute home -> passes (create_config_dir home) d x ->
  (forall p, d_dbs x p = d_dbs d p) /\ (forall p, d_dirs x p = d_dirs d p \/ p = in_home home "default_calibs" /\ d_dirs d p = None /\ d_dirs x p = Some [])
  /\ (d_home x = d_home d \/ (exists t, d_home d = Legacy t) /\ d_home x = Absent
      \/ (forall t, d_home d <> Folder (Some t)) /\ (d_home x = Folder None \/ exists d' a b, ends (create_config_dir home) d d' (Ok tt) /\ d_home d' = Folder (Some (a ++ b)) /\ d_home x = Folder (Some a))).
Proof.
  intros home d x A P. assert (MK : In x (making home d) -> (forall p, d_dbs x p = d_dbs d p) /\ (forall p, d_dirs x p = d_dirs d p \/ p = in_home home "default_calibs" /\ d_dirs d p = None /\ d_dirs x p = Some []) /\ (d_home x = d_home d \/ (exists t, d_home d = Legacy t) /\ d_home x = Absent \/ (forall t, d_home d <> Folder (Some t)) /\ d_home x = Folder None)).
  { intros I. apply making_states in I as (H1 & H2 & H3). rewrite <- (calibs_eq home A). split; [congruence|]. split; [exact H3|]. destruct H1 as [H1|[H1|[H1 H4]]]; [auto|auto|]. right. right. split; [intros t; apply H1|exact H4]. }
  destruct (made_states home d) as (M1 & M2 & M3). rewrite (calibs_eq home A) in M2.
  assert (GO : forall c, In x (making home d ++ writing (render c) (made home d)) -> (forall t, d_home d <> Folder (Some t)) -> ends (create_config_dir home) d (with_home (Folder (Some (render c))) (made home d)) (Ok tt) ->
    (forall p, d_dbs x p = d_dbs d p) /\ (forall p, d_dirs x p = d_dirs d p \/ p = in_home home "default_calibs" /\ d_dirs d p = None /\ d_dirs x p = Some [])
    /\ (d_home x = d_home d \/ (exists t, d_home d = Legacy t) /\ d_home x = Absent
      \/ (forall t, d_home d <> Folder (Some t)) /\ (d_home x = Folder None \/ exists d' a b, ends (create_config_dir home) d d' (Ok tt) /\ d_home d' = Folder (Some (a ++ b)) /\ d_home x = Folder (Some a)))).
  { intros c I NF EN. apply in_app_or in I as [I|I].
    - destruct (MK I) as (K1 & K2 & K3). split; [exact K1|]. split; [exact K2|]. destruct K3 as [K3|[K3|[_ K4]]]; [auto|auto|]. right. right. auto.
    - apply writing_states in I as (k & ->). cbn [d_dbs d_dirs d_home with_home]. split; [intros p; rewrite M1; reflexivity|]. split; [exact M2|]. right. right. split; [exact NF|]. right. exists (with_home (Folder (Some (render c))) (made home d)), (firstn k (render c)), (skipn k (render c)). split; [exact EN|]. split; [|reflexivity]. cbn [d_home with_home]. rewrite firstn_skipn. reflexivity. }
  assert (IM : In x (making home d) -> (forall p, d_dbs x p = d_dbs d p) /\ (forall p, d_dirs x p = d_dirs d p \/ p = in_home home "default_calibs" /\ d_dirs d p = None /\ d_dirs x p = Some [])
    /\ (d_home x = d_home d \/ (exists t, d_home d = Legacy t) /\ d_home x = Absent
      \/ (forall t, d_home d <> Folder (Some t)) /\ (d_home x = Folder None \/ exists d' a b, ends (create_config_dir home) d d' (Ok tt) /\ d_home d' = Folder (Some (a ++ b)) /\ d_home x = Folder (Some a)))).
  { intros I. destruct (MK I) as (K1 & K2 & K3). split; [exact K1|]. split; [exact K2|]. destruct K3 as [K3|[K3|[NF K4]]]; auto. }
  destruct P as [->|P]; [split; [auto|]; split; [auto|]; auto|]. pose proof (create_eq home d) as E. unfold ends in GO. rewrite E in P, GO. unfold ends. rewrite E.
  destruct (d_home d) as [|t|[t|]] eqn:H; cbn [fst snd] in *.
  - destruct (config_of home d) as [c|e]; cbn [fst snd] in *; [apply (GO c P); [discriminate|auto]|]. clear GO. unfold ends in IM. rewrite E in IM. apply IM, P.
  - destruct (parse t) as [q|e]; [|destruct P]. destruct (config_of home d) as [c|e]; cbn [fst snd] in *; [apply (GO c P); [discriminate|auto]|]. clear GO. unfold ends in IM. rewrite E in IM. apply IM, P.
  - unfold ends in IM. rewrite E in IM. apply IM, P.
  - destruct (config_of home d) as [c|e]; cbn [fst snd] in *; [apply (GO c P); [discriminate|auto]|]. clear GO. unfold ends in IM. rewrite E in IM. apply IM, P.
Qed.
