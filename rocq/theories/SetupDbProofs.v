(** Start-up: the default calibrations and the database. *)
From Coq Require Import List Arith Bool ZArith QArith String Ascii Lia.
From Verif Require Import Base CalDBModel CalDBSpec CalDBProofs SetupModel SetupSpec SetupProofs SetupConfigProofs.
Import ListNotations.
Local Open Scope list_scope.

(** ** Databases *)
Lemma tidy_refines : forall b, tidy b <-> Refines b (paths b) (lookup b).
Proof. intros b. unfold tidy, Refines. split; [intros [A B]|intros (_ & _ & A & B)]; auto. Qed.
Lemma insert_lookup : forall r b, tidy b -> clean_row r -> tidy (insert_row r b) /\ forall q, lookup (insert_row r b) q = if string_dec q (r_path r) then Some r else lookup b q.
Proof.
  intros r b T C0. apply tidy_refines in T. pose proof (insert_refines b _ _ r T C0) as (A & B & D0 & E). split; [|exact B]. split; [|exact E]. rewrite A. exact D0.
Qed.
Lemma create_entries : forall es b, tidy b -> (forall e, In e es -> clean_entry e) -> (forall e, In e es -> exists r, Describes e r) ->
  snd (create_all es b) = None /\ tidy (fst (create_all es b)) /\
  forall q, (exists e r, In e es /\ e_path e = q /\ Describes e r /\ lookup (fst (create_all es b)) q = Some r) \/ (forall e, In e es -> e_path e <> q) /\ lookup (fst (create_all es b)) q = lookup b q.
Proof.
  induction es as [|e es IH]; intros b T C0 D0; [cbn; split; [reflexivity|]; split; [exact T|]; intros q; right; split; [intros e []|reflexivity]|].
  destruct (D0 e (or_introl eq_refl)) as (r & DR). cbn [create_all]. unfold create_entry. rewrite (proj2 (row_of_entry_describes e r) DR). cbn [bind].
  assert (CR : clean_row r) by (apply (clean_describes e); [apply C0; left; reflexivity|exact DR]). destruct (insert_lookup r b T CR) as [T1 L1].
  destruct (IH (insert_row r b) T1) as (A & B & K); [intros x X; apply C0; right; exact X|intros x X; apply D0; right; exact X|]. split; [exact A|]. split; [exact B|]. intros q. destruct (K q) as [(x & rx & X1 & X2 & X3 & X4)|[X1 X2]].
  - left. exists x, rx. split; [right; exact X1|auto].
  - rewrite L1, (ds_path e r DR) in X2. destruct (string_dec q (e_path e)) as [->|N].
    + left. exists e, r. split; [left; reflexivity|auto].
    + right. split; [|exact X2]. intros x [<-|X]; [congruence|apply X1; exact X].
Qed.
Lemma create_fails : forall es b e, In e es -> Unreadable e -> exists x, snd (create_all es b) = Some x.
Proof.
  induction es as [|a es IH]; intros b e I U; [destruct I|]; cbn [create_all]; unfold create_entry; destruct I as [->|I].
  - apply unreadable_raise in U as (x & ->). cbn. eauto.
  - destruct (row_of_entry true a) as [r|x]; cbn [bind snd]; [apply (IH _ e I U)|eauto].
Qed.
Lemma only_db_refl : forall p d, only_db p d d.
Proof. intros p d. split; [reflexivity|]. split; reflexivity. Qed.
Lemma only_db_trans : forall p a b c, only_db p a b -> only_db p b c -> only_db p a c.
Proof. intros p a b c (A1 & A2 & A3) (B1 & B2 & B3). split; [congruence|]. split; [intros q; rewrite B2; apply A2|intros q N; rewrite B3, A3 by exact N; reflexivity]. Qed.
Lemma only_db_set : forall p b d, only_db p d (with_db p b d).
Proof. intros p b d. split; [reflexivity|]. split; [reflexivity|]. intros q N. cbn [d_dbs with_db]. unfold set. destruct (teqb q p) eqn:T; [apply teqb_iff in T; contradiction|reflexivity]. Qed.
Lemma set_same : forall A k (v : A) f, set k v f k = v.
Proof. intros A k v f. unfold set. rewrite teqb_refl. reflexivity. Qed.
Lemma save_eq : forall p b d, exists tr, save_db p b d = (tr, with_db p b d, Ok tt) /\ Forall (only_db p d) tr.
Proof.
  intros p b d. eexists. split; [reflexivity|]. apply Forall_app. split; [|constructor; [apply only_db_set|constructor]]. apply Forall_forall. intros x I. apply in_map_iff in I as (g & <- & G). apply in_map_iff in G as (k & <- & _). apply only_db_set.
Qed.
Lemma open_eq : forall p d, exists tr d', open_db p d = (tr, d', Ok tt) /\ Forall (only_db p d) tr /\ only_db p d d' /\ d_dbs d' p = Some (rows_of d p).
Proof.
  intros p d. unfold open_db, mbind, look, rows_of. destruct (d_dbs d p) as [b|] eqn:E.
  - exists [], d. split; [reflexivity|]. split; [constructor|]. split; [apply only_db_refl|exact E].
  - destruct (save_eq p [] d) as (tr & -> & F). exists tr, (with_db p [] d). split; [reflexivity|]. split; [exact F|]. split; [apply only_db_set|]. cbn. apply set_same.
Qed.
Lemma add_eq : forall p es d b, d_dbs d p = Some b -> exists tr d', add_entries p es d = (tr, d', match snd (create_all es b) with None => Ok tt | Some e => Raise e end)
  /\ Forall (only_db p d) tr /\ only_db p d d' /\ d_dbs d' p = Some (fst (create_all es b)).
Proof.
  intros p es. induction es as [|e es IH]; intros d b E; cbn [add_entries create_all].
  - exists [], d. split; [reflexivity|]. split; [constructor|]. split; [apply only_db_refl|exact E].
  - unfold mbind, add_entry, mbind, look, lift. unfold create_entry. destruct (row_of_entry true e) as [r|x]; cbn [bind snd fst].
    + rewrite E. cbn [bind]. destruct (save_eq p (insert_row r b) d) as (tr & -> & F). assert (E1 : d_dbs (with_db p (insert_row r b) d) p = Some (insert_row r b)) by (cbn; apply set_same).
      destruct (IH _ _ E1) as (tr' & d' & -> & F' & O' & D'). exists (tr ++ tr'), d'. cbn [app]. split; [reflexivity|]. split; [|split; [apply (only_db_trans p d (with_db p (insert_row r b) d)); [apply only_db_set|exact O']|exact D']].
      apply Forall_app. split; [exact F|]. apply (Forall_impl _ (P := only_db p (with_db p (insert_row r b) d))); [|exact F']. intros x X. apply (only_db_trans p d (with_db p (insert_row r b) d)); [apply only_db_set|exact X].
    + exists [], d. split; [reflexivity|]. split; [constructor|]. split; [apply only_db_refl|exact E].
Qed.

(** ** Scans *)
Lemma is_fits_iff : forall n, is_fits n = true <-> fits_name n.
Proof.
  intros n. unfold is_fits. rewrite teqb_iff. split.
  - intros E. exists (firstn (List.length n - 5) n). rewrite <- E, firstn_skipn. reflexivity.
  - intros (s & ->). rewrite app_length. replace (List.length s + List.length (tx ".fits") - 5)%nat with (List.length s) by (cbn; lia). rewrite skipn_app, skipn_all, Nat.sub_diag. reflexivity.
Qed.
Lemma load_files_spec : forall l, match load_files l with
  | Ok es => (forall n, fits_name n -> ~ In (n, Damaged) l) /\ forall e, In e es <-> exists n, In (n, Loads e) l /\ fits_name n
  | Raise _ => exists n, fits_name n /\ In (n, Damaged) l end.
Proof.
  induction l as [|[n f] l IH]; cbn [load_files]; [split; [intros n _ []|intros e; split; [intros []|intros (n & [] & _)]]|]. destruct (is_fits n) eqn:F.
  - apply is_fits_iff in F. destruct f as [|e0]; [exists n; split; [exact F|left; reflexivity]|]. destruct (load_files l) as [es|x]; cbn [bind].
    + destruct IH as [I1 I2]. split; [intros m M [X|X]; [discriminate X|exact (I1 m M X)]|]. intros e. cbn [In]. rewrite I2. split.
      * intros [->|(m & X & Y)]; [exists n; auto|exists m; auto].
      * intros (m & [X|X] & Y); [left; congruence|right; eauto].
    + destruct IH as (m & M & X). exists m. split; [exact M|right; exact X].
  - assert (NF : ~ fits_name n) by (intros X; apply is_fits_iff in X; congruence). destruct (load_files l) as [es|x].
    + destruct IH as [I1 I2]. split; [intros m M [X|X]; [injection X as -> _; contradiction|exact (I1 m M X)]|]. intros e. rewrite I2. split; intros (m & X & Y); exists m; (split; [|exact Y]); [right; exact X|]. destruct X as [X|X]; [injection X as -> _; contradiction|exact X].
    + destruct IH as (m & M & X). exists m. split; [exact M|right; exact X].
Qed.
Lemma scan_spec : forall p dir d l b, d_dirs d dir = Some l -> d_dbs d p = Some b -> honest dir l -> tidy b ->
  exists tr d' r, scan p dir d = (tr, d', r) /\ Forall (only_db p d) tr /\ only_db p d d' /\ (r = Ok tt <-> loadable l)
    /\ (loadable l -> exists b', d_dbs d' p = Some b' /\ entered l b b') /\ ((exists n, fits_name n /\ In (n, Damaged) l) -> d' = d).
Proof.
  intros p dir d l b DL DB [ND HO] T. unfold scan, mbind, look, lift. rewrite DL. pose proof (load_files_spec l) as L. destruct (load_files l) as [es|x] eqn:LF.
  - destruct L as [L1 L2]. set (fs := filter (fun e => match labels (e_class e) with Some _ => true | None => false end) es). assert (FS : forall e, In e fs <-> calibration l e).
    { intros e. unfold fs. rewrite filter_In, L2. unfold calibration. split.
      - intros [(n & X & Y) Z]. exists n. split; [exact X|]. split; [exact Y|]. destruct (labels (e_class e)); [discriminate|discriminate Z].
      - intros (n & X & Y & Z). split; [eauto|]. destruct (labels (e_class e)); [reflexivity|congruence]. }
    destruct (add_eq p fs d b DB) as (tr & d' & E & F & O & D0). rewrite E. exists tr, d', (match snd (create_all fs b) with None => Ok tt | Some e => Raise e end). split; [reflexivity|]. split; [exact F|]. split; [exact O|].
    assert (CL : forall e, In e fs -> clean_entry e) by (intros e I; apply FS in I as (n & I & _); apply (HO n e I)).
    assert (GD : loadable l -> snd (create_all fs b) = None /\ exists b', d_dbs d' p = Some b' /\ entered l b b').
    { intros [_ LD]. destruct (create_entries fs b T CL) as (A & B & K); [intros e I; apply LD, FS, I|]. split; [exact A|]. exists (fst (create_all fs b)). split; [exact D0|]. split; [exact B|]. intros q. destruct (K q) as [(e & r & X1 & X2 & X3 & X4)|[X1 X2]]; [left; exists e, r; split; [apply FS; exact X1|auto]|]. right. split; [|exact X2]. intros e I. apply X1, FS, I. }
    split; [|split; [intros LD; apply GD, LD|intros (n & N & X); destruct (L1 n N X)]]. split; [|intros LD; destruct (GD LD) as [-> _]; reflexivity].
    intros R. split; [exact L1|]. intros e I. destruct (row_of_entry true e) as [r|x] eqn:RE; [exists r; apply row_of_entry_describes; exact RE|]. exfalso. destruct (create_fails fs b e) as (y & Y); [apply FS; exact I|apply unreadable_raise; eauto|]. rewrite Y in R. discriminate R.
  - exists [], d, (Raise x). cbn [fst snd]. split; [reflexivity|]. split; [constructor|]. split; [apply only_db_refl|]. destruct L as (n & N & X). split; [|split; [intros [LD _]; destruct (LD n N X)|reflexivity]]. split; [discriminate|]. intros [LD _]. destruct (LD n N X).
Qed.
(** Load calibrations: step 2. *)
Theorem step_2_spec : forall s p dir d l b, s_caldb s = Some p -> d_dirs d dir = Some l -> d_dbs d p = Some b -> honest dir l -> tidy b ->
  exists d' r, ends (step_2 s dir) d d' r /\ only_db p d d' /\ (r = Ok tt <-> loadable l) /\ (loadable l -> exists b', d_dbs d' p = Some b' /\ entered l b b') /\ ((exists n, fits_name n /\ In (n, Damaged) l) -> d_dbs d' p = Some b).
Proof.
  intros s p dir d l b SC DL DB H T. destruct (scan_spec p dir d l b DL DB H T) as (tr & d' & r & E & _ & O & R & G & X). exists d', r. unfold ends, step_2. rewrite SC, E. split; [auto|]. split; [exact O|]. split; [exact R|]. split; [exact G|]. intros Y. rewrite (X Y). exact DB.
Qed.

(** ** Default files *)
Lemma exists_iff : forall dir n d, exists_in dir n d = true <-> present d dir n.
Proof.
  intros dir n d. unfold exists_in, present. destruct (d_dirs d dir) as [l|]; [|split; [discriminate|intros (l & f & X & _); discriminate X]]. destruct (tlookup n l) as [f|] eqn:E.
  - split; [intros _|reflexivity]. exists l. assert (I : In n (map fst l)). { destruct (in_dec (list_eq_dec ascii_dec) n (map fst l)) as [I|I]; [exact I|]. apply tlookup_none in I. congruence. } apply in_map_iff in I as ([m g] & <- & I). exists g. auto.
  - split; [discriminate|]. intros (l' & f & X & I). injection X as <-. apply tlookup_none in E. exfalso. apply E. apply in_map_iff. exists (n, f). auto.
Qed.
Lemma exists_names : forall dir n d l, d_dirs d dir = Some l -> (exists_in dir n d = true <-> In n (map fst l)).
Proof. intros dir n d l E. rewrite exists_iff. unfold present. rewrite E. split; [intros (l' & f & X & I); injection X as <-; apply in_map_iff; exists (n, f); auto|]. intros I. apply in_map_iff in I as ([m f] & <- & I). eauto. Qed.
Lemma exists_false : forall dir n d l, d_dirs d dir = Some l -> exists_in dir n d = false -> ~ In n (map fst l).
Proof. intros dir n d l E F I. apply (exists_names dir n d l E) in I. congruence. Qed.
Lemma put_new : forall n f l, ~ In n (map fst l) -> put_file n f l = l ++ [(n, f)].
Proof. induction l as [|[m g] l IH]; intros N; [reflexivity|]. cbn [put_file map fst In] in *. destruct (teqb n m) eqn:T; [apply teqb_iff in T; subst; exfalso; apply N; left; reflexivity|]. rewrite IH; [reflexivity|]. intros I. apply N. right. exact I. Qed.
Lemma pjoin_dir : forall dir n, absolute dir -> pjoin dir n = dir ++ tx "/" ++ n.
Proof. intros dir n ((t & E) & _ & H). apply pjoin_plain; [rewrite E; discriminate|exact H]. Qed.
Lemma detparams_default : forall now hash dir, (forall q, is_abs (hash q) = false) -> absolute dir -> default_file dir (detector, Loads (detparams now hash (pjoin dir detparams_name))).
Proof.
  intros now hash dir H A. eexists. split; [reflexivity|]. cbn [fst]. rewrite (pjoin_dir dir _ A). destruct A as ((t & ->) & _ & _). split; [reflexivity|]. split; [|split; [|left; split; reflexivity]].
  - split; [reflexivity|]. split; [apply H|]. split; intros v X; injection X as <-; reflexivity.
  - eexists. apply row_of_entry_describes. reflexivity.
Qed.
Lemma fpamfsam_default : forall now hash dir, (forall q, is_abs (hash q) = false) -> absolute dir -> default_file dir (matrices, Loads (fpamfsam now hash (pjoin dir fpamfsam_name))).
Proof.
  intros now hash dir H A. eexists. split; [reflexivity|]. cbn [fst]. rewrite (pjoin_dir dir _ A). destruct A as ((t & ->) & _ & _). split; [reflexivity|]. split; [|split; [|right; split; reflexivity]].
  - split; [reflexivity|]. split; [apply H|]. split; intros v X; injection X as <-; reflexivity.
  - eexists. apply row_of_entry_describes. reflexivity.
Qed.
Lemma fits_defaults : fits_name detector /\ fits_name matrices.
Proof. split; [exists (tx "DetectorParams_2023-11-01T00:00:00.000")|exists (tx "FpamFsamCal_2024-02-10T00:00:00.000")]; reflexivity. Qed.
Lemma default_fits : forall dir n f, default_file dir (n, f) -> fits_name n.
Proof. intros dir n f (e & _ & _ & _ & _ & [[X _]|[X _]]); cbn [fst] in X; rewrite X; apply fits_defaults. Qed.
Lemma completed_honest : forall dir l l', completed dir l l' -> honest dir l -> honest dir l'.
Proof.
  intros dir l l' (x & -> & N & F & D0 & _) [ND HO]. split.
  - rewrite map_app. clear HO. revert D0 ND. induction (map fst l) as [|a m IH]; intros D0 ND; [exact N|]. cbn [app]. inversion ND as [|? ? N1 N2]; subst. constructor; [|apply IH; [intros n I J; apply (D0 n I); right; exact J|exact N2]]. intros I. apply in_app_or in I as [I|I]; [contradiction|]. apply (D0 a I). left. reflexivity.
  - intros n e I. apply in_app_or in I as [I|I]; [apply HO; exact I|]. rewrite Forall_forall in F. destruct (F _ I) as (e' & E & P & C0 & _). cbn [fst snd] in *. injection E as <-. auto.
Qed.
Lemma completed_loadable : forall dir l l', completed dir l l' -> (loadable l' <-> loadable l).
Proof.
  intros dir l l' (x & -> & N & F & _). rewrite Forall_forall in F. split; intros [A B]; split.
  - intros n NF I. apply (A n NF). apply in_or_app. auto.
  - intros e (n & I & R). apply B. exists n. split; [apply in_or_app; auto|exact R].
  - intros n NF I. apply in_app_or in I as [I|I]; [exact (A n NF I)|]. destruct (F _ I) as (e & E & _). discriminate E.
  - intros e (n & I & R). apply in_app_or in I as [I|I]; [apply B; exists n; auto|]. destruct (F _ I) as (e' & E & _ & _ & D0 & _). cbn in E. injection E as <-. exact D0.
Qed.

(** ** The defaults *)
Definition added (dir n : text) (f : file) (l : list (text * file)) (d : disk) : disk := with_dir dir (l ++ [(n, f)]) d.
Lemma save_file_eq : forall dir n e d l, d_dirs d dir = Some l -> ~ In n (map fst l) -> save_file dir n e d = ([added dir n Damaged l d; added dir n (Loads e) l d], added dir n (Loads e) l d, Ok tt).
Proof. intros dir n e d l E N. unfold save_file, mbind, look, acts. rewrite E, !put_new by exact N. reflexivity. Qed.
Lemma ensure_eq : forall dir n e d l, d_dirs d dir = Some l ->
  exists tr d' l', (if exists_in dir n d then ret tt else save_file dir n e) d = (tr, d', Ok tt) /\ d_dirs d' dir = Some l' /\ In n (map fst l')
    /\ (exists_in dir n d = true /\ tr = [] /\ d' = d /\ l' = l \/ exists_in dir n d = false /\ ~ In n (map fst l) /\ tr = [added dir n Damaged l d; d'] /\ d' = added dir n (Loads e) l d /\ l' = l ++ [(n, Loads e)]).
Proof.
  intros dir n e d l E. destruct (exists_in dir n d) eqn:X.
  - exists [], d, l. split; [reflexivity|]. split; [exact E|]. split; [apply (exists_names dir n d l E); exact X|]. left. auto.
  - pose proof (exists_false dir n d l E X) as N. rewrite (save_file_eq dir n e d l E N). do 3 eexists. split; [reflexivity|]. split; [cbn; apply set_same|]. split; [rewrite map_app; apply in_or_app; right; left; reflexivity|]. right. auto.
Qed.
Definition same_but_dir (dir : text) (d d' : disk) : Prop := d_home d' = d_home d /\ (forall q, q <> dir -> d_dirs d' q = d_dirs d q) /\ d_dbs d' = d_dbs d.
Lemma same_but_added : forall dir n f l d, same_but_dir dir d (added dir n f l d).
Proof. intros dir n f l d. split; [reflexivity|]. split; [|reflexivity]. intros q N. cbn. unfold set. destruct (teqb q dir) eqn:T; [apply teqb_iff in T; contradiction|reflexivity]. Qed.
Lemma same_but_refl : forall dir d, same_but_dir dir d d.
Proof. intros dir d. split; [reflexivity|]. split; reflexivity. Qed.
Lemma same_but_trans : forall dir a b c, same_but_dir dir a b -> same_but_dir dir b c -> same_but_dir dir a c.
Proof. intros dir a b c (A1 & A2 & A3) (B1 & B2 & B3). split; [congruence|]. split; [intros q N; rewrite B2, A2 by exact N; reflexivity|congruence]. Qed.
Lemma names_differ : detector <> matrices.
Proof. discriminate. Qed.
(** The two files: the directory before the scan, and in between. *)
Lemma files_eq : forall now hash s dir d l, s_calibs s = Some dir -> d_dirs d dir = Some l ->
  exists tr d1 l1, initialize now hash s d = (if exists_in dir detector d && exists_in dir matrices d then ([], d, Ok tt)
      else match s_caldb s with None => (tr, d1, Raise TypeError) | Some p => let '(tr', d', r) := mbind (open_db p) (fun _ => scan p dir) d1 in (tr ++ tr', d', r) end)
    /\ d_dirs d1 dir = Some l1 /\ same_but_dir dir d d1 /\ In detector (map fst l1) /\ In matrices (map fst l1)
    /\ (exists x, l1 = l ++ x /\ NoDup (map fst x) /\ (forall n f, In (n, f) x -> ~ In n (map fst l) /\ (n = detector /\ f = Loads (detparams now hash (pjoin dir detparams_name)) \/ n = matrices /\ f = Loads (fpamfsam now hash (pjoin dir fpamfsam_name)))))
    /\ Forall (fun x => exists lx, d_dirs x dir = Some lx /\ same_but_dir dir d x /\
         (lx = l1 \/ (In (detector, Damaged) lx \/ In (matrices, Damaged) lx) /\ (exists y, lx = l ++ y /\ forall n f, In (n, f) y -> (n = detector \/ n = matrices) /\ ~ In n (map fst l)) \/ lx = l ++ [(detector, Loads (detparams now hash (pjoin dir detparams_name)))] /\ ~ In detector (map fst l) /\ ~ In matrices (map fst l))) tr.
Proof.
  intros now hash s dir d l SC E. unfold initialize. rewrite SC. unfold mbind at 1, look at 1. change detparams_name with detector. change fpamfsam_name with matrices.
  set (e1 := detparams now hash (pjoin dir detector)). set (e2 := fpamfsam now hash (pjoin dir matrices)).
  destruct (ensure_eq dir detector e1 d l E) as (tr1 & d1 & l1 & Q1 & D1 & I1 & C1). destruct (ensure_eq dir matrices e2 d1 l1 D1) as (tr2 & d2 & l2 & Q2 & D2 & I2 & C2).
  assert (B : exists_in dir matrices d1 = exists_in dir matrices d).
  { destruct C1 as [(_ & _ & -> & _)|(_ & _ & _ & -> & ->)]; [reflexivity|]. unfold exists_in. rewrite D1, E. assert (H : forall l, tlookup matrices (l ++ [(detector, Loads e1)]) = tlookup matrices l). { clear. induction l as [|[k v] l IH]; [reflexivity|]. cbn [tlookup app]. rewrite IH. reflexivity. } rewrite H. reflexivity. }
  exists (tr1 ++ tr2), d2, l2. split.
  - unfold mbind at 1. rewrite Q1. unfold mbind at 1, look at 1. unfold mbind at 1. rewrite Q2. rewrite B.
    destruct (exists_in dir detector d) eqn:X1; destruct (exists_in dir matrices d) eqn:X2; cbn [andb].
    + destruct C1 as [(_ & -> & -> & _)|(Y & _)]; [|discriminate Y]. destruct C2 as [(_ & -> & -> & _)|(Y & _)]; [|rewrite B in Y; discriminate Y]. reflexivity.
    + destruct (s_caldb s) as [p|]; [|cbn [fail app]; rewrite app_nil_r; reflexivity]. destruct (mbind (open_db p) (fun _ => scan p dir) d2) as [[tr' d'] r] eqn:M. cbn [app]. rewrite app_assoc. reflexivity.
    + destruct (s_caldb s) as [p|]; [|cbn [fail app]; rewrite app_nil_r; reflexivity]. destruct (mbind (open_db p) (fun _ => scan p dir) d2) as [[tr' d'] r] eqn:M. cbn [app]. rewrite app_assoc. reflexivity.
    + destruct (s_caldb s) as [p|]; [|cbn [fail app]; rewrite app_nil_r; reflexivity]. destruct (mbind (open_db p) (fun _ => scan p dir) d2) as [[tr' d'] r] eqn:M. cbn [app]. rewrite app_assoc. reflexivity.
  - assert (S1 : same_but_dir dir d d1) by (destruct C1 as [(_ & _ & -> & _)|(_ & _ & _ & -> & _)]; [apply same_but_refl|apply same_but_added]).
    assert (S2 : same_but_dir dir d d2) by (apply (same_but_trans dir d d1); [exact S1|]; destruct C2 as [(_ & _ & -> & _)|(_ & _ & _ & -> & _)]; [apply same_but_refl|apply same_but_added]).
    split; [exact D2|]. split; [exact S2|]. assert (IN : In detector (map fst l2)). { destruct C2 as [(_ & _ & _ & ->)|(_ & _ & _ & _ & ->)]; [exact I1|]. rewrite map_app. apply in_or_app. auto. }
    split; [exact IN|]. split; [exact I2|]. split.
    + destruct C1 as [(_ & _ & -> & ->)|(_ & N1 & _ & _ & ->)]; destruct C2 as [(_ & _ & _ & ->)|(_ & N2 & _ & _ & ->)].
      * exists []. split; [symmetry; apply app_nil_r|]. split; [constructor|intros n f []].
      * exists [(matrices, Loads e2)]. split; [reflexivity|]. split; [constructor; [intros []|constructor]|]. intros n f [X|[]]. injection X as <- <-. auto.
      * exists [(detector, Loads e1)]. split; [reflexivity|]. split; [constructor; [intros []|constructor]|]. intros n f [X|[]]. injection X as <- <-. auto.
      * exists [(detector, Loads e1); (matrices, Loads e2)]. split; [rewrite <- app_assoc; reflexivity|]. split; [constructor; [intros [X|[]]; discriminate X|]; constructor; [intros []|constructor]|]. intros n f [X|[X|[]]]; injection X as <- <-; [auto|]. split; [|auto]. intros I. apply N2. rewrite map_app. apply in_or_app. auto.
    + apply Forall_app. split.
      * destruct C1 as [(_ & -> & _)|(X1 & N1 & -> & -> & ->)]; [constructor|]. constructor; [|constructor; [|constructor]].
        -- exists (l ++ [(detector, Damaged)]). split; [cbn; apply set_same|]. split; [apply same_but_added|]. right. left. split; [left; apply in_or_app; right; left; reflexivity|]. exists [(detector, Damaged)]. split; [reflexivity|]. intros n f [X|[]]. injection X as <- <-. auto.
        -- exists (l ++ [(detector, Loads e1)]). split; [exact D1|]. split; [exact S1|]. destruct C2 as [(_ & _ & _ & ->)|(Y & N2 & _)]; [auto|]. right. right. split; [reflexivity|]. split; [exact N1|]. intros I. apply N2. rewrite map_app. apply in_or_app. auto.
      * destruct C2 as [(_ & -> & _)|(X2 & N2 & -> & E2 & ->)]; [constructor|]. constructor; [|constructor; [|constructor]].
        -- exists (l1 ++ [(matrices, Damaged)]). split; [cbn; apply set_same|]. split; [apply (same_but_trans dir d d1); [exact S1|apply same_but_added]|]. right. left. split; [right; apply in_or_app; right; left; reflexivity|].
           destruct C1 as [(_ & _ & _ & ->)|(_ & N1 & _ & _ & ->)]; [exists [(matrices, Damaged)]; split; [reflexivity|]; intros n f [X|[]]; injection X as <- <-; auto|].
           exists [(detector, Loads e1); (matrices, Damaged)]. split; [rewrite <- app_assoc; reflexivity|]. intros n f [X|[X|[]]]; injection X as <- <-; [auto|]. split; [auto|]. intros I. apply N2. rewrite map_app. apply in_or_app. auto.
        -- exists (l1 ++ [(matrices, Loads e2)]). split; [exact D2|]. split; [exact S2|]. auto.
Qed.
Lemma files_completed : forall now hash dir l l1, (forall q, is_abs (hash q) = false) -> absolute dir -> In detector (map fst l1) -> In matrices (map fst l1) ->
  (exists x, l1 = l ++ x /\ NoDup (map fst x) /\ (forall n f, In (n, f) x -> ~ In n (map fst l) /\ (n = detector /\ f = Loads (detparams now hash (pjoin dir detparams_name)) \/ n = matrices /\ f = Loads (fpamfsam now hash (pjoin dir fpamfsam_name))))) -> completed dir l l1.
Proof.
  intros now hash dir l l1 H A I1 I2 (x & -> & ND & X). exists x. split; [reflexivity|]. split; [exact ND|]. split; [|split; [|split; [exact I1|exact I2]]].
  - apply Forall_forall. intros [n f] I. destruct (X n f I) as [_ [[-> ->]|[-> ->]]]; [apply detparams_default|apply fpamfsam_default]; assumption.
  - intros n I. apply in_map_iff in I as ([m f] & <- & I). apply (X m f I).
Qed.
(** Both files there: nothing is done, whatever the database holds. *)
Theorem defaults_present : forall now hash s dir d, s_calibs s = Some dir -> present d dir detector -> present d dir matrices -> initialize now hash s d = ([], d, Ok tt).
Proof.
  intros now hash s dir d SC P1 P2. assert (E : exists l, d_dirs d dir = Some l) by (destruct P1 as (l & f & E & _); eauto). destruct E as (l & E). destruct (files_eq now hash s dir d l SC E) as (tr & d1 & l1 & -> & _). apply exists_iff in P1, P2. rewrite P1, P2. reflexivity.
Qed.
(** A file missing: it is made, and the directory is entered. *)
Theorem defaults_missing : forall now hash s dir p d l, (forall q, is_abs (hash q) = false) -> absolute dir -> s_calibs s = Some dir -> s_caldb s = Some p -> d_dirs d dir = Some l -> honest dir l -> tidy (rows_of d p) ->
  ~ (present d dir detector /\ present d dir matrices) ->
  exists d' r l', ends (initialize now hash s) d d' r /\ completed dir l l' /\ d_dirs d' dir = Some l' /\ d_home d' = d_home d /\ (forall q, q <> dir -> d_dirs d' q = d_dirs d q) /\ (forall q, q <> p -> d_dbs d' q = d_dbs d q)
    /\ (r = Ok tt <-> loadable l) /\ (loadable l -> exists b', d_dbs d' p = Some b' /\ entered l' (rows_of d p) b') /\ ((exists n, fits_name n /\ In (n, Damaged) l) -> d_dbs d' p = Some (rows_of d p)).
Proof.
  intros now hash s dir p d l HH A SC SP E HO T NP. destruct (files_eq now hash s dir d l SC E) as (tr & d1 & l1 & Q & D1 & (S1 & S2 & S3) & I1 & I2 & X & _). pose proof (files_completed now hash dir l l1 HH A I1 I2 X) as CP.
  assert (NB : exists_in dir detector d && exists_in dir matrices d = false). { destruct (exists_in dir detector d) eqn:X1; [|reflexivity]. destruct (exists_in dir matrices d) eqn:X2; [|reflexivity]. exfalso. apply NP. split; apply exists_iff; assumption. }
  rewrite NB, SP in Q. unfold mbind in Q. destruct (open_eq p d1) as (tr1 & d2 & OE & _ & (O1 & O2 & O3) & O4). rewrite OE in Q.
  assert (RW : rows_of d1 p = rows_of d p) by (unfold rows_of; rewrite S3; reflexivity). rewrite RW in O4.
  assert (D2 : d_dirs d2 dir = Some l1) by (rewrite O2; exact D1). destruct (scan_spec p dir d2 l1 _ D2 O4 (completed_honest dir l l1 CP HO) T) as (tr2 & d3 & r & SE & _ & (P1 & P2 & P3) & R & G & Y).
  rewrite SE in Q. exists d3, r, l1. unfold ends. rewrite Q. cbn [fst snd]. split; [auto|]. split; [exact CP|]. split; [rewrite P2; exact D2|]. split; [congruence|]. split; [intros q N; rewrite P2, O2; apply S2; exact N|]. split; [intros q N; rewrite (P3 q N), (O3 q N), S3; reflexivity|].
  pose proof (completed_loadable dir l l1 CP) as CL. split; [rewrite R; exact CL|]. split; [intros LD; apply G, CL, LD|]. intros (n & N & I). rewrite (Y); [exact O4|]. exists n. split; [exact N|]. destruct CP as (x & -> & _). apply in_or_app. auto.
Qed.
(** A directory that does not exist. *)
Theorem defaults_no_directory : forall now hash s dir d, s_calibs s = Some dir -> d_dirs d dir = None -> initialize now hash s d = ([], d, Raise PyException).
Proof. intros now hash s dir d SC E. unfold initialize. rewrite SC. unfold mbind, look, exists_in, save_file, mbind, look. rewrite E. cbv beta iota. rewrite E. reflexivity. Qed.
Theorem defaults_unset : forall now hash s d, s_calibs s = None -> initialize now hash s d = ([], d, Raise TypeError).
Proof. intros now hash s d SC. unfold initialize. rewrite SC. reflexivity. Qed.
