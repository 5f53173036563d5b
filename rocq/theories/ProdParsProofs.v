(** Detector parameters, matrices, and products made. *)
From Coq Require Import List Arith Bool String Ascii ZArith QArith Lia.
From Verif Require Import Base DiskModel DiskSpec DiskProofs DiskLawProofs ProdModel ProdSpec ProdTextProofs ProdProofs ProdLawProofs ProdNewProofs.
Import ListNotations.
Local Open Scope nat_scope.
Local Open Scope string_scope.
Local Open Scope list_scope.

Lemma set_all_get : forall l h k v, NoDup (map fst l) -> (get k (set_all l h) = Some v <-> In (k, v) l \/ ~ In k (map fst l) /\ get k h = Some v).
Proof.
  unfold set_all. induction l as [|[a w] l IH]; intros h k v N; cbn [fold_left map fst snd].
  - split; [right; split; [intros []|assumption]|intros [[]|(_ & H)]; exact H].
  - inversion N as [|? ? N1 N2]; subst. rewrite (IH _ _ _ N2), get_set. destruct (String.eqb a k) eqn:Q.
    + apply String.eqb_eq in Q. subst k. split.
      * intros [H|(_ & H)]; [left; right; exact H|injection H as ->; left; left; reflexivity].
      * intros [[H|H]|(H & _)]; [injection H as ->; right; auto|left; exact H|destruct H; left; reflexivity].
    + apply String.eqb_neq in Q. split.
      * intros [H|(H & G)]; [left; right; exact H|right; split; [intros [Z|Z]; [exact (Q Z)|exact (H Z)]|exact G]].
      * intros [[H|H]|(H & G)]; [injection H as H _; contradiction|left; exact H|right; split; [intros Z; apply H; right; exact Z|exact G]].
Qed.
Lemma set_all_none : forall l h k, get k (set_all l h) = None <-> ~ In k (map fst l) /\ get k h = None.
Proof.
  unfold set_all. induction l as [|[a w] l IH]; intros h k; cbn [fold_left map fst snd]; [split; [intros H; split; [intros []|exact H]|intros (_ & H); exact H]|].
  rewrite IH, get_set. destruct (String.eqb a k) eqn:Q.
  - apply String.eqb_eq in Q. split; [intros (_ & H); discriminate|intros (H & _); destruct H; left; exact Q].
  - apply String.eqb_neq in Q. split; [intros (H & G); split; [intros [Z|Z]; [exact (Q Z)|exact (H Z)]|exact G]|intros (H & G); split; [intros Z; apply H; right; exact Z|exact G]].
Qed.
Lemma set_all_rest : forall l h, hist (set_all l h) = hist h /\ comm (set_all l h) = comm h.
Proof. unfold set_all. induction l as [|a l IH]; intros h; [split; reflexivity|]. cbn [fold_left]. destruct (IH (set (fst a) (snd a) h)) as (A & B). rewrite A, B. split; reflexivity. Qed.
Lemma set_all_app : forall l m h, set_all (l ++ m) h = set_all m (set_all l h).
Proof. intros. unfold set_all. apply fold_left_app. Qed.

Section Pars.
Variable E : Type.
Variable zero : E.
Variable is_nan : E -> bool.
Variable show : hv -> string.
Variable order : list string -> list string.
Hypothesis ORDER : forall l, NoDup (order l) /\ forall s, In s (order l) <-> In s l.
Notation arr := (arr E).
Notation image := (image E).
Notation prod := (prod E).
Notation file := (file E).
Notation args := (args E).

(** ** Made products are sound *)
Lemma keys_ok : forall c k, In k keys -> c <> CParams -> c <> CFpam -> k <> "DATATYPE" /\ k <> "DATALVL" /\ k <> "BUNIT" /\ k <> "B_0_UNIT" /\ ~ is_file k /\ fallback c k = None.
Proof using.
  intros c k I N1 N2. cbn in I. repeat (destruct I as [I|I]; [subst k; repeat split; try discriminate; [intros [Z|(i & Z)]; discriminate|destruct c; reflexivity]|]). destruct I.
Qed.
Lemma made_sound : forall track c (a : args) (x : image) y, c <> CImage -> c <> CParams -> c <> CFpam -> ready track x -> fits is_nan c x -> made show c a x y -> sound is_nan track y.
Proof using.
  intros track c a x y N0 N1 N2 R F M. destruct M as (C & P & D & ER & DQ & LS & NM & DR & RD & RE & _ & _ & TY & _ & _ & _ & _ & K & _ & _ & MO).
  assert (KP : forall k, In k keys -> get k (i_ext (p_img y)) = get k (i_ext x)). { intros k I. destruct (keys_ok c k I N1 N2) as (K1 & K2 & K3 & K4 & K5 & K6). rewrite K by (first [assumption|intros; contradiction|auto]). rewrite K6. destruct (get k (i_ext x)); reflexivity. }
  assert (KS : forall k, k <> "DATATYPE" -> k <> "DATALVL" -> k <> "BUNIT" -> k <> "B_0_UNIT" -> ~ is_file k -> (get k (i_ext x) <> None \/ fallback c k <> None) -> get k (i_ext (p_img y)) <> None). { intros k K1 K2 K3 K4 K5 K6. rewrite K by (first [assumption|intros; contradiction|auto]). destruct (get k (i_ext x)); [discriminate|]. destruct K6 as [Z|Z]; [contradiction|exact Z]. }
  destruct R as [R1 R2 R3 R4 (R5 & R6 & R7) R8 R9]. destruct RD as (RD & _). destruct RE as (RE & _).
  assert (GE : forall k, k <> "BUNIT" -> get k (i_errh (p_img y)) = get k (i_errh x)). { intros k KB. unfold get. rewrite RE. destruct c; try reflexivity; (destruct (a_errh a); [|reflexivity]); pose proof (get_set "BUNIT" (HS "Detected Electrons") (i_errh x) k) as G; unfold get in G; rewrite G; destruct (String.eqb "BUNIT" k) eqn:Q; try reflexivity; apply String.eqb_eq in Q; congruence. }
  assert (GD : forall k, get k (i_dqh (p_img y)) = get k (i_dqh x)) by (intros k; unfold get; rewrite RD; reflexivity).
  constructor.
  - constructor; rewrite ?GE, ?GD, ?ER, ?D, ?P by discriminate; try assumption. repeat split; apply KS; try discriminate; try (intros [Z|(i & Z)]; discriminate); left; assumption.
  - rewrite C. apply (fits_same is_nan c x (p_img y)); assumption.
  - right. rewrite C. exact TY.
  - rewrite C. destruct c; try reflexivity; try contradiction; cbn [ext_of].
    + apply set_new_same. apply KS; try discriminate; [intros [Z|(i & Z)]; discriminate|right; discriminate].
    + rewrite (set_new_same "RN"); [apply set_new_same|]; apply KS; try discriminate; try (intros [Z|(i & Z)]; discriminate); right; discriminate.
  - rewrite C. destruct c; try reflexivity. contradiction.
  - rewrite C. destruct c; try exact MO; try contradiction.
    + destruct MO as (h & d & M1 & M2 & _). exists h, d. split; [exact M1|]. rewrite M2, get_set. reflexivity.
    + destruct MO as (s & v & B & G & M1). exists s, v. split; [|split; [rewrite KP by (cbn; auto); exact G|exact M1]]. unfold band_card in *. rewrite !KP by (cbn; auto). exact B.
Qed.
Theorem new_sound : forall track v now c data pri ext (a : args) y, new_as zero is_nan show order track v now c data pri ext a = Ok y -> p_cls y = c /\ sound is_nan track y.
Proof using ORDER.
  intros track v now c data pri ext a y H. assert (D : c = CImage \/ c <> CImage) by (destruct c; auto; right; discriminate). destruct D as [->|N].
  - cbn [new_as] in H. apply bind_iff in H. destruct H as (x & X & H). injection H as <-. split; [reflexivity|]. pose proof (new_ready _ _ _ _ _ _ _ _ _ _ _ _ _ X) as R. constructor; cbn [p_cls p_img p_more fits]; auto. left. reflexivity.
  - assert (NP : c <> CParams /\ c <> CFpam) by (split; intros ->; discriminate). destruct NP as (N1 & N2). destruct (new_as_ok zero is_nan show order ORDER _ _ _ _ _ _ _ _ _ N H) as (x & X & F & S & M). split; [exact (proj1 M)|]. apply (made_sound track c a x); auto. exact (new_ready _ _ _ _ _ _ _ _ _ _ _ _ _ X).
Qed.

(** ** Detector parameters *)
Lemma nd_usual : forall version now valid, NoDup (map fst (usual version now valid)).
Proof using. intros. vm_compute. repeat (constructor; [cbn; intros H; repeat (destruct H as [H|H]; [discriminate|]); exact H|]). constructor. Qed.
Lemma read_own : forall h l, (forall e, In e l -> get (fst (fst e)) h <> None) -> exists r, read_pars h l = Ok r /\ Forall2 (fun e p => fst p = fst (fst e) /\ get (fst p) h = Some (snd p)) l r.
Proof using.
  intros h. induction l as [|e l IH]; intros H; [exists []; split; [reflexivity|constructor]|]. destruct IH as (r & R & F); [intros z Z; apply H; right; exact Z|]. cbn [read_pars]. unfold read_par. destruct (get (fst (fst e)) h) as [v|] eqn:G; [|destruct (H e (or_introl eq_refl) G)]. cbn [bind]. rewrite R. cbn [bind]. exists ((fst (fst e), v) :: r). split; [reflexivity|]. constructor; [split; [reflexivity|exact G]|exact F].
Qed.
Definition dict (version now valid : string) (d : list (string * hv)) : hdr := set_all d (set_all (usual version now valid) blank).
Lemma dict_get : forall version now valid d k v, NoDup (map fst d) -> (get k (dict version now valid d) = Some v <-> In (k, v) d \/ ~ In k (map fst d) /\ In (k, v) (usual version now valid)).
Proof using.
  intros version now valid d k v N. unfold dict. rewrite (set_all_get _ _ _ _ N), (set_all_get _ _ _ _ (nd_usual version now valid)). split; (intros [H|(A & B)]; [left; exact H|right; split; [exact A|]]); [destruct B as [B|(_ & B)]; [exact B|discriminate]|left; exact B].
Qed.
Lemma in_fst : forall (A B : Type) (l : list (A * B)) k v, In (k, v) l -> In k (map fst l).
Proof using. intros A B l k v I. apply in_map_iff. exists (k, v). auto. Qed.
Lemma in_one : forall (l : list (string * hv)) k v w, NoDup (map fst l) -> In (k, v) l -> In (k, w) l -> v = w.
Proof using.
  induction l as [|[a u] l IH]; intros k v w N I J; [destruct I|]. inversion N as [|? ? N1 N2]; subst. cbn [fst] in N1. destruct I as [I|I]; destruct J as [J|J].
  - congruence.
  - injection I as -> ->. destruct (N1 (in_fst _ _ _ _ _ J)).
  - injection J as -> ->. destruct (N1 (in_fst _ _ _ _ _ I)).
  - exact (IH _ _ _ N2 I J).
Qed.
Lemma par_there : forall version now valid d e, In e parameters -> get (fst (fst e)) (dict version now valid d) <> None.
Proof using.
  intros version now valid d e I. unfold dict. intros Z. apply set_all_none in Z. destruct Z as (_ & Z). apply set_all_none in Z. destruct Z as (Z & _). apply Z. unfold usual. rewrite !map_app. apply in_or_app. right. apply in_or_app. right. rewrite map_map. apply (in_map (fun e => fst (fst e))). exact I.
Qed.
Lemma table : par_table = parameters.
Proof using. reflexivity. Qed.
Lemma params_eq : forall version now valid d, exists r, Forall2 (fun e p => fst p = fst (fst e) /\ get (fst p) (dict version now valid d) = Some (snd p)) parameters r /\
  exists t, get "SCTSRT" (dict version now valid d) = Some t /\
  new_params zero show version now valid d = Ok (mkp CParams (mkim (mkh [("OBSNUM", HZ 0)] [] [])
    (add_hist "Detector Params file created" (set "DATATYPE" (HS "DetectorParams") (match get "CMDGAIN" (dict version now valid d) with Some v => set "EMGAIN_C" v (dict version now valid d) | None => dict version now valid d end)))
    (zeros E zero [1; 1]) (zeros E zero [1; 1]) blank (zeros E zero [1; 1]) blank [] [] "." ("DetectorParams_" ++ show t ++ ".fits")%string) (MPars r)).
Proof using.
  intros version now valid d. destruct (read_own (dict version now valid d) parameters (par_there version now valid d)) as (r & RP & FR). exists r. split; [exact FR|].
  assert (SC : exists t, get "SCTSRT" (dict version now valid d) = Some t). { destruct (get "SCTSRT" (dict version now valid d)) as [t|] eqn:G; [exists t; reflexivity|]. exfalso. unfold dict in G. apply set_all_none in G. destruct G as (_ & G). apply set_all_none in G. destruct G as (G & _). apply G. left. reflexivity. }
  destruct SC as (t & SC). exists t. split; [exact SC|]. unfold new_params. change (set_all d (set_all (map fst par_table) (set_all [("SCTSRT", HS valid); ("DRPVERSN", HS version); ("DRPCTIME", HS now); ("EXPTIME", HZ 1); ("OPMODE", HS ""); ("EMGAIN_C", HQ 1); ("EXCAMT", HQ 40); ("DATALVL", HS "CAL")] blank))) with (dict version now valid d). rewrite table, RP. cbn [bind]. unfold card. rewrite get_hist, get_set. cbn [String.eqb Ascii.eqb Bool.eqb]. assert (G : get "SCTSRT" (match get "CMDGAIN" (dict version now valid d) with Some v => set "EMGAIN_C" v (dict version now valid d) | None => dict version now valid d end) = Some t) by (destruct (get "CMDGAIN" (dict version now valid d)); [rewrite get_set|]; exact SC). rewrite G. reflexivity.
Qed.
Theorem params_ok : forall version now valid d, NoDup (map fst d) -> exists y, new_params zero show version now valid d = Ok y /\ params_made zero show version now valid d y.
Proof using.
  intros version now valid d N. destruct (params_eq version now valid d) as (r & FR & t & SC & Q). eexists. split; [exact Q|]. clear Q. set (h := dict version now valid d) in *.
  unfold params_made. cbn [p_cls p_img p_more i_ext i_data i_err i_dq i_list i_dir i_file i_pri]. split; [reflexivity|]. split.
  { exists r. split; [reflexivity|]. assert (G : forall l q, incl l parameters -> Forall2 (fun e p => fst p = fst (fst e) /\ get (fst p) h = Some (snd p)) l q -> Forall2 (fun e p => fst p = fst (fst e) /\ (In p d \/ ~ In (fst p) (map fst d) /\ p = fst e)) l q).
    { induction l as [|e l IH]; intros q I F; inversion F as [|? p ? q' (P1 & P2) T]; subst; [constructor|]. constructor; [|apply IH; [intros z Z; apply I; right; exact Z|exact T]]. split; [exact P1|]. apply (dict_get _ _ _ _ _ _ N) in P2. destruct p as [k v]. cbn [fst snd] in *. destruct P2 as [P2|(A & B)]; [left; exact P2|right]. split; [exact A|]. subst k. assert (B2 : In (fst e) (usual version now valid)) by (unfold usual; apply in_or_app; right; apply in_or_app; right; apply in_map; apply I; left; reflexivity). destruct (fst e) as [k0 v0] eqn:FE. cbn [fst] in *. rewrite (in_one _ _ _ _ (nd_usual version now valid) B B2). reflexivity. }
    apply G; [apply incl_refl|exact FR]. }
  split; [|split; [cbn [add_hist set hist]; assert (HH : hist h = []) by (unfold h, dict; rewrite (proj1 (set_all_rest _ _)), (proj1 (set_all_rest _ _)); reflexivity); destruct (get "CMDGAIN" h); cbn [set hist]; rewrite HH; reflexivity|]].
  2: { split; [cbn [add_hist set comm]; assert (HH : comm h = []) by (unfold h, dict; rewrite (proj2 (set_all_rest _ _)), (proj2 (set_all_rest _ _)); reflexivity); destruct (get "CMDGAIN" h); cbn [set comm]; exact HH|]. split; [reflexivity|]. split; [apply zeros_iff; reflexivity|]. split; [apply zeros_iff; reflexivity|]. split; [apply zeros_iff; reflexivity|]. split; [reflexivity|]. split; [reflexivity|]. split; [reflexivity|]. split; [reflexivity|]. exists t. split; [|reflexivity]. rewrite get_hist, get_set. cbn [String.eqb Ascii.eqb Bool.eqb]. destruct (get "CMDGAIN" h); [rewrite get_set|]; exact SC. }
  intros k v. rewrite get_hist, get_set. destruct (String.eqb "DATATYPE" k) eqn:Q1.
  { apply String.eqb_eq in Q1. subst k. split; [intros Z; injection Z as <-; auto|]. intros [(_ & ->)|[(Z & _)|(Z & _)]]; [reflexivity|discriminate|contradiction]. }
  apply String.eqb_neq in Q1. assert (CG : forall w, get "CMDGAIN" h = Some w <-> In ("CMDGAIN", w) d). { intros w. unfold h. rewrite (dict_get _ _ _ _ _ _ N). split; [|auto]. intros [Z|(_ & Z)]; [exact Z|]. exfalso. apply in_fst in Z. vm_compute in Z. repeat (destruct Z as [Z|Z]; [discriminate|]). exact Z. }
  pose proof (dict_get version now valid d k v N) as DG. fold h in DG. destruct (get "CMDGAIN" h) as [w|] eqn:GC.
  - pose proof (proj1 (CG w) eq_refl) as IW. rewrite get_set. destruct (String.eqb "EMGAIN_C" k) eqn:Q2.
    + apply String.eqb_eq in Q2. subst k. split; [intros Z; injection Z as <-; auto|]. intros [(Z & _)|[(_ & Z)|(_ & Z & _)]]; [congruence|apply CG in Z; exact Z|destruct (Z eq_refl (in_fst _ _ _ _ _ IW))].
    + apply String.eqb_neq in Q2. rewrite DG. split; [intros Z; right; right; split; [congruence|]; split; [congruence|exact Z]|intros [(Z & _)|[(Z & _)|(_ & _ & Z)]]; [congruence|congruence|exact Z]].
  - rewrite DG. split; [intros Z; right; right; split; [congruence|]; split; [intros _ I; apply in_map_iff in I; destruct I as ((a & b) & A & B); cbn [fst] in A; subst a; apply CG in B; discriminate|exact Z]|]. intros [(Z & _)|[(_ & Z)|(_ & _ & Z)]]; [congruence|apply CG in Z; discriminate|exact Z].
Qed.

(** ** Matrices *)
Lemma nd_times : forall version now valid t, NoDup (map fst (times version now valid t)).
Proof using. intros. vm_compute. repeat (constructor; [cbn; intros H; repeat (destruct H as [H|H]; [discriminate|]); exact H|]). constructor. Qed.

Theorem fpam_ok : forall times0 (default : arr) version now valid (data : arr),
  (shp data = [] -> new_fpam show times0 default version now valid data = Raise TypeError)
  /\ forall n r m, shp data = n :: r -> m = (if Nat.eqb n 0 then default else data) ->
     (shp m = [2; 2; 2] -> exists y, new_fpam show times0 default version now valid data = Ok y /\ fpam_made times0 show version now valid m y)
     /\ (shp m <> [2; 2; 2] -> new_fpam show times0 default version now valid data = Raise ValueError).
Proof using.
  intros times0 default version now valid data. unfold new_fpam. split; [intros ->; reflexivity|]. intros n r m S M. rewrite S. rewrite <- M. split.
  - intros L. rewrite (proj2 (list_eqb_iff (shp m) [2; 2; 2]) L). cbn [negb]. eexists. split; [reflexivity|].
    unfold fpam_made. cbn [p_cls p_img p_more i_ext i_data i_err i_errh i_dq i_dqh i_list i_dir i_file i_pri shp vals]. split; [reflexivity|]. split; [reflexivity|]. split; [reflexivity|].
    split; [|repeat (split; [reflexivity|]); reflexivity].
    intros k v. rewrite get_set, get_hist, get_set. pose proof (set_all_get (times version now valid 0) blank k v (nd_times version now valid 0)) as G. unfold times in G at 1. rewrite <- (String.eqb_sym k). destruct (String.eqb k "DATALVL") eqn:Q1.
    { apply String.eqb_eq in Q1. subst k. split; [intros Z; injection Z as <-; auto|]. intros [(Z & _)|[(_ & ->)|Z]]; [discriminate|reflexivity|]. vm_compute in Z. repeat (destruct Z as [Z|Z]; [discriminate|]). destruct Z. }
    apply String.eqb_neq in Q1. rewrite <- (String.eqb_sym k). destruct (String.eqb k "DATATYPE") eqn:Q2.
    { apply String.eqb_eq in Q2. subst k. split; [intros Z; injection Z as <-; auto|]. intros [(_ & ->)|[(Z & _)|Z]]; [reflexivity|discriminate|]. vm_compute in Z. repeat (destruct Z as [Z|Z]; [discriminate|]). destruct Z. }
    apply String.eqb_neq in Q2. rewrite G. split; [intros [Z|(_ & Z)]; [auto|discriminate]|]. intros [(Z & _)|[(Z & _)|Z]]; [contradiction|contradiction|auto].
  - intros L. destruct (list_eqb (shp m) [2; 2; 2]) eqn:Q; [apply list_eqb_iff in Q; contradiction|reflexivity].
Qed.

(** ** Reading them back *)
Lemma bare_load : forall track p pri ext (data e d : arr), exists x, load_image zero track p (mkfile pri [mkhdu ext data; mkhdu blank e; mkhdu blank d]) None None None None None = Ok x
  /\ i_pri x = set "ORIGIN" (HS "DRP") pri /\ i_ext x = stamped ext /\ i_data x = data /\ all_zero zero (1 :: shp data) (i_err x) /\ all_zero zero (shp data) (i_dq x) /\ i_list x = [mkhdu blank e; mkhdu blank d] /\ splits p (i_dir x) (i_file x).
Proof using.
  intros track p pri ext data e d. destruct (dir_name p) as [dd n] eqn:DN. apply dir_name_iff in DN.
  exists (mkim (set "ORIGIN" (HS "DRP") pri) (stamped ext) data (zeros E zero (1 :: shp data)) (set "TRK_ERRS" (HB track) (set "EXTNAME" (HS "ERR") blank)) (zeros E zero (shp data)) (set "EXTNAME" (HS "DQ") blank) [mkhdu blank e; mkhdu blank d] [EmptyString; EmptyString] dd n).
  cbn [i_pri i_ext i_data i_err i_dq i_list i_dir i_file]. split; [|split; [reflexivity|]; split; [reflexivity|]; split; [reflexivity|]; split; [apply zeros_iff; reflexivity|]; split; [apply zeros_iff; reflexivity|]; split; [reflexivity|exact DN]].
  apply load_iff. exists (mkhdu ext data), [mkhdu blank e; mkhdu blank d], (zeros E zero (1 :: shp data)), None, [mkhdu blank e; mkhdu blank d], (zeros E zero (shp data)), None, [mkhdu blank e; mkhdu blank d], dd, n.
  cbn [f_hdus f_pri h_data h_hdr map]. split; [reflexivity|]. split; [|split; [|split; [exact DN|]]].
  - left. split; [right; intros [I|[I|[]]]; discriminate|]. split; [apply zeros_iff; reflexivity|auto].
  - left. split; [right; intros [I|[I|[]]]; discriminate|]. split; [apply zeros_iff; reflexivity|auto].
  - exists (set "EXTNAME" (HS "ERR") blank). cbn [chosen_hdr i_err i_pri i_ext i_data i_errh i_dq i_dqh i_list i_names i_dir i_file]. split; [left; split; [right; cbn; lia|split; reflexivity]|]. repeat (split; [reflexivity|]). reflexivity.
Qed.
Lemma bare_round : forall track dir name (y y' : prod) p f, p_cls y = CParams \/ p_cls y = CFpam -> get "DATATYPE" (i_ext (p_img y)) = Some (HS (named (p_cls y))) ->
  i_pri (p_img y) = mkh [("OBSNUM", HZ 0)] [] [] -> i_errh (p_img y) = mkh [] [] [] -> i_dqh (p_img y) = mkh [] [] [] -> i_list (p_img y) = [] ->
  (p_cls y = CParams -> (exists l, p_more y = MPars l /\ Forall2 (par_value (i_ext (p_img y))) parameters l) /\ forall w, get "CMDGAIN" (i_ext (p_img y)) = Some w -> get "EMGAIN_C" (i_ext (p_img y)) = Some w) -> (p_cls y = CFpam -> p_more y = MNone) ->
  save_prod dir name y = (y', Ok (p, f)) -> exists z, load_as zero is_nan track (p_cls y) p f = Ok z /\ autoload zero is_nan track p f = Ok z /\ came_bare zero y z /\ sound is_nan track z /\ splits p (i_dir (p_img z)) (i_file (p_img z)).
Proof using.
  intros track dir name y y' p f C TY PR EH DH LS MP MF H. apply saved_prod in H. destruct H as (_ & _ & _ & _ & _ & FP & FH).
  assert (FF : f = mkfile (i_pri (p_img y)) [mkhdu (i_ext (p_img y)) (i_data (p_img y)); mkhdu blank (i_err (p_img y)); mkhdu blank (i_dq (p_img y))]). { destruct f as [fp fh]. cbn [f_pri f_hdus] in *. subst fp. f_equal. rewrite FH, EH, DH, LS. destruct C as [C|C]; rewrite C; reflexivity. }
  destruct (bare_load track p (i_pri (p_img y)) (i_ext (p_img y)) (i_data (p_img y)) (i_err (p_img y)) (i_dq (p_img y))) as (x & L & X1 & X2 & X3 & X4 & X5 & X6 & X7). rewrite <- FF in L. clear FP FH.
  assert (XG : forall k, get k (i_ext x) = match get k (i_ext (p_img y)) with Some v => Some v | None => if existsb (String.eqb k) ["DESMEAR"; "CTI_CORR"; "IS_BAD"] then Some (HB false) else None end) by (intros k; rewrite X2, stamped_get; reflexivity).
  assert (LB : labelled (p_cls y) x) by (right; rewrite XG, TY; reflexivity).
  assert (KK : forall k, In k keys -> get k (i_ext x) = get k (i_ext (p_img y))). { intros k I. rewrite XG. destruct (get k (i_ext (p_img y))); [reflexivity|]. cbn in I. repeat (destruct I as [I|I]; [subst k; reflexivity|]). destruct I. }
  assert (PV : forall l, Forall2 (par_value (i_ext (p_img y))) parameters l -> Forall2 (par_value (i_ext x)) parameters l).
  { assert (Q : forall t l, incl t parameters -> Forall2 (par_value (i_ext (p_img y))) t l -> Forall2 (par_value (i_ext x)) t l).
    { induction t as [|e t IH]; intros l I F; inversion F as [|? q ? r P T]; subst; [constructor|]. constructor; [|apply IH; [intros z Z; apply I; right; exact Z|exact T]]. apply (par_value_same (i_ext (p_img y))); [|exact P]. intros k K. apply KK. apply in_or_app. right. apply in_flat_map. exists e. split; [apply I; left; reflexivity|]. destruct K as [->|K]; [left; reflexivity|]. destruct (snd e); [|discriminate]. injection K as ->. right. left. reflexivity. }
    intros l. apply Q. apply incl_refl. }
  assert (FX : fits is_nan (p_cls y) x /\ exists m, extra (p_cls y) f x m /\ m = p_more y).
  { destruct C as [C|C]; rewrite C.
    - destruct (MP C) as ((l & M & F) & _). split; [cbn [fits]; apply par_all; exists l; apply PV; exact F|]. exists (MPars l). split; [exists l; split; [apply PV; exact F|reflexivity]|auto].
    - split; [exact Logic.I|]. exists MNone. split; [reflexivity|]. rewrite (MF C). reflexivity. }
  destruct FX as (FX & m & EM & ->).
  assert (XE : forall k, get k (ext_of (p_cls y) (i_ext x)) = get k (i_ext x)).
  { intros k. rewrite ext_of_get. destruct C as [C|C]; rewrite C; cbn [andb fallback]; [|destruct (get k (i_ext x)); reflexivity]. destruct (String.eqb k "EMGAIN_C") eqn:Q; [|destruct (get k (i_ext x)); reflexivity]. apply String.eqb_eq in Q. subst k. rewrite !XG. cbn [existsb String.eqb Ascii.eqb Bool.eqb orb]. destruct (get "CMDGAIN" (i_ext (p_img y))) as [w|] eqn:GC; [rewrite (proj2 (MP C) w eq_refl); reflexivity|]. destruct (get "EMGAIN_C" (i_ext (p_img y))); reflexivity. }
  assert (LZ : load_as zero is_nan track (p_cls y) p f = Ok (mk (p_cls y) x (p_more y))). { apply load_as_iff. exists x. split; [exact L|]. split; [exact FX|]. split; [exact LB|]. apply loaded_iff. exists (p_more y). split; [exact EM|reflexivity]. }
  exists (mk (p_cls y) x (p_more y)). split; [exact LZ|]. split.
  - rewrite <- LZ. destruct (autoload_raises zero is_nan track p f) as (_ & _ & _ & A). apply (A (mkhdu (i_ext (p_img y)) (i_data (p_img y))) [mkhdu blank (i_err (p_img y)); mkhdu blank (i_dq (p_img y))]); [rewrite FF; reflexivity|]. left. cbn [h_hdr]. rewrite TY. destruct C as [C|C]; rewrite C; reflexivity.
  - split; [|split; [destruct (loaded_sound zero is_nan _ _ _ _ _ LZ) as (_ & S); exact S|exact X7]]. unfold came_bare. cbn [mk p_cls p_img p_more i_data i_pri i_ext i_err i_dq i_list]. split; [reflexivity|]. split; [reflexivity|]. split; [exact X3|]. split; [rewrite X1, PR; destruct C as [C|C]; rewrite C; reflexivity|]. split; [intros k; rewrite XE; apply XG|].
    assert (HC : hist (ext_of (p_cls y) (i_ext x)) = hist (i_ext (p_img y)) /\ comm (ext_of (p_cls y) (i_ext x)) = comm (i_ext (p_img y))).
    { assert (SS : hist (i_ext x) = hist (i_ext (p_img y)) /\ comm (i_ext x) = comm (i_ext (p_img y))) by (rewrite X2; unfold stamped; rewrite !set_new_hist, !set_new_comm; auto). destruct C as [C|C]; rewrite C; cbn [ext_of]; [destruct (get "CMDGAIN" (i_ext x)); exact SS|exact SS]. }
    destruct HC as (HC1 & HC2). split; [exact HC1|]. split; [exact HC2|]. split; [exact X4|]. split; [exact X5|]. rewrite X6. split; reflexivity.
Qed.
Theorem params_round : forall track version now valid d dir name (y y' : prod) p f, NoDup (map fst d) -> new_params zero show version now valid d = Ok y -> save_prod dir name y = (y', Ok (p, f)) ->
  exists z, load_as zero is_nan track CParams p f = Ok z /\ autoload zero is_nan track p f = Ok z /\ came_bare zero y z /\ sound is_nan track z /\ splits p (i_dir (p_img z)) (i_file (p_img z)).
Proof using.
  intros track version now valid d dir name y y' p f N H S. destruct (params_ok version now valid d N) as (y0 & H0 & M). rewrite H in H0. injection H0 as <-.
  assert (MP : (exists l, p_more y = MPars l /\ Forall2 (par_value (i_ext (p_img y))) parameters l) /\ forall w, get "CMDGAIN" (i_ext (p_img y)) = Some w -> get "EMGAIN_C" (i_ext (p_img y)) = Some w).
  { destruct M as (_ & (l & ML & F) & G & _). split.
    - exists l. split; [exact ML|]. assert (Q : forall t q, incl t parameters -> Forall2 (fun e p0 => fst p0 = fst (fst e) /\ (In p0 d \/ ~ In (fst p0) (map fst d) /\ p0 = fst e)) t q -> Forall2 (par_value (i_ext (p_img y))) t q).
      { induction t as [|e t IH]; intros q I0 F0; inversion F0 as [|? p0 ? r (P1 & P2) T]; subst; [constructor|]. constructor; [|apply IH; [intros z Z; apply I0; right; exact Z|exact T]]. split; [exact P1|]. left. rewrite <- P1. apply G. right. right. assert (IK : In (fst p0) (map (fun e => fst (fst e)) parameters)) by (rewrite P1; apply (in_map (fun e => fst (fst e))); apply I0; left; reflexivity). split; [intros Z; rewrite Z in IK; vm_compute in IK; repeat (destruct IK as [IK|IK]; [discriminate|]); exact IK|]. split; [intros Z; rewrite Z in IK; vm_compute in IK; repeat (destruct IK as [IK|IK]; [discriminate|]); destruct IK|].
        destruct P2 as [P2|(P2 & P3)]; [left; rewrite <- surjective_pairing; exact P2|right]. split; [exact P2|]. rewrite <- surjective_pairing. rewrite P3. unfold usual. apply in_or_app. right. apply in_or_app. right. apply in_map. apply I0. left. reflexivity. }
      apply Q; [apply incl_refl|exact F].
    - intros w W. apply G in W. apply G. right. left. split; [reflexivity|]. destruct W as [(Z & _)|[(Z & _)|(_ & _ & [W|(_ & W)])]]; [discriminate|discriminate|exact W|]. exfalso. apply in_fst in W. vm_compute in W. repeat (destruct W as [W|W]; [discriminate|]). exact W. }
  destruct M as (C & _ & G & _ & _ & PR & _ & _ & _ & LS & _ & EH & DH & _). destruct (bare_round track dir name y y' p f) as (z & LZ & R); auto; [rewrite C; apply G; left; split; reflexivity|rewrite C; discriminate|]. rewrite C in LZ. exists z. split; [exact LZ|exact R].
Qed.
Theorem fpam_round : forall track times0 (default data : arr) version now valid dir name (y y' : prod) p f, new_fpam show times0 default version now valid data = Ok y -> save_prod dir name y = (y', Ok (p, f)) ->
  exists z, load_as zero is_nan track CFpam p f = Ok z /\ autoload zero is_nan track p f = Ok z /\ came_bare zero y z /\ sound is_nan track z /\ splits p (i_dir (p_img z)) (i_file (p_img z)).
Proof using.
  intros track times0 default data version now valid dir name y y' p f H S. destruct (fpam_ok times0 default version now valid data) as (A & B). destruct (shp data) as [|n r] eqn:SD; [rewrite A in H by reflexivity; discriminate|]. destruct (B n r _ eq_refl eq_refl) as (B1 & B2). set (m := if Nat.eqb n 0 then default else data) in *. destruct (list_eq_dec Nat.eq_dec (shp m) [2; 2; 2]) as [L|L]; [|rewrite (B2 L) in H; discriminate]. destruct (B1 L) as (y0 & H0 & M). rewrite H in H0. injection H0 as <-. destruct M as (C & MN & _ & G & _ & _ & PR & _ & _ & _ & LS & _ & EH & DH & _). destruct (bare_round track dir name y y' p f) as (z & LZ & R); auto; [rewrite C; apply G; left; split; reflexivity|rewrite C; discriminate|]. rewrite C in LZ. exists z. split; [exact LZ|exact R].
Qed.
End Pars.
