(** Making calibration products meets its specification. *)
From Coq Require Import List Arith Bool String Ascii ZArith QArith Lia.
From Verif Require Import Base DiskModel DiskSpec DiskProofs DiskLawProofs ProdModel ProdSpec ProdTextProofs ProdProofs ProdLawProofs.
Import ListNotations.
Local Open Scope nat_scope.
Local Open Scope string_scope.
Local Open Scope list_scope.

(** ** Parents *)
Lemma file_name_inj : forall i j, ("FILE" ++ decimal i)%string = ("FILE" ++ decimal j)%string -> i = j.
Proof. intros i j H. apply app_inv_l in H. exact (decimal_inj _ _ H). Qed.
Lemma file_cards_iff : forall ext n j l, file_cards ext j n = Ok l <-> List.length l = n /\ forall i s, nth_error l i = Some s -> get ("FILE" ++ decimal (j + i))%string ext = Some (HS s).
Proof.
  intros ext. induction n as [|n IH]; intros j l; cbn [file_cards].
  - split; [intros H; injection H as <-; split; [reflexivity|intros [|i] s H; discriminate]|intros (H & _); destruct l; [reflexivity|discriminate]].
  - destruct l as [|s l].
    + split; [|intros (H & _); discriminate]. destruct (get _ ext) as [[| | |s|]|]; try discriminate. intros H. apply bind_iff in H. destruct H as (r & _ & H). discriminate.
    + assert (SP : (forall i w, nth_error (s :: l) i = Some w -> get ("FILE" ++ decimal (j + i))%string ext = Some (HS w)) <-> get ("FILE" ++ decimal j)%string ext = Some (HS s) /\ forall i w, nth_error l i = Some w -> get ("FILE" ++ decimal (j + 1 + i))%string ext = Some (HS w)).
      { split; [intros H; split; [specialize (H 0 s eq_refl); rewrite Nat.add_0_r in H; exact H|intros i w W; specialize (H (S i) w W); rewrite <- Nat.add_assoc; exact H]|]. intros (A & B) [|i] w W; [injection W as <-; rewrite Nat.add_0_r; exact A|]. cbn in W. specialize (B i w W). rewrite <- Nat.add_assoc in B. exact B. }
      rewrite SP. cbn [List.length]. split.
      * destruct (get _ ext) as [[| | |t|]|]; try discriminate. intros H. apply bind_iff in H. destruct H as (r & R & H). injection H as -> ->. apply IH in R. destruct R as (L & R). split; [f_equal; exact L|]. split; [reflexivity|exact R].
      * intros (L & G & R). rewrite G. apply bind_iff. exists l. split; [|reflexivity]. apply IH. split; [lia|exact R].
Qed.
Lemma file_cards_can : forall ext n j, (forall i, i < n -> exists s, get ("FILE" ++ decimal (j + i))%string ext = Some (HS s)) -> exists l, file_cards ext j n = Ok l.
Proof.
  intros ext. induction n as [|n IH]; intros j H; [exists []; reflexivity|]. cbn [file_cards]. destruct (H 0 ltac:(lia)) as (s & G). rewrite Nat.add_0_r in G. rewrite G. destruct (IH (j + 1)) as (l & L). { intros i I. destruct (H (S i) ltac:(lia)) as (w & W). exists w. rewrite <- Nat.add_assoc. exact W. } exists (s :: l). rewrite L. reflexivity.
Qed.
Lemma parent_names_ok : forall l n, parent_names l = Ok n -> Forall listed l /\ forall s, In s n <-> exists p, In p l /\ named_by p s.
Proof.
  induction l as [|p l IH]; intros n H; cbn [parent_names] in H; [injection H as <-; split; [constructor|]; intros s; split; [intros []|intros (? & [] & _)]|]. apply bind_iff in H. destruct H as (own & O & H). apply bind_iff in H. destruct H as (r & R & H). injection H as <-. destruct (IH _ R) as (FL & IN).
  assert (OW : listed p /\ forall s, In s own <-> exists m j, get "DRPNFILE" (pa_ext p) = Some (HZ m) /\ (Z.of_nat j < m)%Z /\ get ("FILE" ++ decimal j)%string (pa_ext p) = Some (HS s)).
  { unfold listed. destruct (get "DRPNFILE" (pa_ext p)) as [[|m| | |]|]; try discriminate.
    - apply file_cards_iff in O. destruct O as (L & C). split.
      + right. exists m. split; [reflexivity|]. intros j J. destruct (nth_error own j) as [s|] eqn:N; [exists s; exact (C _ _ N)|]. apply nth_error_None in N. lia.
      + intros s. split.
        * intros I. apply In_nth_error in I. destruct I as (j & J). exists m, j. split; [reflexivity|]. split; [|exact (C _ _ J)]. assert (j < List.length own) by (apply nth_error_Some; congruence). lia.
        * intros (m' & j & M & J & G). injection M as <-. destruct (nth_error own j) as [w|] eqn:N; [|apply nth_error_None in N; lia]. pose proof (C _ _ N) as Q. cbn [Nat.add] in Q. rewrite G in Q. injection Q as ->. exact (nth_error_In _ _ N).
    - injection O as <-. split; [left; reflexivity|]. intros s. split; [intros []|intros (? & ? & H & _); discriminate]. }
  destruct OW as (LP & OW). split; [constructor; assumption|]. intros s. split.
  - intros [<-|I]; [exists p; split; [left; reflexivity|left; reflexivity]|]. apply in_app_iff in I. destruct I as [I|I]; [apply OW in I; exists p; split; [left; reflexivity|right; exact I]|]. apply IN in I. destruct I as (q & Q & N). exists q. split; [right; exact Q|exact N].
  - intros (q & [<-|Q] & N); [|right; apply in_or_app; right; apply IN; exists q; auto]. destruct N as [->|N]; [left; reflexivity|]. right. apply in_or_app. left. apply OW. exact N.
Qed.
Lemma parent_names_can : forall l, Forall listed l -> exists n, parent_names l = Ok n.
Proof.
  induction 1 as [|p l P F IH]; [exists []; reflexivity|]. destruct IH as (n & N). cbn [parent_names]. destruct P as [P|(m & P & C)]; rewrite P.
  - cbn [bind]. rewrite N. eexists. reflexivity.
  - destruct (file_cards_can (pa_ext p) (Z.to_nat m) 0) as (own & O). { intros i I. apply C. lia. } rewrite O. cbn [bind]. rewrite N. eexists. reflexivity.
Qed.
Fixpoint nums (i : nat) (u : list string) (k : string) (o : option hv) : option hv :=
  match u with [] => o | s :: t => if String.eqb ("FILE" ++ decimal i)%string k then Some (HS s) else nums (i + 1) t k o end.
Definition recg (u : list string) (k : string) (o : option hv) : option hv := if String.eqb "DRPNFILE" k then Some (HZ (Z.of_nat (List.length u))) else nums 0 u k o.
Lemma nums_not : forall u i k o, (forall j, i <= j < i + List.length u -> k <> ("FILE" ++ decimal j)%string) -> nums i u k o = o.
Proof.
  induction u as [|s u IH]; intros i k o H; [reflexivity|]. cbn [nums]. destruct (String.eqb _ k) eqn:Q; [apply String.eqb_eq in Q; exfalso; apply (H i); [cbn; lia|symmetry; exact Q]|]. apply IH. intros j J. apply H. cbn. lia.
Qed.
Lemma nums_at : forall u i j o s, nth_error u j = Some s -> nums i u ("FILE" ++ decimal (i + j))%string o = Some (HS s).
Proof.
  induction u as [|w u IH]; intros i [|j] o s H; try discriminate; cbn [nums nth_error] in *.
  - injection H as ->. rewrite Nat.add_0_r, String.eqb_refl. reflexivity.
  - destruct (String.eqb _ _) eqn:Q; [apply String.eqb_eq in Q; apply file_name_inj in Q; lia|]. replace (i + S j) with (i + 1 + j) by lia. apply IH. exact H.
Qed.
Lemma number_get : forall u i ext k, get k (number_files i u ext) = nums i u k (get k ext).
Proof.
  induction u as [|s u IH]; intros i ext k; [reflexivity|]. cbn [number_files nums]. rewrite IH, get_set. destruct (String.eqb ("FILE" ++ decimal i) k) eqn:Q; [|reflexivity]. apply String.eqb_eq in Q. subst k. rewrite nums_not; [reflexivity|]. intros j J H. apply file_name_inj in H. lia.
Qed.
Lemma number_rest : forall u i ext, hist (number_files i u ext) = hist ext /\ comm (number_files i u ext) = comm ext.
Proof. induction u as [|s u IH]; intros i ext; [split; reflexivity|]. cbn [number_files]. destruct (IH (i + 1) (set ("FILE" ++ decimal i) (HS s) ext)) as (A & B). rewrite A, B. split; reflexivity. Qed.
Lemma recg_not : forall u k o, ~ is_file k -> recg u k o = o.
Proof.
  intros u k o N. unfold recg. destruct (String.eqb "DRPNFILE" k) eqn:Q; [apply String.eqb_eq in Q; exfalso; apply N; left; symmetry; exact Q|]. apply nums_not. intros j _ H. apply N. right. exists j. exact H.
Qed.
Lemma recg_file : forall u i o, recg u ("FILE" ++ decimal i)%string o = match nth_error u i with Some s => Some (HS s) | None => o end.
Proof.
  intros u i o. unfold recg. replace (String.eqb "DRPNFILE" ("FILE" ++ decimal i)) with false by reflexivity. destruct (nth_error u i) as [s|] eqn:N; [exact (nums_at u 0 i o s N)|]. apply nums_not. intros j J H. apply file_name_inj in H. subst j. apply nth_error_None in N. lia.
Qed.

Section Made.
Context {E : Type}.
Variable zero : E.
Variable is_nan : E -> bool.
Variable show : hv -> string.
Variable order : list string -> list string.
Hypothesis ORDER : forall l, NoDup (order l) /\ forall s, In s (order l) <-> In s l.
Notation arr := (arr E).
Notation image := (image E).
Notation prod := (prod E).
Notation args := (args E).

Definition all_names (l : list parent) (u : list string) : Prop := NoDup u /\ forall s, In s u <-> exists p, In p l /\ named_by p s.
Definition recs (u : list string) (e e' : hdr) : Prop := hist e' = hist e /\ comm e' = comm e /\ forall k, get k e' = recg u k (get k e).
Lemma record_ok : forall l e e', record_parents order l e = Ok e' -> Forall listed l /\ exists u, all_names l u /\ recs u e e'.
Proof using ORDER.
  intros l e e' H. unfold record_parents in H. apply bind_iff in H. destruct H as (n & N & H). injection H as <-. destruct (parent_names_ok _ _ N) as (F & I). split; [exact F|]. exists (order n). destruct (ORDER n) as (O1 & O2). split; [split; [exact O1|]; intros s; rewrite O2; apply I|]. destruct (number_rest (order n) 0 e) as (A & B). split; [exact A|]. split; [exact B|]. intros k. rewrite get_set. unfold recg. destruct (String.eqb "DRPNFILE" k); [reflexivity|apply number_get].
Qed.
Lemma record_can : forall l e, Forall listed l -> exists e', record_parents order l e = Ok e'.
Proof using. intros l e F. destruct (parent_names_can l F) as (n & N). unfold record_parents. rewrite N. eexists. reflexivity. Qed.
Lemma last_name_iff : forall l s, last_name l = Ok s <-> exists l' p, l = l' ++ [p] /\ s = pa_name p.
Proof using.
  intros l s. unfold last_name. destruct (rev l) as [|p r] eqn:R.
  - split; [discriminate|]. intros (l' & p & -> & _). rewrite rev_app_distr in R. discriminate.
  - assert (L : l = rev r ++ [p]) by (rewrite <- (rev_involutive l), R; reflexivity). split; [intros H; injection H as <-; exists (rev r), p; auto|]. intros (l' & q & Q & ->). rewrite L in Q. apply app_inj_tail in Q. destruct Q as (_ & ->). reflexivity.
Qed.
Lemma last_name_can : forall l, l <> [] -> exists s, last_name l = Ok s.
Proof using. intros l N. unfold last_name. destruct (rev l) as [|p r] eqn:R; [|exists (pa_name p); reflexivity]. exfalso. apply N. rewrite <- (rev_involutive l), R. reflexivity. Qed.
Lemma card_iff : forall k h v, card k h = Ok v <-> get k h = Some v.
Proof using. intros k h v. unfold card. destruct (get k h); split; intros H; try discriminate; injection H as <-; reflexivity. Qed.
Lemma get_hist : forall s h k, get k (add_hist s h) = get k h.
Proof using. reflexivity. Qed.

(** the cards of a product from those of the frame and the parents *)
Definition fin (c : cls) (k : string) (o : option hv) : option hv :=
  if String.eqb "DATATYPE" k then Some (HS (named c)) else if String.eqb "DATALVL" k then Some (HS "CAL")
  else if andb (match unit_of c with Some _ => true | None => false end) (String.eqb "BUNIT" k) then match unit_of c with Some u => Some (HS u) | None => None end
  else if andb (match c with CDnm => true | _ => false end) (String.eqb "B_0_UNIT" k) then Some (HS "DN")
  else match o with Some v => Some v | None => fallback c k end.
Definition upd (w : option (list string)) (k : string) (o : option hv) : option hv := match w with Some u => recg u k o | None => o end.
Definition tell (c : cls) (e0 e : hdr) : Prop := c = CCt /\ hist e0 <> [] /\ hist e = hist e0 \/ (c = CCt -> hist e0 = []) /\ exists t, hist e = hist e0 ++ [t] /\ story show c e t.
Lemma fallback_file : forall c i, fallback c ("FILE" ++ decimal i)%string = None.
Proof using. intros [] i; reflexivity. Qed.
Lemma cards_made : forall c (a : args) e0 e w, (forall k, get k e = fin c k (upd w k (get k e0))) ->
  (recorded c a e0 -> exists l u, a_input a = Some l /\ w = Some u /\ all_names l u) -> (~ recorded c a e0 -> w = None) ->
  get "DATATYPE" e = Some (HS (named c)) /\ get "DATALVL" e = Some (HS "CAL") /\ (forall u, unit_of c = Some u -> get "BUNIT" e = Some (HS u)) /\ (c = CDnm -> get "B_0_UNIT" e = Some (HS "DN"))
  /\ (recorded c a e0 -> exists l, a_input a = Some l /\ parents_in l e0 e)
  /\ (forall k, k <> "DATATYPE" -> k <> "DATALVL" -> (k = "BUNIT" -> unit_of c = None) -> (k = "B_0_UNIT" -> c <> CDnm) -> (recorded c a e0 -> ~ is_file k) -> get k e = match get k e0 with Some v => Some v | None => fallback c k end).
Proof using.
  intros c a e0 e w G R NR. split; [rewrite G; reflexivity|]. split; [rewrite G; reflexivity|]. split; [intros u U; rewrite G; unfold fin; cbn [String.eqb Ascii.eqb Bool.eqb]; rewrite U; reflexivity|]. split; [intros ->; rewrite G; reflexivity|]. split.
  - intros RC. destruct (R RC) as (l & u & I & -> & N1 & N2). exists l. split; [exact I|]. exists u. split; [exact N1|]. split; [exact N2|]. cbn [upd] in G.
    assert (GF : forall i, get ("FILE" ++ decimal i)%string e = match nth_error u i with Some s => Some (HS s) | None => get ("FILE" ++ decimal i)%string e0 end).
    { intros i. rewrite G, recg_file. unfold fin. replace (String.eqb "DATATYPE" ("FILE" ++ decimal i)) with false by reflexivity. replace (String.eqb "DATALVL" ("FILE" ++ decimal i)) with false by reflexivity. replace (String.eqb "BUNIT" ("FILE" ++ decimal i)) with false by reflexivity. replace (String.eqb "B_0_UNIT" ("FILE" ++ decimal i)) with false by reflexivity. rewrite !andb_false_r, fallback_file. destruct (nth_error u i); [reflexivity|]. destruct (get _ e0); reflexivity. }
    split; [rewrite G; destruct c; reflexivity|]. split; [|intros i I2; rewrite GF, (proj2 (nth_error_None u i) I2); reflexivity]. intros i I2. rewrite GF. destruct (nth_error u i) as [s|] eqn:Q; [exists s; auto|]. apply nth_error_None in Q. lia.
  - intros k K1 K2 K3 K4 K5. assert (U : upd w k (get k e0) = get k e0). { destruct w as [u|]; [|reflexivity]. cbn [upd]. apply recg_not. intros F. destruct (a_input a) as [l|] eqn:A.
      - assert (D : recorded c a e0 \/ ~ recorded c a e0). { unfold recorded. rewrite A. destruct (get "DRPNFILE" e0); destruct c; try (left; split; [discriminate|]; intros [Z|Z]; discriminate); try (left; split; [discriminate|]; reflexivity); right; intros (_ & Z); (discriminate (Z (or_introl eq_refl)) || discriminate (Z (or_intror eq_refl))). }
        destruct D as [D|D]; [exact (K5 D F)|]. discriminate (NR D).
      - assert (D : ~ recorded c a e0) by (intros (Z & _); exact (Z A)). discriminate (NR D). }
    rewrite G, U. unfold fin. destruct (String.eqb "DATATYPE" k) eqn:Q1; [apply String.eqb_eq in Q1; congruence|]. destruct (String.eqb "DATALVL" k) eqn:Q2; [apply String.eqb_eq in Q2; congruence|]. destruct (String.eqb "BUNIT" k) eqn:Q3.
    + apply String.eqb_eq in Q3. rewrite (K3 (eq_sym Q3)). cbn [andb]. subst k. rewrite andb_false_r. reflexivity.
    + rewrite andb_false_r. destruct (String.eqb "B_0_UNIT" k) eqn:Q4; [|rewrite andb_false_r; reflexivity]. apply String.eqb_eq in Q4. assert (N : c <> CDnm) by (apply K4; congruence). destruct c; try reflexivity. contradiction.
Qed.

Lemma new_place : forall track v now data pri ext err dq gh gd input (x : image), new_image zero track v now data pri ext err dq gh gd input = Ok x -> i_dir x = "." /\ i_file x = EmptyString.
Proof using. intros track v now data pri ext err dq gh gd input x H. apply new_iff in H. destruct H as (p & e & er & d & _ & _ & _ & _ & (h' & _ & _ & _ & _ & _ & _ & _ & _ & _ & A & B)). auto. Qed.
Lemma made_pack : forall c (a : args) (x : image) (y : prod) w, p_cls y = c ->
  i_pri (p_img y) = i_pri x /\ i_data (p_img y) = i_data x /\ i_err (p_img y) = i_err x /\ i_dq (p_img y) = i_dq x /\ i_list (p_img y) = i_list x /\ i_names (p_img y) = i_names x /\ i_dir (p_img y) = "." ->
  remarked (dq_remarks c) (i_dqh x) (i_dqh (p_img y)) -> remarked (err_remarks c) (match c, a_errh a with CDark, Some _ | CDnm, Some _ => set "BUNIT" (HS "Detected Electrons") (i_errh x) | _, _ => i_errh x end) (i_errh (p_img y)) ->
  (forall l p, a_input a = Some (l ++ [p]) -> name_of c (pa_name p) (i_file (p_img y))) ->
  (a_input a = None -> match c with CDark => i_file (p_img y) = "DRK_CAL.fits" | CDnm => exists s, get "FILE0" (i_ext x) = Some (HS s) /\ name_of CDnm s (i_file (p_img y)) | _ => i_file (p_img y) = EmptyString end) ->
  (forall k, get k (i_ext (p_img y)) = fin c k (upd w k (get k (i_ext x)))) ->
  (recorded c a (i_ext x) -> exists l u, a_input a = Some l /\ w = Some u /\ all_names l u) -> (~ recorded c a (i_ext x) -> w = None) ->
  comm (i_ext (p_img y)) = comm (i_ext x) -> tell c (i_ext x) (i_ext (p_img y)) ->
  match c with
  | CKGain => exists h d, p_more y = MPtc h d /\ h = set "EXTNAME" (HS "PTC") (match a_ptch a with Some g => g | None => blank end) /\ (match a_ptc a with Some p => d = p | None => shp d = [2; 0] /\ vals d = [] end)
  | CFlux => exists s v, band_card (i_ext x) (HS s) /\ get "CFAMNAME" (i_ext x) = Some v /\ p_more y = MFlux (if String.prefix "ND" s then s else "ND0") v
  | _ => p_more y = MNone
  end -> made show c a x y.
Proof using.
  intros c a x y w C (A1 & A2 & A3 & A4 & A5 & A6 & A7) RD RE N1 N2 G R1 R2 CM TL M. destruct (cards_made c a (i_ext x) (i_ext (p_img y)) w G R1 R2) as (B1 & B2 & B3 & B4 & B5 & B6). unfold made. repeat (split; [assumption|]). exact M.
Qed.
Lemma name_help : forall c (a : args) l0 s f, a_input a = Some l0 -> last_name l0 = Ok s -> name_of c s f -> forall l p, a_input a = Some (l ++ [p]) -> name_of c (pa_name p) f.
Proof using. intros c a l0 s f I L N l p H. rewrite I in H. injection H as ->. apply last_name_iff in L. destruct L as (l' & q & Q & ->). apply app_inj_tail in Q. destruct Q as (_ & ->). exact N. Qed.
Lemma rec_some : forall c (a : args) l e0, a_input a = Some l -> c <> CDark -> c <> CDnm -> recorded c a e0.
Proof using. intros c a l e0 I N1 N2. split; [congruence|]. intros [Z|Z]; contradiction. Qed.
Lemma rec_none : forall c (a : args) e0, a_input a = None -> ~ recorded c a e0.
Proof using. intros c a e0 I (Z & _). exact (Z I). Qed.
Lemma before_name : forall s, upto ".fits" s (before ".fits" s).
Proof using. intros s. apply before_iff; [discriminate|reflexivity]. Qed.
Lemma sub_name : forall rep s, swapped tag rep s (sub_tag rep s).
Proof using. intros rep s. apply sub_tag_iff. reflexivity. Qed.

Ltac side := let Z := fresh in let i := fresh in intros [Z|(i & Z)]; discriminate.
Ltac lit k s := let Q := fresh in destruct (String.eqb s k) eqn:Q; [apply String.eqb_eq in Q; subst k; cbn [String.eqb Ascii.eqb Bool.eqb orb andb]; rewrite ?recg_not by side; try reflexivity; repeat match goal with |- context [get ?j ?h] => destruct (get j h) end; reflexivity|].
Ltac fin_all := cbn [orb andb]; try reflexivity; repeat match goal with |- context [match ?o with Some _ => _ | None => _ end] => destruct o end; reflexivity.
Ltac steps H := repeat (first [apply unit_iff in H; let F := fresh "F" in destruct H as (F & H) | apply bind_iff in H; let z := fresh "z" in let F := fresh "F" in destruct H as (z & F & H)]).
Ltac base D := cbn [p_img with_file with_ext with_dir with_dqh with_errh i_pri i_data i_err i_dq i_list i_names i_dir]; (repeat (split; [reflexivity|])); first [reflexivity|exact D].
Ltac teller RH := right; split; [discriminate|]; eexists; split; [cbn [p_img with_file with_ext with_dir with_dqh with_errh i_ext set add_hist hist]; rewrite RH; reflexivity|cbn [p_img with_file with_ext with_dir with_dqh with_errh i_ext story]].
Ltac noremark := apply rem_iff; cbn [dq_remarks err_remarks]; rewrite ?rem_nil; reflexivity.

Section Class.
Variables (track : bool) (v now : string) (data : arr) (pri ext : option hdr) (a : args) (x : image).
Definition img (c : cls) : result image := new_image zero track v now data pri ext (err_arg c a) (dq_arg c a) (errh_arg c a) (dqh_arg c a) (hdus_arg c a).
Definition good (c : cls) (r : result prod) : Prop :=
  img c = Ok x -> (forall y, r = Ok y -> fits is_nan c x /\ sourced c a (i_ext x) /\ made show c a x y) /\ (fits is_nan c x -> sourced c a (i_ext x) -> exists y, r = Ok y).

Lemma fnd : forall k l, k <> CDark -> k <> CDnm -> a_input a = Some l -> recorded k a (i_ext x).
Proof using. intros k l N1 N2 I. exact (rec_some _ _ _ _ I N1 N2). Qed.
Lemma flat_good : good CFlat (new_flat zero show order track v now data pri ext a).
Proof using ORDER.
  intros X. destruct (new_place _ _ _ _ _ _ _ _ _ _ _ _ X) as (D & _). unfold new_flat. unfold img in X. cbn in X. rewrite X. cbn [bind]. destruct (a_input a) as [l|] eqn:I; [|split; [discriminate|intros _ (_ & _ & Z & _); destruct (Z I)]]. split.
  - intros y H. steps H. injection H as <-. destruct (record_ok _ _ _ F) as (FL & u & U & (RH & RM & RG)). apply card_iff in F0, F1. pose proof F2 as LN. apply last_name_iff in LN. destruct LN as (l' & q & -> & ->).
    assert (G : forall k, get k (set "DATALVL" (HS "CAL") (add_hist ("Flat with exptime = " ++ show z0 ++ " s created from " ++ show z1 ++ " frames") z)) = fin CFlat k (upd (Some u) k (get k (i_ext x)))) by (intros k; rewrite get_set, get_hist, RG, !get_set; unfold fin, upd; cbn [unit_of fallback named andb]; lit k "DATATYPE"; lit k "DATALVL"; lit k "BUNIT"; fin_all).
    assert (EX : get "EXPTIME" (i_ext x) = Some z0) by (rewrite <- F0, RG, recg_not by side; rewrite !get_set; reflexivity).
    split; [exact Logic.I|]. split; [split; [exact Logic.I|]; split; [intros l0 L0; rewrite I in L0; injection L0 as <-; split; [destruct l'; discriminate|intros _; exact FL]|split; [rewrite I; discriminate|rewrite EX; discriminate]]|].
    apply (made_pack CFlat a x _ (Some u)); [reflexivity|base D|noremark|noremark| | |exact G| | | | |reflexivity].
    + apply (name_help CFlat a _ _ _ I F2). apply sub_name.
    + rewrite I. discriminate.
    + intros _. exists (l' ++ [q]), u. auto.
    + intros N. exfalso. apply N. apply (rec_some _ _ _ _ I); discriminate.
    + exact RM.
    + teller RH. exists z0, z1. rewrite !get_set, !get_hist. auto.
  - intros _ (_ & S & _ & T). destruct (S l I) as (NE & FL). destruct (record_can l (set "BUNIT" (HS "None") (set "DATATYPE" (HS "FlatField") (i_ext x))) (FL (fnd CFlat l ltac:(discriminate) ltac:(discriminate) I))) as (e1 & R). destruct (record_ok _ _ _ R) as (_ & u & _ & (_ & _ & RG)). rewrite R. cbn [bind]. destruct (get "EXPTIME" (i_ext x)) as [t|] eqn:EX; [|exfalso; exact (T eq_refl)]. rewrite (proj2 (card_iff "EXPTIME" e1 t)) by (rewrite RG, recg_not by side; rewrite !get_set; exact EX). cbn [bind]. rewrite (proj2 (card_iff "DRPNFILE" e1 _)) by (rewrite RG; reflexivity). cbn [bind]. destruct (last_name_can l NE) as (s & LN). rewrite LN. cbn [bind]. rewrite (proj2 (check_iff CFlat _)); [eexists; reflexivity|]. cbn [with_file with_ext i_ext]. rewrite get_set, get_hist, RG, recg_not by side. rewrite !get_set. reflexivity.
Qed.

Lemma nonlin_good : good CNonLin (new_nonlin zero is_nan order track v now data pri ext a).
Proof using ORDER.
  intros X. destruct (new_place _ _ _ _ _ _ _ _ _ _ _ _ X) as (D & _). unfold new_nonlin. unfold img in X. cbn in X. rewrite X. cbn [bind]. split.
  - intros y H. apply unit_iff in H. destruct H as (FT & H). apply nonlin_iff in FT. destruct (a_input a) as [l|] eqn:I; [|discriminate]. steps H. injection H as <-. destruct (record_ok _ _ _ F) as (FL & u & U & (RH & RM & RG)). pose proof F0 as LN. apply last_name_iff in LN. destruct LN as (l' & q & -> & ->).
    split; [exact FT|]. split; [split; [exact Logic.I|]; split; [intros l0 L0; rewrite I in L0; injection L0 as <-; split; [destruct l'; discriminate|intros _; exact FL]|split; [rewrite I; discriminate|exact Logic.I]]|].
    apply (made_pack CNonLin a x _ (Some u)); [reflexivity|base D|noremark|noremark| | | | | | | |reflexivity].
    + apply (name_help CNonLin a _ _ _ I F0). apply sub_name.
    + rewrite I. discriminate.
    + intros k. cbn [p_img with_file with_ext with_dir with_dqh i_ext]. rewrite get_set, get_hist, RG, !get_set. unfold fin, upd. cbn [unit_of fallback named andb]. lit k "DATATYPE". lit k "DATALVL". fin_all.
    + intros _. exists (l' ++ [q]), u. auto.
    + intros N. exfalso. apply N. apply (rec_some _ _ _ _ I); discriminate.
    + exact RM.
    + teller RH. reflexivity.
  - intros FT (_ & S & NN & _). rewrite (proj2 (nonlin_iff is_nan x) FT). cbn [bind]. destruct (a_input a) as [l|] eqn:I; [|destruct (NN eq_refl)]. destruct (S l eq_refl) as (NE & FL). destruct (record_can l (set "DATATYPE" (HS "NonLinearityCalibration") (i_ext x)) (FL (fnd CNonLin l ltac:(discriminate) ltac:(discriminate) I))) as (e1 & R). destruct (record_ok _ _ _ R) as (_ & u & _ & (_ & _ & RG)). rewrite R. cbn [bind]. destruct (last_name_can l NE) as (s & LN). rewrite LN. cbn [bind]. rewrite (proj2 (check_iff CNonLin _)); [eexists; reflexivity|]. cbn [with_file with_ext with_dir i_ext]. rewrite get_set, get_hist, RG, recg_not by side. rewrite !get_set. reflexivity.
Qed.
Lemma bpm_good : good CBpm (new_bpm zero order track v now data pri ext a).
Proof using ORDER.
  intros X. destruct (new_place _ _ _ _ _ _ _ _ _ _ _ _ X) as (D & _). unfold new_bpm. unfold img in X. cbn in X. rewrite X. cbn [bind]. destruct (a_input a) as [l|] eqn:I; [|split; [intros y H; destruct (has _ _); discriminate|intros _ (_ & _ & Z & _); destruct (Z I)]]. split.
  - intros y H. steps H. injection H as <-. destruct (record_ok _ _ _ F) as (FL & u & U & (RH & RM & RG)). pose proof F0 as LN. apply last_name_iff in LN. destruct LN as (l' & q & -> & ->).
    split; [exact Logic.I|]. split; [split; [exact Logic.I|]; split; [intros l0 L0; rewrite I in L0; injection L0 as <-; split; [destruct l'; discriminate|intros _; exact FL]|split; [rewrite I; discriminate|exact Logic.I]]|].
    apply (made_pack CBpm a x _ (Some u)); [reflexivity|base D|noremark|noremark| | | | | | | |reflexivity].
    + apply (name_help CBpm a _ _ _ I F0). cbn [name_of p_img with_file with_errh with_dqh i_file]. destruct (inside "_FLT_CAL" (pa_name q)) eqn:Q; [left|right].
      * split; [apply inside_iff; [discriminate|exact Q]|]. apply replace_iff; [discriminate|reflexivity].
      * split; [intros O; apply inside_iff in O; [congruence|discriminate]|]. apply sub_name.
    + rewrite I. discriminate.
    + intros k. cbn [p_img with_file with_ext with_dir with_dqh with_errh i_ext]. rewrite get_set, get_hist, RG, !get_set. unfold fin, upd. cbn [unit_of fallback named andb]. lit k "DATATYPE". lit k "DATALVL". fin_all.
    + intros _. exists (l' ++ [q]), u. auto.
    + intros N. exfalso. apply N. apply (rec_some _ _ _ _ I); discriminate.
    + exact RM.
    + teller RH. reflexivity.
  - intros FT (_ & S & NN & _). destruct (S l I) as (NE & FL). destruct (record_can l (set "DATATYPE" (HS "BadPixelMap") (i_ext x)) (FL (fnd CBpm l ltac:(discriminate) ltac:(discriminate) I))) as (e1 & R). destruct (record_ok _ _ _ R) as (_ & u & _ & (_ & _ & RG)). rewrite R. cbn [bind]. destruct (last_name_can l NE) as (s & LN). rewrite LN. cbn [bind]. rewrite (proj2 (check_iff CBpm _)); [eexists; reflexivity|]. cbn [with_file with_ext with_dir i_ext]. rewrite get_set, get_hist, RG, recg_not by side. rewrite !get_set. reflexivity.
Qed.
Lemma astrom_good : good CAstrom (new_astrom zero order track v now data pri ext a).
Proof using ORDER.
  intros X. destruct (new_place _ _ _ _ _ _ _ _ _ _ _ _ X) as (D & _). unfold new_astrom. unfold img in X. cbn in X. rewrite X. cbn [bind]. split.
  - intros y H. apply unit_iff in H. destruct H as (FT & H). apply (astrom_iff is_nan) in FT. destruct (a_input a) as [l|] eqn:I; [|discriminate]. steps H. injection H as <-. destruct (record_ok _ _ _ F) as (FL & u & U & (RH & RM & RG)). pose proof F0 as LN. apply last_name_iff in LN. destruct LN as (l' & q & -> & ->).
    split; [exact FT|]. split; [split; [exact Logic.I|]; split; [intros l0 L0; rewrite I in L0; injection L0 as <-; split; [destruct l'; discriminate|intros _; exact FL]|split; [rewrite I; discriminate|exact Logic.I]]|].
    apply (made_pack CAstrom a x _ (Some u)); [reflexivity|base D|noremark|noremark| | | | | | | |reflexivity].
    + apply (name_help CAstrom a _ _ _ I F0). exists (before ".fits" (pa_name q)). split; [apply before_name|reflexivity].
    + rewrite I. discriminate.
    + intros k. cbn [p_img with_file with_ext with_dir with_dqh i_ext]. rewrite get_set, get_hist, RG, !get_set. unfold fin, upd. cbn [unit_of fallback named andb]. lit k "DATATYPE". lit k "DATALVL". fin_all.
    + intros _. exists (l' ++ [q]), u. auto.
    + intros N. exfalso. apply N. apply (rec_some _ _ _ _ I); discriminate.
    + exact RM.
    + teller RH. reflexivity.
  - intros FT (_ & S & NN & _). rewrite (proj2 (astrom_iff is_nan x) FT). cbn [bind]. destruct (a_input a) as [l|] eqn:I; [|destruct (NN eq_refl)]. destruct (S l eq_refl) as (NE & FL). destruct (record_can l (set "DATATYPE" (HS "AstrometricCalibration") (i_ext x)) (FL (fnd CAstrom l ltac:(discriminate) ltac:(discriminate) I))) as (e1 & R). destruct (record_ok _ _ _ R) as (_ & u & _ & (_ & _ & RG)). rewrite R. cbn [bind]. destruct (last_name_can l NE) as (s & LN). rewrite LN. cbn [bind]. rewrite (proj2 (check_iff CAstrom _)); [eexists; reflexivity|]. cbn [with_file with_ext with_dir i_ext]. rewrite get_set, get_hist, RG, recg_not by side. rewrite !get_set. reflexivity.
Qed.
Lemma trap_good : good CTrap (new_trap zero show order track v now data pri ext a).
Proof using ORDER.
  intros X. destruct (new_place _ _ _ _ _ _ _ _ _ _ _ _ X) as (D & _). unfold new_trap. unfold img in X. cbn in X. rewrite X. cbn [bind]. destruct (a_input a) as [l|] eqn:I; [|split; [discriminate|intros _ (_ & _ & Z & _); destruct (Z I)]]. split.
  - intros y H. steps H. injection H as <-. destruct (record_ok _ _ _ F) as (FL & u & U & (RH & RM & RG)). apply card_iff in F0. pose proof F1 as LN. apply last_name_iff in LN. destruct LN as (l' & q & -> & ->).
    split; [exact Logic.I|]. split; [split; [exact Logic.I|]; split; [intros l0 L0; rewrite I in L0; injection L0 as <-; split; [destruct l'; discriminate|intros _; exact FL]|split; [rewrite I; discriminate|exact Logic.I]]|].
    apply (made_pack CTrap a x _ (Some u)); [reflexivity|base D|noremark|noremark| | | | | | | |reflexivity].
    + apply (name_help CTrap a _ _ _ I F1). exists (before ".fits" (pa_name q)). split; [apply before_name|apply sub_name].
    + rewrite I. discriminate.
    + intros k. cbn [p_img with_file with_ext with_dir with_dqh i_ext]. rewrite get_set, get_hist, RG, !get_set. unfold fin, upd. cbn [unit_of fallback named andb]. lit k "DATATYPE". lit k "DATALVL". fin_all.
    + intros _. exists (l' ++ [q]), u. auto.
    + intros N. exfalso. apply N. apply (rec_some _ _ _ _ I); discriminate.
    + exact RM.
    + teller RH. exists z0. rewrite !get_set, !get_hist. auto.
  - intros FT (_ & S & NN & _). destruct (S l I) as (NE & FL). destruct (record_can l (set "DATATYPE" (HS "TrapCalibration") (i_ext x)) (FL (fnd CTrap l ltac:(discriminate) ltac:(discriminate) I))) as (e1 & R). destruct (record_ok _ _ _ R) as (_ & u & _ & (_ & _ & RG)). rewrite R. cbn [bind]. rewrite (proj2 (card_iff "DRPNFILE" e1 _)) by (rewrite RG; reflexivity). cbn [bind]. destruct (last_name_can l NE) as (s & LN). rewrite LN. cbn [bind]. rewrite (proj2 (check_iff CTrap _)); [eexists; reflexivity|]. cbn [with_file with_ext with_dir i_ext]. rewrite get_set, get_hist, RG, recg_not by side. rewrite !get_set. reflexivity.
Qed.
Lemma ct_good : good CCt (new_ct zero show order track v now data pri ext a).
Proof using ORDER.
  intros X. destruct (new_place _ _ _ _ _ _ _ _ _ _ _ _ X) as (D & _). unfold new_ct. unfold img in X. cbn in X. rewrite X. cbn [bind]. split.
  - intros y H. apply unit_iff in H. destruct H as (FT & H). apply (ct_iff is_nan) in FT. destruct (a_input a) as [l|] eqn:I; [|discriminate]. apply bind_iff in H. destruct H as (z & F & H). apply bind_iff in H. destruct H as (e2 & T & H). steps H. injection H as <-. destruct (record_ok _ _ _ F) as (FL & u & U & (RH & RM & RG)). pose proof F0 as LN. apply last_name_iff in LN. destruct LN as (l' & q & -> & ->). cbn [set hist comm] in RH, RM.
    assert (TT : (forall k, get k e2 = get k z) /\ comm e2 = comm z /\ (hist (i_ext x) <> [] /\ hist e2 = hist (i_ext x) \/ hist (i_ext x) = [] /\ exists t, get "DATETIME" (i_ext x) = Some t /\ hist e2 = [("Core Throughput calibration derived from a set of frames on " ++ show t)%string])).
    { rewrite RH in T. destruct (hist (i_ext x)) as [|s0 h0] eqn:HE.
      - apply bind_iff in T. destruct T as (t & T & T2). injection T2 as <-. apply card_iff in T. split; [reflexivity|]. split; [reflexivity|]. right. split; [reflexivity|]. exists t. split; [rewrite <- T, RG, recg_not by side; rewrite get_set; reflexivity|]. cbn [add_hist hist]. rewrite RH. reflexivity.
      - injection T as <-. split; [reflexivity|]. split; [reflexivity|]. left. split; [discriminate|exact RH]. }
    destruct TT as (TG & TC & TH).
    split; [exact FT|]. split; [split; [exact Logic.I|]; split; [intros l0 L0; rewrite I in L0; injection L0 as <-; split; [destruct l'; discriminate|intros _; exact FL]|split; [rewrite I; discriminate|]]|].
    { destruct TH as [(N & _)|(_ & t & T2 & _)]; [left; exact N|right; rewrite T2; discriminate]. }
    apply (made_pack CCt a x _ (Some u)); [reflexivity|base D|noremark|noremark| | | | | | | |reflexivity].
    + apply (name_help CCt a _ _ _ I F0). apply sub_name.
    + rewrite I. discriminate.
    + intros k. cbn [p_img with_file with_ext with_dir with_dqh i_ext]. rewrite get_set, TG, RG, !get_set. unfold fin, upd. cbn [unit_of fallback named andb]. lit k "DATATYPE". lit k "DATALVL". fin_all.
    + intros _. exists (l' ++ [q]), u. auto.
    + intros N. exfalso. apply N. apply (rec_some _ _ _ _ I); discriminate.
    + cbn [p_img with_file with_ext with_dir i_ext set comm]. rewrite TC. exact RM.
    + destruct TH as [(N & TH)|(N & t & T2 & TH)]; [left; split; [reflexivity|]; split; [exact N|exact TH]|]. right. split; [intros _; exact N|]. eexists. split; [cbn [p_img with_file with_ext with_dir i_ext set hist]; rewrite TH, N; reflexivity|]. exists t. split; [|reflexivity]. cbn [p_img with_file with_ext with_dir i_ext]. rewrite get_set, TG, RG, recg_not by side. rewrite get_set. exact T2.
  - intros FT (_ & S & NN & HT). rewrite (proj2 (ct_iff is_nan x) FT). cbn [bind]. destruct (a_input a) as [l|] eqn:I; [|destruct (NN eq_refl)]. destruct (S l eq_refl) as (NE & FL). destruct (record_can l (set "DATATYPE" (HS "CoreThroughputCalibration") (i_ext x)) (FL (fnd CCt l ltac:(discriminate) ltac:(discriminate) I))) as (e1 & R). destruct (record_ok _ _ _ R) as (_ & u & _ & (RH & _ & RG)). rewrite R. cbn [bind]. destruct (last_name_can l NE) as (s & LN). rewrite RH. cbn [set hist].
    assert (TT : exists e2, (match hist (i_ext x) with [] => do t <- card "DATETIME" e1; Ok (add_hist ("Core Throughput calibration derived from a set of frames on " ++ show t) e1) | _ :: _ => Ok e1 end) = Ok e2 /\ get "DATATYPE" e2 = get "DATATYPE" e1).
    { destruct (hist (i_ext x)) as [|s0 h0]; [|exists e1; auto]. destruct HT as [Z|Z]; [contradiction|]. destruct (get "DATETIME" (i_ext x)) as [t|] eqn:DT; [|contradiction]. rewrite (proj2 (card_iff "DATETIME" e1 t)) by (rewrite RG, recg_not by side; rewrite get_set; exact DT). eexists. split; reflexivity. }
    destruct TT as (e2 & TT & TG). rewrite TT. cbn [bind]. rewrite LN. cbn [bind]. rewrite (proj2 (check_iff CCt _)); [eexists; reflexivity|]. cbn [with_file with_ext with_dir i_ext]. rewrite get_set. cbn [String.eqb Ascii.eqb Bool.eqb]. rewrite TG, RG, recg_not by side. rewrite !get_set. reflexivity.
Qed.

Lemma srcs : forall c l, a_input a = Some l -> l <> [] -> (recorded c a (i_ext x) -> Forall listed l) -> forall l0, a_input a = Some l0 -> l0 <> [] /\ (recorded c a (i_ext x) -> Forall listed l0).
Proof using. intros c l I N F l0 I0. rewrite I in I0. injection I0 as <-. auto. Qed.
Lemma last_ne : forall l s, last_name l = Ok s -> l <> [].
Proof using. intros l s H ->. discriminate. Qed.
Lemma kgain_good : good CKGain (new_kgain zero order track v now data pri ext a).
Proof using ORDER.
  intros X. destruct (new_place _ _ _ _ _ _ _ _ _ _ _ _ X) as (D & D2). unfold new_kgain. unfold img in X. cbn in X. rewrite X. cbn [bind]. match goal with |- context [fit_kgain ?Y] => change (fit_kgain Y) with (fit_kgain x) end. cbn [with_ext i_ext i_file].
  assert (MR : exists h d, MPtc (set "EXTNAME" (HS "PTC") (match a_ptch a with Some h => h | None => blank end)) (match a_ptc a with Some p => p | None => zeros E zero [2; 0] end) = MPtc h d /\ h = set "EXTNAME" (HS "PTC") (match a_ptch a with Some g => g | None => blank end) /\ (match a_ptc a with Some p => d = p | None => shp d = [2; 0] /\ vals d = [] end)).
  { eexists. eexists. split; [reflexivity|]. split; [reflexivity|]. destruct (a_ptc a); [reflexivity|]. split; reflexivity. }
  split.
  - intros y H. apply unit_iff in H. destruct H as (FT & H). apply (kgain_iff is_nan) in FT. split; [exact FT|]. apply bind_iff in H. destruct H as ([e1 f1] & EF & H). apply unit_iff in H. destruct H as (_ & H). injection H as <-. destruct (a_input a) as [l|] eqn:I.
    + steps EF. injection EF as <- <-. destruct (record_ok _ _ _ F) as (FL & u & U & (RH & RM & RG)).
      split; [split; [exact Logic.I|]; split; [apply (srcs CKGain l I); [exact (last_ne _ _ F0)|auto]|split; [rewrite I; discriminate|exact Logic.I]]|].
      apply (made_pack CKGain a x _ (Some u)); [reflexivity|base D|noremark|noremark| | | | | | | |exact MR].
      * apply (name_help CKGain a _ _ _ I F0). apply sub_name.
      * rewrite I. discriminate.
      * intros k. cbn [p_img with_file with_ext with_dir with_dqh i_ext fst]. rewrite get_set, get_hist, !get_set, RG, !set_new_get. unfold fin, upd. cbn [unit_of fallback named andb]. rewrite !(String.eqb_sym k). lit k "DATATYPE". lit k "DATALVL". lit k "BUNIT". lit k "RN". lit k "RN_ERR". fin_all.
      * intros _. exists l, u. auto.
      * intros N. exfalso. apply N. apply (rec_some _ _ _ _ I); discriminate.
      * cbn [p_img with_file with_ext i_ext set add_hist comm fst]. rewrite RM. unfold set_new. repeat destruct (has _ _); reflexivity.
      * assert (RH2 : hist z = hist (i_ext x)) by (rewrite RH; unfold set_new; repeat destruct (has _ _); reflexivity). cbn [fst]. teller RH2. reflexivity.
    + destruct (has "DRPNFILE" _) eqn:HD; [|discriminate]. injection EF as <- <-. apply has_iff in HD. rewrite !set_new_get in HD. cbn [String.eqb Ascii.eqb Bool.eqb] in HD.
      split; [split; [exact Logic.I|]; split; [rewrite I; discriminate|split; [intros _; exact HD|exact Logic.I]]|].
      apply (made_pack CKGain a x _ None); [reflexivity|base D|noremark|noremark| | | | | | | |exact MR].
      * rewrite I. discriminate.
      * intros _. exact D2.
      * intros k. cbn [p_img with_file with_ext with_dir with_dqh i_ext fst]. rewrite get_set, get_hist, !get_set, !set_new_get. unfold fin, upd. cbn [unit_of fallback named andb]. rewrite !(String.eqb_sym k). lit k "DATATYPE". lit k "DATALVL". lit k "BUNIT". lit k "RN". lit k "RN_ERR". fin_all.
      * intros R. destruct (rec_none _ _ _ I R).
      * reflexivity.
      * cbn [p_img with_file with_ext i_ext set add_hist comm fst]. unfold set_new. repeat destruct (has _ _); reflexivity.
      * assert (RH2 : hist (set_new "RN_ERR" (HS "") (set_new "RN" (HS "") (i_ext x))) = hist (i_ext x)) by (unfold set_new; repeat destruct (has _ _); reflexivity). cbn [fst]. teller RH2. reflexivity.
  - intros FT (_ & S & NN & _). rewrite (proj2 (kgain_iff is_nan x) FT). cbn [bind]. destruct (a_input a) as [l|] eqn:I.
    + destruct (S l eq_refl) as (NE & FL). match goal with |- context [record_parents order l ?e] => destruct (record_can l e (FL (fnd CKGain l ltac:(discriminate) ltac:(discriminate) I))) as (e1 & R) end. rewrite R. cbn [bind]. destruct (last_name_can l NE) as (s & LN). rewrite LN. cbn [bind fst snd]. rewrite (proj2 (check_iff CKGain _)); [eexists; reflexivity|]. cbn [with_file with_ext with_dir i_ext]. rewrite get_set, get_hist, !get_set. reflexivity.
    + assert (HD : has "DRPNFILE" (set_new "RN_ERR" (HS "") (set_new "RN" (HS "") (i_ext x))) = true) by (apply has_iff; rewrite !set_new_get; exact (NN eq_refl)). rewrite HD. cbn [bind fst snd]. rewrite (proj2 (check_iff CKGain _)); [eexists; reflexivity|]. cbn [with_file with_ext with_dir i_ext]. rewrite get_set, get_hist, !get_set. reflexivity.
Qed.
Lemma flux_good : good CFlux (new_flux zero order track v now data pri ext a).
Proof using ORDER.
  intros X. destruct (new_place _ _ _ _ _ _ _ _ _ _ _ _ X) as (D & D2). unfold new_flux. unfold img in X. cbn in X. rewrite X. cbn [bind]. match goal with |- context [vals_flux ?Y] => change (vals_flux Y) with (vals_flux x) end. cbn [with_ext i_ext].
  assert (ST : set "DRPCTIME" (HS now) (set "DRPVERSN" (HS v) (i_ext x)) = i_ext x).
  { apply new_iff in X. destruct X as (p & e & er & d & _ & _ & _ & _ & (h' & _ & _ & XE & _)). assert (Q : forall k w, get k (set "DRPCTIME" (HS now) (set "DRPVERSN" (HS v) e)) = Some w -> get k (i_ext x) = Some w) by (intros k w H; rewrite XE, stamped_get, H; reflexivity). assert (Q1 : get "DRPVERSN" (i_ext x) = Some (HS v)) by (apply Q; rewrite !get_set; reflexivity). assert (Q2 : get "DRPCTIME" (i_ext x) = Some (HS now)) by (apply Q; rewrite !get_set; reflexivity). rewrite (set_same _ _ _ Q1). apply set_same. exact Q2. }
  rewrite ST. split.
  - intros y H. apply bind_iff in H. destruct H as (nf & FF & H). apply unit_iff in H. destruct H as (VF & H). destruct (proj1 (flux_iff is_nan x nf) (conj FF VF)) as (FT & s0 & v0 & B & G & ->). split; [exact FT|]. apply bind_iff in H. destruct H as ([e1 o] & EF & H). cbn [fst snd] in H. destruct o as [o|]; [|discriminate]. injection H as <-. destruct (a_input a) as [l|] eqn:I; [|destruct (has _ _); discriminate]. steps EF. injection EF as <- <-. destruct (record_ok _ _ _ F) as (FL & u & U & (RH & RM & RG)).
    split; [split; [exact Logic.I|]; split; [apply (srcs CFlux l I); [exact (last_ne _ _ F0)|auto]|split; [rewrite I; discriminate|exact Logic.I]]|].
    apply (made_pack CFlux a x _ (Some u)); [reflexivity|base D|noremark|noremark| | | | | | | |exists s0, v0; auto].
    + apply (name_help CFlux a _ _ _ I F0). exists (before ".fits" z0). split; [apply before_name|apply sub_name].
    + rewrite I. discriminate.
    + intros k. cbn [p_img with_file with_ext with_dir with_dqh i_ext]. rewrite get_set, get_hist, get_set, RG. unfold fin, upd. cbn [unit_of fallback named andb]. lit k "DATATYPE". lit k "DATALVL". fin_all.
    + intros _. exists l, u. auto.
    + intros N. exfalso. apply N. apply (rec_some _ _ _ _ I); discriminate.
    + exact RM.
    + teller RH. reflexivity.
  - intros FT (_ & S & NN & _). destruct (a_input a) as [l|] eqn:I; [|destruct (NN eq_refl)]. assert (FT2 := FT). destruct FT2 as (_ & (s0 & B) & G & _). destruct (get "CFAMNAME" (i_ext x)) as [v0|] eqn:GG; [|contradiction]. destruct (proj2 (flux_iff is_nan x (if String.prefix "ND" s0 then s0 else "ND0", v0))) as (FF & V); [split; [exact FT|]; exists s0, v0; auto|]. rewrite FF, V. cbn [bind]. destruct (S l eq_refl) as (NE & FL). destruct (record_can l (i_ext x) (FL (fnd CFlux l ltac:(discriminate) ltac:(discriminate) I))) as (e1 & R). rewrite R. cbn [bind]. destruct (last_name_can l NE) as (s & LN). rewrite LN. cbn [bind fst snd]. eexists. reflexivity.
Qed.
Lemma nd_good : good CNd (new_nd zero show order track v now data pri ext a).
Proof using ORDER.
  intros X. destruct (new_place _ _ _ _ _ _ _ _ _ _ _ _ X) as (D & D2). unfold new_nd. unfold img in X. cbn in X. rewrite X. cbn [bind]. split.
  - intros y H. apply unit_iff in H. destruct H as (FT & H). apply (nd_iff is_nan) in FT. split; [exact FT|]. apply bind_iff in H. destruct H as ([e1 f1] & EF & H). cbn [fst snd] in H. apply unit_iff in H. destruct H as (_ & H). injection H as <-. destruct (a_input a) as [l|] eqn:I.
    + steps EF. injection EF as <- <-. destruct (record_ok _ _ _ F) as (FL & u & U & (RH & RM & RG)).
      split; [split; [exact Logic.I|]; split; [apply (srcs CNd l I); [exact (last_ne _ _ F0)|auto]|split; [rewrite I; discriminate|exact Logic.I]]|].
      apply (made_pack CNd a x _ (Some u)); [reflexivity|base D|noremark|noremark| | | | | | | |reflexivity].
      * apply (name_help CNd a _ _ _ I F0). apply sub_name.
      * rewrite I. discriminate.
      * intros k. cbn [p_img with_file with_ext with_dir with_dqh i_ext]. rewrite get_set, get_hist, get_set, RG. unfold fin, upd. cbn [unit_of fallback named andb]. lit k "DATATYPE". lit k "DATALVL". fin_all.
      * intros _. exists l, u. auto.
      * intros N. exfalso. apply N. apply (rec_some _ _ _ _ I); discriminate.
      * exact RM.
      * teller RH. repeat (rewrite get_set || rewrite get_hist); cbn [String.eqb Ascii.eqb Bool.eqb]; repeat (rewrite get_set || rewrite get_hist); reflexivity.
    + injection EF as <- <-. split; [split; [exact Logic.I|]; split; [rewrite I; discriminate|split; [intros _; exact Logic.I|exact Logic.I]]|].
      apply (made_pack CNd a x _ None); [reflexivity|base D|noremark|noremark| | | | | | | |reflexivity].
      * rewrite I. discriminate.
      * intros _. exact D2.
      * intros k. cbn [p_img with_file with_ext with_dir with_dqh i_ext]. rewrite get_set, get_hist, get_set. unfold fin, upd. cbn [unit_of fallback named andb]. lit k "DATATYPE". lit k "DATALVL". fin_all.
      * intros R. destruct (rec_none _ _ _ I R).
      * reflexivity.
      * reflexivity.
      * right. split; [discriminate|]. eexists. split; [reflexivity|]. cbn [p_img with_file with_ext i_ext story fst]. repeat (rewrite get_set || rewrite get_hist). reflexivity.
  - intros FT (_ & S & NN & _). rewrite (proj2 (nd_iff is_nan x) FT). cbn [bind]. destruct (a_input a) as [l|] eqn:I.
    + destruct (S l eq_refl) as (NE & FL). destruct (record_can l (i_ext x) (FL (fnd CNd l ltac:(discriminate) ltac:(discriminate) I))) as (e1 & R). rewrite R. cbn [bind]. destruct (last_name_can l NE) as (s & LN). rewrite LN. cbn [bind fst snd]. rewrite (proj2 (check_iff CNd _)); [eexists; reflexivity|]. cbn [with_file with_ext with_dir i_ext]. rewrite get_set, get_hist, get_set. reflexivity.
    + cbn [bind fst snd]. rewrite (proj2 (check_iff CNd _)); [eexists; reflexivity|]. cbn [with_file with_ext with_dir i_ext]. rewrite get_set, get_hist, get_set. reflexivity.
Qed.
(** Dark and DetectorNoiseMaps record the parents only when there are none yet *)
Lemma rec_dec : forall c l, c = CDark \/ c = CDnm -> a_input a = Some l -> (has "DRPNFILE" (i_ext x) = false <-> recorded c a (i_ext x)).
Proof using. intros c l C I. rewrite has_not. unfold recorded. split; [intros H; split; [congruence|auto]|intros (_ & H); exact (H C)]. Qed.
Lemma known_rec : forall c l e0 e1, c = CDark \/ c = CDnm -> a_input a = Some l -> (if has "DRPNFILE" (i_ext x) then Ok e0 else record_parents order l e0) = Ok e1 ->
  exists w, hist e1 = hist e0 /\ comm e1 = comm e0 /\ (forall k, get k e1 = upd w k (get k e0)) /\ (recorded c a (i_ext x) -> Forall listed l /\ exists u, w = Some u /\ all_names l u) /\ (~ recorded c a (i_ext x) -> w = None).
Proof using ORDER.
  intros c l e0 e1 C I H. pose proof (rec_dec c l C I) as RD. destruct (has "DRPNFILE" (i_ext x)).
  - injection H as <-. exists None. split; [reflexivity|]. split; [reflexivity|]. split; [reflexivity|]. split; [intros R; apply RD in R; discriminate|reflexivity].
  - destruct (record_ok _ _ _ H) as (FL & u & U & (RH & RM & RG)). exists (Some u). split; [exact RH|]. split; [exact RM|]. split; [exact RG|]. split; [intros _; split; [exact FL|exists u; auto]|]. intros N. exfalso. apply N. apply RD. reflexivity.
Qed.
Lemma known_can : forall c l e0, c = CDark \/ c = CDnm -> a_input a = Some l -> (recorded c a (i_ext x) -> Forall listed l) -> exists e1 w, (if has "DRPNFILE" (i_ext x) then Ok e0 else record_parents order l e0) = Ok e1 /\ (forall k, get k e1 = upd w k (get k e0)) /\ (get "DRPNFILE" e0 = get "DRPNFILE" (i_ext x) -> get "DRPNFILE" e1 <> None).
Proof using ORDER.
  intros c l e0 C I F. pose proof (rec_dec c l C I) as RD. destruct (has "DRPNFILE" (i_ext x)) eqn:H.
  - exists e0, None. split; [reflexivity|]. split; [reflexivity|]. intros ->. apply has_iff. exact H.
  - destruct (record_can l e0 (F (proj1 RD eq_refl))) as (e1 & R). destruct (record_ok _ _ _ R) as (_ & u & _ & (_ & _ & RG)). exists e1, (Some u). split; [exact R|]. split; [exact RG|]. intros _. rewrite RG. discriminate.
Qed.
Lemma upd_not : forall w k o, ~ is_file k -> upd w k o = o.
Proof using. intros [u|] k o N; [apply recg_not; exact N|reflexivity]. Qed.
Ltac lit2 k s := let Q := fresh in destruct (String.eqb s k) eqn:Q; [apply String.eqb_eq in Q; subst k; cbn [String.eqb Ascii.eqb Bool.eqb orb andb]; rewrite ?upd_not by side; try reflexivity; repeat match goal with |- context [get ?j ?h] => destruct (get j h) end; reflexivity|].
Lemma dnm_good : good CDnm (new_dnm zero order track v now data pri ext a).
Proof using ORDER.
  intros X. destruct (new_place _ _ _ _ _ _ _ _ _ _ _ _ X) as (D & D2). unfold new_dnm. unfold img in X. cbn in X. rewrite X. cbn [bind]. cbv zeta. set (e0 := set "B_0_UNIT" (HS "DN") (set "BUNIT" (HS "Detected Electrons") (set "DATATYPE" (HS "DetectorNoiseMaps") (i_ext x)))). assert (G0 : forall k, get k e0 = if String.eqb "B_0_UNIT" k then Some (HS "DN") else if String.eqb "BUNIT" k then Some (HS "Detected Electrons") else if String.eqb "DATATYPE" k then Some (HS "DetectorNoiseMaps") else get k (i_ext x)) by (intros k; unfold e0; rewrite !get_set; reflexivity). split.
  - intros y H. apply unit_iff in H. destruct H as (FT & H). apply bind_iff in H. destruct H as (e2 & RE & H). apply bind_iff in H. destruct H as (s & SE & H). apply unit_iff in H. destruct H as (_ & H). apply unit_iff in H. destruct H as (MP & H). injection H as <-.
    assert (MP2 : maps_dnm x = Ok tt) by (destruct (a_errh a); exact MP). split; [apply dnm_iff; auto|].
    assert (KN : exists w, hist e2 = hist e0 /\ comm e2 = comm e0 /\ (forall k, get k e2 = upd w k (get k e0)) /\ (recorded CDnm a (i_ext x) -> exists l u, a_input a = Some l /\ Forall listed l /\ w = Some u /\ all_names l u) /\ (~ recorded CDnm a (i_ext x) -> w = None) /\ (a_input a = None -> get "DRPNFILE" (i_ext x) <> None)).
    { destruct (a_input a) as [l|] eqn:I.
      - destruct (known_rec CDnm l e0 e2 (or_intror eq_refl) I RE) as (w & W1 & W2 & W3 & W4 & W5). exists w. split; [exact W1|]. split; [exact W2|]. split; [exact W3|]. split; [intros R; destruct (W4 R) as (FL & u & Wu & AN); exists l, u; auto|]. split; [exact W5|discriminate].
      - destruct (has "DRPNFILE" (i_ext x)) eqn:HD; [|discriminate]. injection RE as <-. exists None. split; [reflexivity|]. split; [reflexivity|]. split; [reflexivity|]. split; [intros R; destruct (rec_none _ _ _ I R)|]. split; [reflexivity|]. intros _. apply has_iff. exact HD. }
    destruct KN as (w & W1 & W2 & W3 & W4 & W5 & W6).
    assert (NM : (forall l, a_input a = Some l -> last_name l = Ok s) /\ (a_input a = None -> get "FILE0" (i_ext x) = Some (HS s))).
    { destruct (a_input a) as [l|] eqn:I; [split; [intros l0 L0; injection L0 as <-; exact SE|discriminate]|]. split; [discriminate|]. intros _. apply bind_iff in SE. destruct SE as (vv & CV & SV). apply card_iff in CV. rewrite get_hist, W3 in CV. assert (w = None) by (apply W5; apply rec_none; exact I). subst w. cbn [upd] in CV. rewrite G0 in CV. destruct vv as [| | |s1|]; try discriminate. injection SV as ->. exact CV. }
    destruct NM as (NM1 & NM2).
    split; [split; [exact Logic.I|]; split; [intros l L0; split; [exact (last_ne _ _ (NM1 l L0))|intros R; destruct (W4 R) as (l1 & u & I1 & FL & _); rewrite L0 in I1; injection I1 as <-; exact FL]|split; [intros I; split; [exact (W6 I)|exists s; exact (NM2 I)]|exact Logic.I]]|].
    assert (XX : i_ext (match a_errh a with Some _ => with_errh (set "BUNIT" (HS "Detected Electrons")) (with_file (sub_tag "" (before ".fits" s ++ "_DNM_CAL.fits")) (with_ext (fun _ => set "DATALVL" (HS "CAL") (add_hist "DetectorNoiseMaps calibration file created" e2)) x)) | None => with_file (sub_tag "" (before ".fits" s ++ "_DNM_CAL.fits")) (with_ext (fun _ => set "DATALVL" (HS "CAL") (add_hist "DetectorNoiseMaps calibration file created" e2)) x) end) = set "DATALVL" (HS "CAL") (add_hist "DetectorNoiseMaps calibration file created" e2)) by (destruct (a_errh a); reflexivity).
    apply (made_pack CDnm a x _ w); cbn [p_cls p_img p_more]; rewrite ?XX; [reflexivity|destruct (a_errh a); base D|destruct (a_errh a); noremark|destruct (a_errh a); noremark| | | | |exact W5| | |reflexivity].
    + intros l p I. assert (ND : name_of CDnm s (sub_tag "" (before ".fits" s ++ "_DNM_CAL.fits"))) by (exists (before ".fits" s); split; [apply before_name|apply sub_name]). pose proof (name_help CDnm a _ s _ I (NM1 _ I) ND l p I) as Q. destruct (a_errh a); exact Q.
    + intros I. exists s. split; [exact (NM2 I)|]. assert (ND : name_of CDnm s (sub_tag "" (before ".fits" s ++ "_DNM_CAL.fits"))) by (exists (before ".fits" s); split; [apply before_name|apply sub_name]). destruct (a_errh a); exact ND.
    + intros k. rewrite get_set, get_hist, W3, G0. unfold fin. cbn [unit_of fallback named andb]. lit2 k "DATATYPE". lit2 k "DATALVL". lit2 k "BUNIT". lit2 k "B_0_UNIT". fin_all.
    + intros R. destruct (W4 R) as (l & u & I & _ & Wu & AN). exists l, u. auto.
    + cbn [set add_hist comm]. rewrite W2. reflexivity.
    + right. split; [discriminate|]. eexists. split; [cbn [set add_hist hist]; rewrite W1; reflexivity|reflexivity].
  - intros FT (_ & S & NN & _). apply dnm_iff in FT. destruct FT as (FT & MP). rewrite FT. cbn [bind].
    assert (ST : exists e2 w, (match a_input a with Some l => if has "DRPNFILE" (i_ext x) then Ok e0 else record_parents order l e0 | None => if has "DRPNFILE" (i_ext x) then Ok e0 else Raise ValueError end) = Ok e2 /\ forall k, get k e2 = upd w k (get k e0)).
    { destruct (a_input a) as [l|] eqn:I; [destruct (known_can CDnm l e0 (or_intror eq_refl) I (proj2 (S l eq_refl))) as (e2 & w & A & B & _); exists e2, w; auto|]. destruct (NN eq_refl) as (N1 & _). apply has_iff in N1. rewrite N1. exists e0, None. split; reflexivity. }
    destruct ST as (e2 & w & ST & W3). rewrite ST. cbn [bind].
    assert (SE : exists s, (match a_input a with Some l => last_name l | None => do vv <- card "FILE0" (add_hist "DetectorNoiseMaps calibration file created" e2); match vv with HS s => Ok s | _ => Raise AttributeError end end) = Ok s).
    { destruct (a_input a) as [l|] eqn:I; [exact (last_name_can l (proj1 (S l eq_refl)))|]. destruct (NN eq_refl) as (N1 & s & N2). exists s. assert (EE : e2 = e0) by (apply has_iff in N1; rewrite N1 in ST; injection ST as <-; reflexivity). rewrite (proj2 (card_iff "FILE0" _ (HS s))); [reflexivity|]. rewrite get_hist, EE, G0. exact N2. }
    destruct SE as (s & SE). rewrite SE. cbn [bind]. rewrite (proj2 (check_iff CDnm _)). 2: { destruct (a_errh a); cbn [with_errh with_file with_ext i_ext]; rewrite get_set, get_hist, W3, upd_not by side; rewrite G0; reflexivity. }
    cbn [bind]. assert (MQ : forall Y : image, shp (i_err Y) = shp (i_err x) -> maps_dnm Y = maps_dnm x) by (intros Y Q; unfold maps_dnm; rewrite Q; reflexivity). rewrite MQ by (destruct (a_errh a); reflexivity). rewrite MP. cbn [bind]. eexists. reflexivity.
Qed.
Lemma set_new_hist : forall k u h, hist (set_new k u h) = hist h.
Proof using. intros k u h. unfold set_new. destruct (has k h); reflexivity. Qed.
Lemma set_new_comm : forall k u h, comm (set_new k u h) = comm h.
Proof using. intros k u h. unfold set_new. destruct (has k h); reflexivity. Qed.
Lemma dark_good : good CDark (new_dark zero show order track v now data pri ext a).
Proof using ORDER.
  intros X. destruct (new_place _ _ _ _ _ _ _ _ _ _ _ _ X) as (D & D2). unfold new_dark. unfold img in X. cbn in X. rewrite X. cbn [bind]. cbv zeta. set (e0 := set_new "PC_STAT" (HS "analog master dark") (set "BUNIT" (HS "detected electrons") (set "DATATYPE" (HS "Dark") (i_ext x)))). assert (G0 : forall k, get k e0 = if String.eqb "DATATYPE" k then Some (HS "Dark") else if String.eqb "BUNIT" k then Some (HS "detected electrons") else match get k (i_ext x) with Some w => Some w | None => fallback CDark k end).
  { intros k. unfold e0. rewrite set_new_get, !get_set. cbn [fallback]. rewrite (String.eqb_sym k). lit k "DATATYPE". lit k "BUNIT". lit k "PC_STAT". fin_all. }
  assert (H0 : hist e0 = hist (i_ext x) /\ comm e0 = comm (i_ext x)) by (unfold e0, set_new; destruct (has _ _); split; reflexivity). destruct H0 as (H0 & C0).
  assert (K0 : forall k, ~ k = "DATATYPE" -> k <> "BUNIT" -> k <> "PC_STAT" -> get k e0 = get k (i_ext x)). { intros k N1 N2 N3. rewrite G0. destruct (String.eqb "DATATYPE" k) eqn:Q1; [apply String.eqb_eq in Q1; congruence|]. destruct (String.eqb "BUNIT" k) eqn:Q2; [apply String.eqb_eq in Q2; congruence|]. cbn [fallback]. destruct (String.eqb k "PC_STAT") eqn:Q3; [apply String.eqb_eq in Q3; congruence|]. destruct (get k (i_ext x)); reflexivity. }
  split.
  - intros y H. destruct (andb _ _) eqn:KI; [discriminate|]. apply bind_iff in H. destruct H as (e2 & RE & H). apply bind_iff in H. destruct H as (t & T & H). apply bind_iff in H. destruct H as (g & GG & H). apply bind_iff in H. destruct H as (n & NN & H). apply bind_iff in H. destruct H as (f & FN & H). apply unit_iff in H. destruct H as (_ & H). injection H as <-. apply card_iff in T, GG, NN. split; [exact Logic.I|].
    assert (KN : exists w, hist e2 = hist e0 /\ comm e2 = comm e0 /\ (forall k, get k e2 = upd w k (get k e0)) /\ (recorded CDark a (i_ext x) -> exists l u, a_input a = Some l /\ Forall listed l /\ w = Some u /\ all_names l u) /\ (~ recorded CDark a (i_ext x) -> w = None) /\ (a_input a = None -> get "DRPNFILE" (i_ext x) <> None)).
    { destruct (a_input a) as [l|] eqn:I.
      - destruct (known_rec CDark l e0 e2 (or_introl eq_refl) I RE) as (w & W1 & W2 & W3 & W4 & W5). exists w. split; [exact W1|]. split; [exact W2|]. split; [exact W3|]. split; [intros R; destruct (W4 R) as (FL & u & Wu & AN); exists l, u; auto|]. split; [exact W5|discriminate].
      - injection RE as <-. exists None. split; [reflexivity|]. split; [reflexivity|]. split; [reflexivity|]. split; [intros R; destruct (rec_none _ _ _ I R)|]. split; [reflexivity|]. intros _. apply has_iff. cbn [andb] in KI. destruct (has "DRPNFILE" (i_ext x)); [reflexivity|discriminate]. }
    destruct KN as (w & W1 & W2 & W3 & W4 & W5 & W6).
    assert (NM : (forall l, a_input a = Some l -> exists s, last_name l = Ok s /\ name_of CDark s f) /\ (a_input a = None -> f = "DRK_CAL.fits")).
    { destruct (a_input a) as [l|]; [|split; [discriminate|intros _; injection FN as <-; reflexivity]]. split; [|discriminate]. intros l0 L0. injection L0 as <-. apply bind_iff in FN. destruct FN as (s & LS & FN). injection FN as <-. exists s. split; [exact LS|]. exists (before ".fits" s), (sub_tag "" (before ".fits" s ++ "_DRK_CAL.fits")). split; [apply before_name|]. split; [apply sub_name|]. apply replace_iff; [discriminate|reflexivity]. }
    destruct NM as (NM1 & NM2).
    assert (EXK : get "EXPTIME" (i_ext x) = Some t /\ get "EMGAIN_C" (i_ext x) = Some g) by (rewrite W3, upd_not in T by side; rewrite W3, upd_not in GG by side; rewrite K0 in T, GG by discriminate; auto). destruct EXK as (EX1 & EX2).
    split; [split; [exact Logic.I|]; split; [intros l L0; destruct (NM1 l L0) as (s & LS & _); split; [exact (last_ne _ _ LS)|intros R; destruct (W4 R) as (l1 & u & I1 & FL & _); rewrite L0 in I1; injection I1 as <-; exact FL]|split; [exact W6|rewrite EX1, EX2; split; discriminate]]|].
    set (e3 := add_hist ("Dark with exptime = " ++ show t ++ " s and commanded EM gain = " ++ show g ++ " created from " ++ show n ++ " frames") e2).
    match goal with |- made _ _ _ _ ?y => assert (XX : i_ext (p_img y) = set_new "PC_STAT" (HS "analog master dark") (set "DATALVL" (HS "CAL") e3)) by (cbn [p_img]; destruct (a_errh a); reflexivity) end.
    assert (G3 : forall k, get k (set_new "PC_STAT" (HS "analog master dark") (set "DATALVL" (HS "CAL") e3)) = if String.eqb "DATALVL" k then Some (HS "CAL") else match get k e2 with Some q => Some q | None => fallback CDark k end).
    { intros k. rewrite set_new_get, !get_set. unfold e3. rewrite !get_hist. cbn [fallback]. rewrite (String.eqb_sym k). lit k "DATALVL". lit k "PC_STAT". fin_all. }
    assert (H3 : hist (set_new "PC_STAT" (HS "analog master dark") (set "DATALVL" (HS "CAL") e3)) = hist e3 /\ comm (set_new "PC_STAT" (HS "analog master dark") (set "DATALVL" (HS "CAL") e3)) = comm e3) by (rewrite set_new_hist, set_new_comm; split; reflexivity). destruct H3 as (H3 & C3).
    apply (made_pack CDark a x _ w); rewrite ?XX; cbn [p_cls p_img p_more]; [reflexivity|destruct (a_errh a); base D|destruct (a_errh a); noremark|destruct (a_errh a); noremark| | | | |exact W5| | |reflexivity].
    + intros l p I. destruct (NM1 _ I) as (s & LS & ND). pose proof (name_help CDark a _ s _ I LS ND l p I) as Q. destruct (a_errh a); exact Q.
    + intros I. rewrite (NM2 I). destruct (a_errh a); reflexivity.
    + intros k. rewrite G3, W3, G0. unfold fin. cbn [unit_of named andb]. lit2 k "DATATYPE". lit2 k "DATALVL". lit2 k "BUNIT". destruct (String.eqb "PC_STAT" k) eqn:Q; [apply String.eqb_eq in Q; subst k; rewrite !upd_not by side; cbn [andb fallback String.eqb Ascii.eqb Bool.eqb]; destruct (get "PC_STAT" (i_ext x)); reflexivity|]. assert (FB : fallback CDark k = None) by (cbn [fallback]; rewrite String.eqb_sym, Q; reflexivity). rewrite FB. replace (match get k (i_ext x) with Some q => Some q | None => None end) with (get k (i_ext x)) by (destruct (get k (i_ext x)); reflexivity). reflexivity.
    + intros R. destruct (W4 R) as (l & u & I & _ & Wu & AN). exists l, u. auto.
    + rewrite C3. unfold e3. cbn [add_hist comm]. rewrite W2. exact C0.
    + right. split; [discriminate|]. eexists. rewrite H3. split; [unfold e3; cbn [add_hist hist]; rewrite W1, H0; reflexivity|]. exists t, g, n. rewrite !G3, T, GG, NN. auto.
  - intros _ (_ & S & NN & (T & GG)). assert (KI : andb (match a_input a with None => true | Some _ => false end) (negb (has "DRPNFILE" (i_ext x))) = false). { destruct (a_input a); [reflexivity|]. rewrite (proj2 (has_iff _ _) (NN eq_refl)). reflexivity. }
    rewrite KI.
    assert (ST : exists e2 w, (match a_input a with Some l => if has "DRPNFILE" (i_ext x) then Ok e0 else record_parents order l e0 | None => Ok e0 end) = Ok e2 /\ (forall k, get k e2 = upd w k (get k e0)) /\ get "DRPNFILE" e2 <> None).
    { destruct (a_input a) as [l|] eqn:I.
      - destruct (known_can CDark l e0 (or_introl eq_refl) I (proj2 (S l eq_refl))) as (e2 & w & A & B & C). exists e2, w. split; [exact A|]. split; [exact B|]. apply C. apply K0; discriminate.
      - exists e0, None. split; [reflexivity|]. split; [reflexivity|]. rewrite K0 by discriminate. exact (NN eq_refl). }
    destruct ST as (e2 & w & ST & W3 & N3). rewrite ST. cbn [bind]. destruct (get "EXPTIME" (i_ext x)) as [t|] eqn:ET; [|contradiction]. destruct (get "EMGAIN_C" (i_ext x)) as [g|] eqn:EG; [|contradiction]. rewrite (proj2 (card_iff "EXPTIME" e2 t)) by (rewrite W3, upd_not by side; rewrite K0 by discriminate; exact ET). cbn [bind]. rewrite (proj2 (card_iff "EMGAIN_C" e2 g)) by (rewrite W3, upd_not by side; rewrite K0 by discriminate; exact EG). cbn [bind]. destruct (get "DRPNFILE" e2) as [n|] eqn:EN; [|contradiction]. rewrite (proj2 (card_iff "DRPNFILE" e2 n) EN). cbn [bind].
    assert (FN : exists f, (match a_input a with Some l => do s <- last_name l; Ok (replace "_DNM_CAL" "" (sub_tag "" (before ".fits" s ++ "_DRK_CAL.fits"))) | None => Ok "DRK_CAL.fits" end) = Ok f). { destruct (a_input a) as [l|] eqn:I; [|eexists; reflexivity]. destruct (last_name_can l (proj1 (S l eq_refl))) as (s & LN). rewrite LN. eexists. reflexivity. }
    destruct FN as (f & FN). rewrite FN. cbn [bind]. rewrite (proj2 (check_iff CDark _)); [eexists; reflexivity|]. destruct (a_errh a); cbn [with_errh with_file with_ext i_ext]; rewrite set_new_get; cbn [String.eqb Ascii.eqb Bool.eqb]; rewrite get_set, get_hist, W3, upd_not by side; rewrite G0; reflexivity.
Qed.
End Class.
Theorem new_as_ok : forall track v now c data pri ext (a : args) y, c <> CImage -> new_as zero is_nan show order track v now c data pri ext a = Ok y ->
  exists x, new_image zero track v now data pri ext (err_arg c a) (dq_arg c a) (errh_arg c a) (dqh_arg c a) (hdus_arg c a) = Ok x /\ fits is_nan c x /\ sourced c a (i_ext x) /\ made show c a x y.
Proof using ORDER.
  intros track v now c data pri ext a y N H. assert (IM : exists x, img track v now data pri ext a c = Ok x).
  { unfold img. destruct c; cbn [new_as] in H; try discriminate; try contradiction; unfold new_dark, new_flat, new_nonlin, new_kgain, new_bpm, new_dnm, new_astrom, new_trap, new_flux, new_ct, new_nd in H; apply bind_iff in H; destruct H as (x & X & _); exists x; exact X. }
  destruct IM as (x & X). exists x. split; [exact X|]. destruct c; try discriminate; try contradiction; cbn [new_as] in H.
  - exact (proj1 (dark_good _ _ _ _ _ _ _ x X) y H).
  - exact (proj1 (flat_good _ _ _ _ _ _ _ x X) y H).
  - exact (proj1 (nonlin_good _ _ _ _ _ _ _ x X) y H).
  - exact (proj1 (kgain_good _ _ _ _ _ _ _ x X) y H).
  - exact (proj1 (bpm_good _ _ _ _ _ _ _ x X) y H).
  - exact (proj1 (dnm_good _ _ _ _ _ _ _ x X) y H).
  - exact (proj1 (astrom_good _ _ _ _ _ _ _ x X) y H).
  - exact (proj1 (trap_good _ _ _ _ _ _ _ x X) y H).
  - exact (proj1 (flux_good _ _ _ _ _ _ _ x X) y H).
  - exact (proj1 (ct_good _ _ _ _ _ _ _ x X) y H).
  - exact (proj1 (nd_good _ _ _ _ _ _ _ x X) y H).
Qed.
Theorem new_as_can : forall track v now c data pri ext (a : args) x, new_image zero track v now data pri ext (err_arg c a) (dq_arg c a) (errh_arg c a) (dqh_arg c a) (hdus_arg c a) = Ok x -> fits is_nan c x -> sourced c a (i_ext x) ->
  exists y, new_as zero is_nan show order track v now c data pri ext a = Ok y.
Proof using ORDER.
  intros track v now c data pri ext a x X F S. destruct c; try (destruct S as ([] & _); fail); cbn [new_as].
  - exact (proj2 (dark_good _ _ _ _ _ _ _ x X) F S).
  - exact (proj2 (flat_good _ _ _ _ _ _ _ x X) F S).
  - exact (proj2 (nonlin_good _ _ _ _ _ _ _ x X) F S).
  - exact (proj2 (kgain_good _ _ _ _ _ _ _ x X) F S).
  - exact (proj2 (bpm_good _ _ _ _ _ _ _ x X) F S).
  - exact (proj2 (dnm_good _ _ _ _ _ _ _ x X) F S).
  - exact (proj2 (astrom_good _ _ _ _ _ _ _ x X) F S).
  - exact (proj2 (trap_good _ _ _ _ _ _ _ x X) F S).
  - exact (proj2 (flux_good _ _ _ _ _ _ _ x X) F S).
  - exact (proj2 (ct_good _ _ _ _ _ _ _ x X) F S).
  - exact (proj2 (nd_good _ _ _ _ _ _ _ x X) F S).
Qed.
End Made.
