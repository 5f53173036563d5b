(** Proofs about autogen_recipe. *)
From Coq Require Import List Arith Bool QArith String Ascii Lia.
From Verif Require Import Base WalkModel WalkSpec WalkStrProofs WalkProofs.
Import ListNotations.
Local Open Scope string_scope.
Local Open Scope list_scope.
Local Open Scope nat_scope.

Lemma assoc_split : forall {X} k (l : list (string * X)) v, assoc k l = Some v <-> exists pre post, l = pre ++ (k, v) :: post /\ ~ In k (map fst pre).
Proof.
  intros X k. induction l as [|[a x] l IH]; intros v; cbn [assoc]; [split; [discriminate|intros ([|] & ? & H & _); discriminate]|]. destruct (String.eqb a k) eqn:E.
  - apply String.eqb_eq in E. subst a. split; [intros H; injection H as ->; exists [], l; split; [reflexivity|intros []]|]. intros (pre & post & H & N). destruct pre as [|p pre]; cbn in H; injection H as <- ->; [intros; congruence|]. exfalso. apply N. left. reflexivity.
  - apply String.eqb_neq in E. rewrite IH. split; intros (pre & post & H & N).
    + subst l. exists ((a, x) :: pre), post. split; [reflexivity|]. intros [Y|Y]; [exact (E Y)|exact (N Y)].
    + destruct pre as [|p pre]; cbn in H; [congruence|]. injection H as <- ->. exists pre, post. split; [reflexivity|]. intros Y. apply N. right. exact Y.
Qed.
Lemma assoc_set_split : forall {X} (k : string) (v v' : X) pre post, ~ In k (map fst pre) -> assoc_set k v' (pre ++ (k, v) :: post) = pre ++ (k, v') :: post.
Proof.
  intros X k v v'. induction pre as [|[a x] pre IH]; intros post N; cbn [app assoc_set]; [rewrite String.eqb_refl; reflexivity|]. cbn in N. rewrite (eqbN a k) by tauto. f_equal. apply IH. tauto.
Qed.
Lemma split_unique : forall {X} (k : string) pre (v : X) post pre' v' post', pre ++ (k, v) :: post = pre' ++ (k, v') :: post' -> ~ In k (map fst pre) -> ~ In k (map fst pre') -> pre = pre' /\ v = v' /\ post = post'.
Proof.
  intros X k. induction pre as [|[a x] pre IH]; intros v post pre' v' post' H N N'; destruct pre' as [|[a' x'] pre']; cbn in H.
  - injection H as -> ->. repeat split.
  - exfalso. injection H as <- _ _. apply N'. left. reflexivity.
  - exfalso. injection H as -> _ _. apply N. left. reflexivity.
  - injection H as <- <- H. destruct (IH _ _ _ _ _ H) as (-> & -> & ->); [cbn in N; tauto|cbn in N'; tauto|]. repeat split.
Qed.

Lemma dark_ok_iff : forall outdir s s', dark_outdir outdir s = (s', None) <-> dark_dir outdir s s'.
Proof.
  intros outdir s s'. unfold dark_outdir, dark_dir. destruct (string_dec (lower (s_name s)) "dark_subtraction") as [E|N]; [|rewrite (eqbN _ _ N); split; [intros H; injection H as <-; reflexivity|intros ->; reflexivity]].
  rewrite E, String.eqb_refl. destruct (s_kw s) as [kw|] eqn:K; [|split; [discriminate|intros (? & ? & ? & X & _); discriminate]].
  destruct (assoc "outputdir" kw) as [[d|v]|] eqn:A.
  - destruct (proj1 (assoc_split _ _ _) A) as (pre & post & -> & Np). rewrite assoc_set_split by exact Np.
    assert (U : upper d = "AUTOMATIC" /\ String.eqb (upper d) "AUTOMATIC" = true \/ upper d <> "AUTOMATIC" /\ String.eqb (upper d) "AUTOMATIC" = false). { destruct (String.eqb (upper d) "AUTOMATIC") eqn:U; [left; split; [apply String.eqb_eq; exact U|reflexivity]|right; split; [apply String.eqb_neq; exact U|reflexivity]]. }
    split.
    + intros H. exists pre, d, post. split; [reflexivity|]. split; [exact Np|]. destruct U as [[U1 U2]|[U1 U2]]; rewrite U2 in H; injection H as <-; (destruct (string_dec (upper d) "AUTOMATIC"); [|contradiction] || idtac).
      * reflexivity.
      * destruct (string_dec (upper d) "AUTOMATIC"); [contradiction|]. destruct s; cbn in *; subst; reflexivity.
    + intros (pre' & d' & post' & H & Np' & ->). injection H as H. destruct (split_unique _ _ _ _ _ _ _ H Np Np') as (<- & Ed & <-). injection Ed as <-.
      destruct U as [[U1 U2]|[U1 U2]]; rewrite U2; destruct (string_dec (upper d) "AUTOMATIC"); try contradiction; [reflexivity|]. destruct s; cbn in *; subst; reflexivity.
  - split; [discriminate|]. intros (pre & d & post & H & Np & _). injection H as ->. rewrite (proj2 (assoc_split "outputdir" _ (KStr d))) in A by (exists pre, post; split; [reflexivity|exact Np]). discriminate.
  - split; [discriminate|]. intros (pre & d & post & H & Np & _). injection H as ->. rewrite (proj2 (assoc_split "outputdir" _ (KStr d))) in A by (exists pre, post; split; [reflexivity|exact Np]). discriminate.
Qed.

Section Gen.
Context {Dt Cal : Type}.
Notation frame := (frame Dt).
Variable known : string -> bool.
Variable lookup : list frame -> refr Dt -> string -> result string.
Variable img_load : string -> result frame.

Notation prepared := (prepared known).
Lemma auto_ok : forall fill sm find outdir l l', auto_steps known fill sm find outdir l = (l', None) <-> Forall2 (prepared fill sm find outdir) l l'.
Proof.
  intros fill sm find outdir. induction l as [|s t IH]; intros l'; cbn [auto_steps].
  - split; [intros H; injection H as <-; constructor|intros H; inversion H; reflexivity].
  - set (F := if fill then fill_step known sm find s else (s, None)). assert (FE : forall s1, F = (s1, None) <-> if fill then fill_spec known sm find s s1 else s1 = s).
    { intros s1. subst F. destruct fill; [apply fill_ok|]. split; [intros H; injection H as <-; reflexivity|intros ->; reflexivity]. }
    clearbody F. destruct F as [s1 [e1|]].
    + split; [discriminate|]. intros H. inversion H as [|? s' ? t' (s2 & Fs & D) F2]; subst. apply FE in Fs. discriminate.
    + assert (FS := proj1 (FE s1) eq_refl). destruct (dark_outdir outdir s1) as [s2 [e2|]] eqn:D.
      * split; [discriminate|]. intros H. inversion H as [|? s' ? t' (s3 & Fs & D') F2]; subst. apply FE in Fs. injection Fs as <-. apply dark_ok_iff in D'. congruence.
      * destruct (auto_steps known fill sm find outdir t) as [t' e] eqn:Et. split.
        -- intros H. injection H as <- ->. constructor; [exists s1; split; [exact FS|apply dark_ok_iff; exact D]|apply IH; reflexivity].
        -- intros H. inversion H as [|? s' ? t0 (s3 & Fs & D') F2]; subst. apply FE in Fs. injection Fs as <-. apply dark_ok_iff in D'. rewrite D in D'. injection D' as <-. apply IH in F2. injection F2 as <- <-. reflexivity.
Qed.

(** * The store *)
Lemma set_nth_length : forall {X} n (x : X) l, List.length (set_nth n x l) = List.length l.
Proof. intros X. induction n as [|n IH]; intros x [|y l]; cbn; try reflexivity. rewrite IH. reflexivity. Qed.
Lemma nth_set_same : forall {X} n (x : X) l, n < List.length l -> nth_error (set_nth n x l) n = Some x.
Proof. intros X. induction n as [|n IH]; intros x [|y l] H; cbn in *; try lia; [reflexivity|]. apply IH. lia. Qed.
Lemma nth_set_other : forall {X} n m (x : X) l, n <> m -> nth_error (set_nth n x l) m = nth_error l m.
Proof. intros X. induction n as [|n IH]; intros [|m] x [|y l] H; cbn; try reflexivity; try congruence. apply IH. congruence. Qed.

Notation autogen_one := (autogen_one known lookup).
Notation autogen_all := (autogen_all known lookup).
(** one template: the result, and what happens to the store *)
Lemma one_iff : forall g db rf files outdir st t st' o, autogen_one g db rf files outdir st t = (st', Ok o) <->
  exists ins sts sts', nth_error st (o_ref t) = Some (ins, sts) /\ Forall2 (prepared (fill_now (o_cfg t) g) (g "skip_missing_cal_steps") (lookup db rf) outdir) sts sts'
  /\ st' = set_nth (o_ref t) (ins ++ files, sts') st /\ o = mkro (o_name t) false (o_cfg t) outdir (o_ref t).
Proof.
  intros g db rf files outdir st t st' o. unfold WalkModel.autogen_one. destruct (nth_error st (o_ref t)) as [[ins sts]|] eqn:E; [|split; [discriminate|intros (? & ? & ? & X & _); discriminate]].
  destruct (auto_steps known (fill_now (o_cfg t) g) (g "skip_missing_cal_steps") (lookup db rf) outdir sts) as [sts' [e|]] eqn:A; split.
  - discriminate.
  - intros (ins' & sts0 & sts1 & H & F & _). injection H as <- <-. apply auto_ok in F. congruence.
  - intros H. injection H as <- <-. exists ins, sts, sts'. split; [reflexivity|]. split; [apply auto_ok; exact A|]. split; reflexivity.
  - intros (ins' & sts0 & sts1 & H & F & -> & ->). injection H as <- <-. apply auto_ok in F. rewrite A in F. injection F as ->. reflexivity.
Qed.
(** success or not, the inputs are appended and nothing else in the store changes *)
Lemma one_store : forall g db rf files outdir st t st' r, autogen_one g db rf files outdir st t = (st', r) -> o_ref t < List.length st ->
  List.length st' = List.length st /\ (forall i, i <> o_ref t -> nth_error st' i = nth_error st i)
  /\ exists ins sts sts', nth_error st (o_ref t) = Some (ins, sts) /\ nth_error st' (o_ref t) = Some (ins ++ files, sts').
Proof.
  intros g db rf files outdir st t st' r H L. unfold WalkModel.autogen_one in H. destruct (nth_error st (o_ref t)) as [[ins sts]|] eqn:E; [|apply nth_error_None in E; lia].
  destruct (auto_steps known (fill_now (o_cfg t) g) (g "skip_missing_cal_steps") (lookup db rf) outdir sts) as [sts' e]. injection H as <- <-. split; [apply set_nth_length|]. split; [intros i N; apply nth_set_other; congruence|].
  exists ins, sts, sts'. split; [reflexivity|]. apply nth_set_same. exact L.
Qed.
Lemma all_one : forall g db rf files outdir st t st' os, autogen_all g db rf files outdir st [t] = (st', Ok os) <-> exists o, os = [o] /\ autogen_one g db rf files outdir st t = (st', Ok o).
Proof.
  intros g db rf files outdir st t st' os. cbn [WalkModel.autogen_all]. destruct (autogen_one g db rf files outdir st t) as [st1 [o|e]].
  - split; [intros H; injection H as <- <-; exists o; split; reflexivity|]. intros (o' & -> & H). injection H as <- <-. reflexivity.
  - split; [discriminate|]. intros (o' & _ & H). discriminate.
Qed.

(** several templates at different places *)
Definition made (g : gcfg) (db : list frame) (rf : refr Dt) (files : list string) (outdir : string) (t : robj) (ins : list string) (sts : list step) (o : robj) (st' : store) : Prop :=
  o = mkro (o_name t) false (o_cfg t) outdir (o_ref t)
  /\ exists sts', Forall2 (prepared (fill_now (o_cfg t) g) (g "skip_missing_cal_steps") (lookup db rf) outdir) sts sts' /\ nth_error st' (o_ref t) = Some (ins ++ files, sts').
Lemma all_keep : forall g db rf files outdir ts st st' r, autogen_all g db rf files outdir st ts = (st', r) -> forall i, (forall t, In t ts -> o_ref t <> i) -> nth_error st' i = nth_error st i.
Proof.
  intros g db rf files outdir. induction ts as [|t ts IH]; intros st st' r H i N; cbn [WalkModel.autogen_all] in H; [injection H as <- _; reflexivity|].
  destruct (autogen_one g db rf files outdir st t) as [st1 r1] eqn:E1. assert (K : nth_error st1 i = nth_error st i).
  { unfold WalkModel.autogen_one in E1. destruct (nth_error st (o_ref t)) as [[ins sts]|]; [|injection E1 as <- _; reflexivity]. destruct (auto_steps _ _ _ _ _ _) as [sts' e]. injection E1 as <- _. apply nth_set_other. apply N. left. reflexivity. }
  destruct r1 as [o|e]; [|injection H as <- _; exact K]. destruct (autogen_all g db rf files outdir st1 ts) as [st2 [os|e]] eqn:E2; injection H as <- _; rewrite <- K; apply (IH _ _ _ E2); intros t' Ht; apply N; right; exact Ht.
Qed.
Lemma all_ok : forall g db rf files outdir ts st st' os, NoDup (map o_ref ts) -> autogen_all g db rf files outdir st ts = (st', Ok os) ->
  Forall2 (fun t o => exists ins sts, nth_error st (o_ref t) = Some (ins, sts) /\ made g db rf files outdir t ins sts o st') ts os.
Proof.
  intros g db rf files outdir. induction ts as [|t ts IH]; intros st st' os ND H; cbn [WalkModel.autogen_all] in H; [injection H as <- <-; constructor|].
  destruct (autogen_one g db rf files outdir st t) as [st1 [o|e]] eqn:E1; [|discriminate]. destruct (autogen_all g db rf files outdir st1 ts) as [st2 [os'|e]] eqn:E2; [|discriminate]. injection H as <- <-.
  cbn [map] in ND. inversion ND as [|? ? Nt ND']; subst. assert (K := all_keep _ _ _ _ _ _ _ _ _ E2). assert (I2 := IH _ _ _ ND' E2). apply one_iff in E1. destruct E1 as (ins & sts & sts' & Hn & F & -> & ->).
  assert (L : o_ref t < List.length st) by (apply nth_error_Some; congruence). constructor.
  - exists ins, sts. split; [exact Hn|]. split; [reflexivity|]. exists sts'. split; [exact F|]. rewrite K; [apply nth_set_same; exact L|]. intros t' Ht E. apply Nt. rewrite <- E. apply in_map. exact Ht.
  - clear - I2 Nt. revert I2. generalize os'. induction ts as [|t' ts IHt]; intros os0 I2; inversion I2 as [|? o' ? os1 (ins' & sts0 & Hn' & M) I2']; subst; [constructor|]. constructor.
    + exists ins', sts0. split; [|exact M]. rewrite nth_set_other in Hn'; [exact Hn'|]. intros E. apply Nt. left. symmetry. exact E.
    + apply IHt; [intros X; apply Nt; right; exact X|exact I2'].
Qed.
Lemma alloc_spec : forall rs st st' os, alloc_all st rs = (st', os) -> st' = st ++ map (fun r => (r_in r, r_steps r)) rs
  /\ map o_ref os = seq (List.length st) (List.length rs) /\ Forall2 (fun r o => o_name o = r_name r /\ o_cfg o = r_cfg r /\ nth_error st' (o_ref o) = Some (r_in r, r_steps r)) rs os.
Proof.
  induction rs as [|r rs IH]; intros st st' os H; cbn [alloc_all] in H; [injection H as <- <-; split; [symmetry; apply List.app_nil_r|]; split; [reflexivity|constructor]|].
  unfold alloc in H. destruct (alloc_all (st ++ [(r_in r, r_steps r)]) rs) as [st2 os2] eqn:E. injection H as <- <-. destruct (IH _ _ _ E) as (-> & R & F). split; [rewrite <- List.app_assoc; reflexivity|]. split.
  - cbn [map o_ref List.length seq]. f_equal. rewrite R. rewrite List.app_length. cbn. f_equal. lia.
  - constructor; [|exact F]. cbn. split; [reflexivity|]. split; [reflexivity|]. rewrite <- List.app_assoc. rewrite nth_error_app2 by lia. rewrite Nat.sub_diag. reflexivity.
Qed.

Notation autogen := (autogen_recipe known lookup img_load).
(** no template given: new recipes, nothing older is touched *)
Lemma autogen_fresh : forall shipped g db files outdir st st' os, autogen shipped g db files outdir None st = (st', Ok os) ->
  exists f fs names, mapW img_load files = Ok (f :: fs) /\ picks (map f_hdr (f :: fs)) (f_hdr f) names
  /\ (forall i, i < List.length st -> nth_error st' i = nth_error st i) /\ map o_ref os = seq (List.length st) (List.length os)
  /\ Forall2 (fun n o => exists r sts, shipped n = Some r /\ Forall2 (prepared (fill_now (r_cfg r) g) (g "skip_missing_cal_steps") (lookup db (RFrame f)) outdir) (r_steps r) sts
       /\ value_of st' o = Some (mkrec (r_name r) false (r_cfg r) (r_in r ++ files) outdir sts)) names os.
Proof.
  intros shipped g db files outdir st st' os H. unfold autogen_recipe in H. destruct files as [|p ps]; [discriminate|].
  destruct (mapW img_load (p :: ps)) as [frames|e] eqn:M; [|discriminate]. assert (N : exists f fs, frames = f :: fs) by (apply mapW_ok in M; inversion M; subst; eexists; eexists; reflexivity). destruct N as (f & fs & ->).
  unfold bind in H. destruct (guess_template (map f_hdr (f :: fs))) as [names|e] eqn:G; [|discriminate]. cbn [map] in G. apply guess_iff in G.
  destruct (mapW (fun n => match shipped n with Some r => Ok r | None => Raise PyException end) names) as [rs|e] eqn:Rs; [|discriminate]. apply mapW_ok in Rs.
  destruct (alloc_all st rs) as [st1 ts] eqn:Al. destruct (alloc_spec _ _ _ _ Al) as (E1 & R & F). 
  assert (ND : NoDup (map o_ref ts)) by (rewrite R; apply seq_NoDup). assert (A := all_ok _ _ _ _ _ _ _ _ _ ND H). assert (K := all_keep _ _ _ _ _ _ _ _ _ H).
  exists f, fs, names. split; [reflexivity|]. split; [exact G|]. split; [|split].
  - intros i Hi. rewrite K; [rewrite E1; apply nth_error_app1; exact Hi|]. intros t Ht E. assert (X : In i (map o_ref ts)) by (rewrite <- E; apply in_map; exact Ht). rewrite R in X. apply in_seq in X. lia.
  - assert (RO : map o_ref os = map o_ref ts). { clear - A. induction A as [|t o ts os (ins & sts & _ & -> & _) _ IH]; [reflexivity|]. cbn. rewrite IH. reflexivity. }
    rewrite RO, R. f_equal. rewrite <- (map_length o_ref os), RO, R, seq_length. reflexivity.
  - clear - A F Rs. revert rs ts F os A Rs. induction names as [|n names IH]; intros rs ts F os A Rs; inversion Rs as [|? r ? rs' Hr Rs']; subst; inversion F as [|? t ? ts' (N1 & N2 & N3) F']; subst; inversion A as [|? o ? os' (ins & sts & Hn & -> & sts' & P & V) A']; subst; [constructor|constructor; [|exact (IH _ _ F' _ A' Rs')]].
    rewrite N3 in Hn. injection Hn as <- <-. exists r, sts'. split; [destruct (shipped n) as [r'|]; [congruence|discriminate]|]. rewrite N2 in P. split; [exact P|]. unfold value_of. cbn [o_ref o_name o_tmpl o_cfg o_out]. rewrite V, N1, N2. reflexivity.
Qed.
Lemma autogen_empty : forall shipped g db outdir st, autogen shipped g db [] outdir None st = (st, Raise UnboundLocalError).
Proof. reflexivity. Qed.
(** a template object given: the recipe and the template share inputs and steps *)
Lemma autogen_given : forall shipped g db files outdir t st st' os, autogen shipped g db files outdir (Some t) st = (st', Ok os) ->
  exists frames ins sts sts' o, mapW img_load files = Ok frames /\ os = [o] /\ o_ref o = o_ref t /\ nth_error st (o_ref t) = Some (ins, sts)
  /\ Forall2 (prepared (fill_now (o_cfg t) g) (g "skip_missing_cal_steps") (lookup db (match frames with [] => RNone | f :: _ => RFrame f end)) outdir) sts sts'
  /\ value_of st' o = Some (mkrec (o_name t) false (o_cfg t) (ins ++ files) outdir sts') /\ value_of st' t = Some (mkrec (o_name t) (o_tmpl t) (o_cfg t) (ins ++ files) (o_out t) sts')
  /\ (forall i, i <> o_ref t -> nth_error st' i = nth_error st i) /\ List.length st' = List.length st.
Proof.
  intros shipped g db files outdir t st st' os H. unfold autogen_recipe in H.
  destruct (match files with [] => Ok [] | _ :: _ => mapW img_load files end) as [frames|e] eqn:M; [|discriminate]. assert (M' : mapW img_load files = Ok frames) by (destruct files; [cbn in *; exact M|exact M]).
  apply all_one in H. destruct H as (o & -> & H). apply one_iff in H. destruct H as (ins & sts & sts' & Hn & F & -> & ->).
  assert (L : o_ref t < List.length st) by (apply nth_error_Some; congruence).
  exists frames, ins, sts, sts', (mkro (o_name t) false (o_cfg t) outdir (o_ref t)). split; [exact M'|]. split; [reflexivity|]. split; [reflexivity|]. split; [exact Hn|]. split; [exact F|].
  unfold value_of. cbn [o_ref o_name o_tmpl o_cfg o_out]. rewrite nth_set_same by exact L. split; [reflexivity|]. split; [reflexivity|]. split; [intros i N; apply nth_set_other; congruence|apply set_nth_length].
Qed.
Lemma autogen_failed : forall shipped g db files outdir t st st' e frames, autogen shipped g db files outdir (Some t) st = (st', Raise e) -> mapW img_load files = Ok frames -> o_ref t < List.length st ->
  exists ins sts sts', nth_error st (o_ref t) = Some (ins, sts) /\ nth_error st' (o_ref t) = Some (ins ++ files, sts').
Proof.
  intros shipped g db files outdir t st st' e frames H M L. unfold autogen_recipe in H. assert (M' : match files with [] => Ok [] | _ :: _ => mapW img_load files end = Ok frames) by (destruct files; [cbn in *; exact M|exact M]). rewrite M' in H.
  cbn [WalkModel.autogen_all] in H. destruct (autogen_one g db (match frames with [] => RNone | f :: _ => RFrame f end) files outdir st t) as [st1 [o|e']] eqn:E; [discriminate|]. injection H as <- ->. destruct (one_store _ _ _ _ _ _ _ _ _ E L) as (_ & _ & X). exact X.
Qed.
(** a sequence of calls with one template object *)
Notation many := (many known lookup img_load).
Lemma many_inputs : forall shipped g t st l st' os, many shipped g t st l st' os -> forall r0, value_of st t = Some r0 ->
  (exists r, value_of st' t = Some r /\ r_in r = r_in r0 ++ List.concat (map (fun x => snd (fst x)) l))
  /\ forall o, In o os -> exists r, value_of st' o = Some r /\ r_in r = r_in r0 ++ List.concat (map (fun x => snd (fst x)) l).
Proof.
  intros shipped g t st l st' os H.
  assert (G : forall r0, value_of st t = Some r0 -> (exists r, value_of st' t = Some r /\ r_in r = r_in r0 ++ List.concat (map (fun x => snd (fst x)) l)) /\ forall o, In o os -> o_ref o = o_ref t).
  { induction H as [st|st db files outdir st1 o l st2 os A M IH]; intros r0 V; [split; [exists r0; split; [exact V|symmetry; apply List.app_nil_r]|intros o []]|].
    apply autogen_given in A. destruct A as (frames & ins & sts & sts' & o' & _ & Eo & Er & Hn & _ & _ & Vt & _). injection Eo as <-. destruct (IH _ Vt) as [(r & Vr & Ei) R]. split.
    - exists r. split; [exact Vr|]. rewrite Ei. cbn [r_in map List.concat fst snd]. unfold value_of in V. rewrite Hn in V. injection V as <-. cbn [r_in]. symmetry. apply List.app_assoc.
    - intros x [<-|Hx]; [exact Er|exact (R x Hx)]. }
  intros r0 V. destruct (G r0 V) as [(r & Vr & Ei) R]. split; [exists r; split; assumption|]. intros o Ho. unfold value_of in *. rewrite (R o Ho). destruct (nth_error st' (o_ref t)) as [[ins sts]|]; [|discriminate]. eexists. split; [reflexivity|]. injection Vr as <-. exact Ei.
Qed.
(** an automatic entry without a calibration: the recipe generated first works,
    the next generation from the same object fails *)
Lemma prepared_none : forall fill sm find outdir s k, (exists l, s_calibs s = Some l /\ In (k, None) l) -> fill = true -> forall s', ~ prepared fill sm find outdir s s'.
Proof.
  intros fill sm find outdir s k (l & C & Hi) -> s' (s1 & F & _). unfold fill_spec in F. rewrite C in F. destruct F as (l' & b & F & _). clear C. induction F as [|x x' b l l' b' Fx _ IH]; [destruct Hi|]. destruct Hi as [->|Hi]; [inversion Fx|exact (IH Hi)].
Qed.
Lemma none_blocks : forall shipped g db files outdir t st ins sts s k l, nth_error st (o_ref t) = Some (ins, sts) -> fill_now (o_cfg t) g = true -> In s sts -> s_calibs s = Some l -> In (k, None) l ->
  forall st' os, autogen shipped g db files outdir (Some t) st <> (st', Ok os).
Proof.
  intros shipped g db files outdir t st ins sts s k l Hn Hf Hs Hc Hk st' os H. apply autogen_given in H. destruct H as (frames & ins' & sts0 & sts' & o & _ & _ & _ & Hn' & F & _). rewrite Hn in Hn'. injection Hn' as <- <-.
  clear - F Hf Hs Hc Hk. induction F as [|x y m m' P _ IH]; [destruct Hs|]. destruct Hs as [->|Hs]; [|exact (IH Hs)]. eapply prepared_none; [|exact Hf|exact P]. exists l. split; eassumption.
Qed.
End Gen.
