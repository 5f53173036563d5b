(** The ends of the calibrations meet their specification. *)
From Coq Require Import List Arith Bool String ZArith Lia.
From Verif Require Import Base DiskModel DiskSpec DiskProofs DiskLawProofs ProdModel ProdSpec ProdTextProofs ProdProofs ProdLawProofs ProdNewProofs ReuseModel ReuseSpec.
Import ListNotations.
Local Open Scope nat_scope.
Local Open Scope string_scope.
Local Open Scope list_scope.

Section Reuse.
Variable order : list string -> list string.
Hypothesis ORDER : forall l, NoDup (order l) /\ forall s, In s (order l) <-> In s l.
Variable show : hv -> string.
Variable version : string.
Notation calibrate := (calibrate order show version).
Notation calls := (calls order show version).
Notation calls_ok := (calls_ok order show version).
Notation steps := (steps order show version).

Lemma upd_same a x h : upd a x h a = x.
Proof using. unfold upd. rewrite Nat.eqb_refl. reflexivity. Qed.
Lemma upd_other a x h b : a <> b -> upd a x h b = h b.
Proof using. intros N. unfold upd. destruct (Nat.eqb a b) eqn:Q; [apply Nat.eqb_eq in Q; contradiction|reflexivity]. Qed.
Lemma get_add_hist k s h : get k (add_hist s h) = get k h.
Proof using. reflexivity. Qed.
Lemma get_new k v h j : get j (set_new k v h) = match get j h with Some w => Some w | None => if String.eqb k j then Some v else None end.
Proof using.
  unfold set_new, has. destruct (get k h) eqn:G.
  - destruct (get j h) eqn:J; [reflexivity|]. destruct (String.eqb k j) eqn:Q; [apply String.eqb_eq in Q; congruence|reflexivity].
  - rewrite get_set. destruct (String.eqb k j) eqn:Q; [apply String.eqb_eq in Q; subst j; rewrite G; reflexivity|]. destruct (get j h); reflexivity.
Qed.

(** ** Steps *)
Definition safe (a : nat) (P : string -> Prop) (s : step) : Prop := forall h x, s h = Ok x -> forall k, P k -> get k x = get k (h a).
Definition longer (a : nat) (s : step) : Prop := forall h x, s h = Ok x -> comm x = comm (h a) /\ exists t, hist x = hist (h a) ++ t.
Definition keeps (a : nat) (k : string) (v : hv) (s : step) : Prop := forall h x, s h = Ok x -> get k (h a) = Some v -> get k x = Some v.
Definition gives (k : string) (v : hv) (s : step) : Prop := forall h x, s h = Ok x -> get k x = Some v.

Lemma tell_ok a ks text h x : tell show a ks text h = Ok x -> exists s, x = add_hist s (h a).
Proof using. unfold tell. intros H. apply bind_iff in H. destruct H as (vs & _ & H). injection H as <-. eexists. reflexivity. Qed.
Lemma tell_can a ks text h : (exists x, tell show a ks text h = Ok x) <-> Forall (fun k => get k (h a) <> None) ks.
Proof using.
  assert (F : (exists vs, fold_right (fun k r => do v <- card k (h a); do t <- r; Ok (show v :: t)) (Ok []) ks = Ok vs) <-> Forall (fun k => get k (h a) <> None) ks).
  { induction ks as [|k ks IH]; cbn [fold_right]; [split; [constructor|eexists; reflexivity]|]. split.
    - intros (vs & H). apply bind_iff in H. destruct H as (v & V & H). apply bind_iff in H. destruct H as (t & T & H). constructor; [|apply IH; exists t; exact T]. unfold card in V. destruct (get k (h a)); discriminate.
    - intros H. inversion H as [|? ? K R]; subst. apply IH in R. destruct R as (t & T). destruct (get k (h a)) as [v|] eqn:G; [|contradiction]. exists (show v :: t). apply bind_iff. exists v. split; [unfold card; rewrite G; reflexivity|]. apply bind_iff. exists t. split; [exact T|reflexivity]. }
  rewrite <- F. unfold tell. split; intros (y & H).
  - apply bind_iff in H. destruct H as (vs & V & _). exists vs. exact V.
  - eexists. apply bind_iff. exists y. split; [exact H|reflexivity].
Qed.

Lemma safe_set a P k v : ~ P k -> safe a P (edit a (set k v)).
Proof using. intros N h x H j J. injection H as <-. rewrite get_set. destruct (String.eqb k j) eqn:Q; [apply String.eqb_eq in Q; subst; contradiction|reflexivity]. Qed.
Lemma safe_new a P k v : ~ P k -> safe a P (edit a (set_new k v)).
Proof using. intros N h x H j J. injection H as <-. rewrite get_new. destruct (get j (h a)); [reflexivity|]. destruct (String.eqb k j) eqn:Q; [apply String.eqb_eq in Q; subst; contradiction|reflexivity]. Qed.
Lemma safe_hist a P s : safe a P (edit a (add_hist s)).
Proof using. intros h x H j J. injection H as <-. reflexivity. Qed.
Lemma safe_tell a P ks text : safe a P (tell show a ks text).
Proof using. intros h x H j J. apply tell_ok in H. destruct H as (s & ->). reflexivity. Qed.
Lemma safe_record a (P : string -> Prop) d : (forall k, P k -> ~ is_file k) -> safe a P (record order a d).
Proof using ORDER. intros N h x H j J. destruct (record_ok order ORDER _ _ _ H) as (_ & u & _ & _ & _ & G). rewrite G. apply recg_not. apply N. exact J. Qed.
Lemma safe_if a (P : string -> Prop) d : (forall k, P k -> ~ is_file k) -> safe a P (fun h => if has "DRPNFILE" (h a) then Ok (h a) else record order a d h).
Proof using ORDER. intros N h x H. destruct (has "DRPNFILE" (h a)); [injection H as <-; reflexivity|]. exact (safe_record a P d N h x H). Qed.
Lemma safe_keeps a k v s : safe a (eq k) s -> keeps a k v s.
Proof using. intros S h x H G. rewrite (S h x H k eq_refl). exact G. Qed.
Lemma new_keeps a k v w : keeps a k v (edit a (set_new k w)).
Proof using. intros h x H G. injection H as <-. rewrite get_new, G. reflexivity. Qed.
Lemma set_gives a k v : gives k v (edit a (set k v)).
Proof using. intros h x H. injection H as <-. rewrite get_set, String.eqb_refl. reflexivity. Qed.
Lemma longer_set a k v : longer a (edit a (set k v)).
Proof using. intros h x H. injection H as <-. split; [reflexivity|]. exists []. rewrite app_nil_r. reflexivity. Qed.
Lemma longer_new a k v : longer a (edit a (set_new k v)).
Proof using. intros h x H. injection H as <-. unfold set_new. destruct (has k (h a)); (split; [reflexivity|]; exists []; rewrite app_nil_r; reflexivity). Qed.
Lemma longer_hist a s : longer a (edit a (add_hist s)).
Proof using. intros h x H. injection H as <-. split; [reflexivity|]. eexists. reflexivity. Qed.
Lemma longer_tell a ks text : longer a (tell show a ks text).
Proof using. intros h x H. apply tell_ok in H. destruct H as (s & ->). split; [reflexivity|]. eexists. reflexivity. Qed.
Lemma longer_record a d : longer a (record order a d).
Proof using ORDER. intros h x H. destruct (record_ok order ORDER _ _ _ H) as (_ & u & _ & A & B & _). split; [exact B|]. exists []. rewrite app_nil_r. exact A. Qed.
Lemma longer_if a d : longer a (fun h => if has "DRPNFILE" (h a) then Ok (h a) else record order a d h).
Proof using ORDER. intros h x H. destruct (has "DRPNFILE" (h a)); [injection H as <-; split; [reflexivity|]; exists []; rewrite app_nil_r; reflexivity|]. exact (longer_record a d h x H). Qed.

(** ** Runs *)
Lemma run_other a l : forall h h' o b, run a l h = (h', o) -> a <> b -> h' b = h b.
Proof using.
  induction l as [|s l IH]; intros h h' o b R N; cbn [run] in R; [injection R as <- <-; reflexivity|]. destruct (s h) as [x|e]; [|injection R as <- <-; reflexivity]. rewrite (IH _ _ _ _ R N). apply upd_other. exact N.
Qed.
Lemma run_safe a P l : Forall (safe a P) l -> forall h h' o, run a l h = (h', o) -> forall k, P k -> get k (h' a) = get k (h a).
Proof using.
  induction 1 as [|s l S F IH]; intros h h' o R k K; cbn [run] in R; [injection R as <- <-; reflexivity|]. destruct (s h) as [x|e] eqn:Q; [|injection R as <- <-; reflexivity]. rewrite (IH _ _ _ R k K), upd_same. exact (S _ _ Q k K).
Qed.
Lemma run_longer a l : Forall (longer a) l -> forall h h' o, run a l h = (h', o) -> comm (h' a) = comm (h a) /\ exists t, hist (h' a) = hist (h a) ++ t.
Proof using.
  assert (Z : forall e : hdr, comm e = comm e /\ exists t, hist e = hist e ++ t) by (intros e; split; [reflexivity|]; exists []; rewrite app_nil_r; reflexivity).
  induction 1 as [|s l S F IH]; intros h h' o R; cbn [run] in R; [injection R as <- <-; apply Z|]. destruct (s h) as [x|e] eqn:Q; [|injection R as <- <-; apply Z]. destruct (IH _ _ _ R) as (A & t & B). rewrite upd_same in A, B. destruct (S _ _ Q) as (C & u & D). split; [congruence|]. exists (u ++ t). rewrite B, D, app_assoc. reflexivity.
Qed.
Lemma run_keeps a k v l : Forall (keeps a k v) l -> forall h h', run a l h = (h', None) -> get k (h a) = Some v -> get k (h' a) = Some v.
Proof using.
  induction 1 as [|s l S F IH]; intros h h' R G; cbn [run] in R; [injection R as <-; exact G|]. destruct (s h) as [x|e] eqn:Q; [|discriminate]. apply (IH _ _ R). rewrite upd_same. exact (S _ _ Q G).
Qed.
Inductive Puts (a : nat) (k : string) (v : hv) : list step -> Prop :=
| put_here s t : gives k v s -> Forall (keeps a k v) t -> Puts a k v (s :: t)
| put_later s t : Puts a k v t -> Puts a k v (s :: t).
Lemma run_puts a k v l : Puts a k v l -> forall h h', run a l h = (h', None) -> get k (h' a) = Some v.
Proof using.
  induction 1 as [s t G K|s t P IH]; intros h h' R; cbn [run] in R; destruct (s h) as [x|e] eqn:Q; try discriminate.
  - apply (run_keeps a k v t K _ _ R). rewrite upd_same. exact (G _ _ Q).
  - exact (IH _ _ R).
Qed.
Lemma run_app a l1 l2 : forall h h', run a (l1 ++ l2) h = (h', None) <-> exists h1, run a l1 h = (h1, None) /\ run a l2 h1 = (h', None).
Proof using.
  induction l1 as [|s l IH]; intros h h'; cbn [app run]; [split; [intros H; exists h; split; [reflexivity|exact H]|intros (h1 & A & B); injection A as ->; exact B]|]. destruct (s h) as [x|e]; [apply IH|]. split; [discriminate|intros (h1 & A & _); discriminate].
Qed.

(** ** What the steps of each calibration do *)
Definition others (k : tail) (j : string) : Prop := ~ is_file j /\ ~ In j (writes k).
Ltac notin := let N := fresh in intros (_ & N); apply N; cbn; tauto.
Ltac each := repeat (first [apply Forall_nil | apply Forall_cons]).
Lemma steps_safe k now d a : Forall (safe a (others k)) (steps k now d a).
Proof using ORDER.
  destruct k; cbn [ReuseModel.steps]; unfold kgain_steps, nonlin_steps, dark_steps, trap_steps, start; cbn [app]; each;
  first [apply safe_hist | apply safe_tell | apply safe_record; intros ? (? & _); assumption | apply safe_if; intros ? (? & _); assumption | apply safe_set; notin | apply safe_new; notin].
Qed.
Lemma steps_longer k now d a : Forall (longer a) (steps k now d a).
Proof using ORDER.
  destruct k; cbn [ReuseModel.steps]; unfold kgain_steps, nonlin_steps, dark_steps, trap_steps, start; cbn [app]; each;
  first [apply longer_hist | apply longer_tell | apply longer_record | apply longer_if | apply longer_set | apply longer_new].
Qed.
Lemma not_file_DR k : is_file k -> k = "DRPNFILE" \/ exists n, k = ("FILE" ++ decimal n)%string.
Proof using. intros H. exact H. Qed.
Ltac nofile := let F := fresh in intros ? <- F; apply not_file_DR in F; destruct F as [F|(? & F)]; discriminate F.
Ltac keep := first [apply new_keeps | apply safe_keeps; first [apply safe_hist | apply safe_tell | apply safe_record; nofile | apply safe_if; nofile | apply safe_set; discriminate | apply safe_new; discriminate]].
Ltac put := first [apply put_here; [apply set_gives|each; keep] | apply put_later; put].
Lemma steps_puts k now d a j v : In (j, v) (puts version k now) -> Puts a j v (steps k now d a).
Proof using ORDER.
  destruct k; cbn [ReuseModel.steps]; unfold kgain_steps, nonlin_steps, dark_steps, trap_steps, start, puts; cbn [app In]; intros H;
  repeat (destruct H as [H|H]; [injection H as <- <-; put|]); destruct H.
Qed.

(** ** Parents *)
Definition same_files (h1 h : heap) : Prop := forall b k, is_file k -> get k (h1 b) = get k (h b).
Lemma run_same a l h h1 o : Forall (safe a is_file) l -> run a l h = (h1, o) -> same_files h1 h.
Proof using.
  intros F R b k K. destruct (Nat.eq_dec a b) as [<-|N]; [exact (run_safe a is_file l F h h1 o R k K)|]. rewrite (run_other a l h h1 o b R N). reflexivity.
Qed.
Lemma is_file_n : is_file "DRPNFILE".
Proof using. left. reflexivity. Qed.
Lemma is_file_i i : is_file ("FILE" ++ decimal i)%string.
Proof using. right. exists i. reflexivity. Qed.
Lemma named_same h1 h f s : same_files h1 h -> (named_by (mkpar (fr_name f) (h1 (fr_at f))) s <-> named_by (mkpar (fr_name f) (h (fr_at f))) s).
Proof using.
  intros S. unfold named_by. cbn [pa_name pa_ext]. rewrite (S _ _ is_file_n). split; (intros [H|(n & j & A & B & C)]; [left; exact H|right; exists n, j; split; [exact A|]; split; [exact B|]; first [rewrite <- (S _ _ (is_file_i j))|rewrite (S _ _ (is_file_i j))]; exact C]).
Qed.
Lemma names_same h1 h d s : same_files h1 h -> ((exists p, In p (parents h1 d) /\ named_by p s) <-> exists p, In p (parents h d) /\ named_by p s).
Proof using.
  intros S. unfold parents. split; intros (p & I & N); apply in_map_iff in I; destruct I as (f & <- & I); (eexists; split; [apply in_map_iff; exists f; split; [reflexivity|exact I]|]); apply (named_same h1 h f s S); exact N.
Qed.
Lemma listed_same h1 h d : same_files h1 h -> (Forall listed (parents h1 d) <-> Forall listed (parents h d)).
Proof using.
  intros S. unfold parents. rewrite !Forall_map, !Forall_forall. assert (Q : forall f, listed (mkpar (fr_name f) (h1 (fr_at f))) <-> listed (mkpar (fr_name f) (h (fr_at f)))).
  { intros f. unfold listed. cbn [pa_ext]. rewrite (S _ _ is_file_n). split; (intros [H|(n & A & B)]; [left; exact H|right; exists n; split; [exact A|]; intros j J; destruct (B j J) as (s & G); exists s; first [rewrite <- (S _ _ (is_file_i j))|rewrite (S _ _ (is_file_i j))]; exact G]). }
  split; intros H f I; apply Q; exact (H f I).
Qed.
Lemma run_parents a d l1 s l2 h h' : Forall (safe a is_file) l1 -> Forall (safe a is_file) l2 -> (forall h1, same_files h1 h -> s h1 = record order a d h1) ->
  run a (l1 ++ s :: l2) h = (h', None) -> parents_in (parents h d) (h a) (h' a).
Proof using ORDER.
  intros F1 F2 SR R. apply run_app in R. destruct R as (h1 & R1 & R). pose proof (run_same a l1 h h1 None F1 R1) as S1. cbn [run] in R. rewrite (SR h1 S1) in R. destruct (record order a d h1) as [x|e] eqn:Q; [|discriminate].
  destruct (record_ok order ORDER _ _ _ Q) as (_ & u & (U1 & U2) & _ & _ & G).
  assert (E : forall k, is_file k -> get k (h' a) = recg u k (get k (h a))). { intros k K. rewrite (run_safe a is_file l2 F2 _ _ _ R k K), upd_same, G, (S1 a k K). reflexivity. }
  exists u. split; [exact U1|]. split; [intros s0; rewrite U2; apply names_same; exact S1|]. split; [rewrite (E _ is_file_n); reflexivity|]. split.
  - intros i I. destruct (nth_error u i) as [w|] eqn:W; [|apply nth_error_None in W; lia]. exists w. split; [reflexivity|]. rewrite (E _ (is_file_i i)), recg_file, W. reflexivity.
  - intros i I. rewrite (E _ (is_file_i i)), recg_file. destruct (nth_error u i) as [w|] eqn:W; [|reflexivity]. assert (nth_error u i <> None) as L by congruence. apply nth_error_Some in L. lia.
Qed.
Ltac notfile := let F := fresh in intros F; apply not_file_DR in F; destruct F as [F|(? & F)]; discriminate F.
Ltac filesafe := each; first [apply safe_hist | apply safe_tell | apply safe_set; notfile | apply safe_new; notfile].
Definition pre (k : tail) (now : string) (a : nat) : list step :=
  match k with
  | TKgain rn rn_err => firstn 11 (kgain_steps order show version rn rn_err now [] a)
  | TNonlin => firstn 7 (nonlin_steps order show version now [] a)
  | TDark nx ny => firstn 11 (dark_steps order show version nx ny now [] a)
  | TTrap => firstn 6 (trap_steps order show version now [] a)
  end.
Definition mid (k : tail) (d : list frame) (a : nat) : step :=
  match k with TDark _ _ => fun h => if has "DRPNFILE" (h a) then Ok (h a) else record order a d h | _ => record order a d end.
Definition post (k : tail) (now : string) (a : nat) : list step :=
  match k with
  | TKgain rn rn_err => skipn 12 (kgain_steps order show version rn rn_err now [] a)
  | TNonlin => skipn 8 (nonlin_steps order show version now [] a)
  | TDark nx ny => skipn 12 (dark_steps order show version nx ny now [] a)
  | TTrap => skipn 7 (trap_steps order show version now [] a)
  end.
Lemma steps_split k now d a : steps k now d a = pre k now a ++ mid k d a :: post k now a.
Proof using. destruct k; reflexivity. Qed.
Lemma pre_safe k now a : Forall (safe a is_file) (pre k now a).
Proof using. destruct k; cbn [pre firstn kgain_steps nonlin_steps dark_steps trap_steps start app]; filesafe. Qed.
Lemma post_safe k now a : Forall (safe a is_file) (post k now a).
Proof using. destruct k; cbn [post skipn kgain_steps nonlin_steps dark_steps trap_steps start app]; filesafe. Qed.
Lemma mid_records k d a h h1 : records k (h a) -> same_files h1 h -> mid k d a h1 = record order a d h1.
Proof using. intros K S. destruct k; cbn [mid]; try reflexivity. cbn in K. unfold has. rewrite (S a _ is_file_n), K. reflexivity. Qed.
Lemma mid_not k d a h h1 : ~ records k (h a) -> same_files h1 h -> mid k d a h1 = Ok (h1 a).
Proof using. intros K S. destruct k; cbn [mid records] in *; try (exfalso; apply K; exact I). unfold has. rewrite (S a _ is_file_n). destruct (get "DRPNFILE" (h a)); [reflexivity|contradiction]. Qed.
Lemma records_dec k e : records k e \/ ~ records k e.
Proof using. destruct k; cbn; try (left; exact I). destruct (get "DRPNFILE" e); [right; discriminate|left; reflexivity]. Qed.
Lemma stale_files k now d a h h' : ~ records k (h a) -> run a (steps k now d a) h = (h', None) -> forall j, is_file j -> get j (h' a) = get j (h a).
Proof using.
  intros K R j J. rewrite steps_split in R. apply run_app in R. destruct R as (h1 & R1 & R). pose proof (run_same a _ h h1 None (pre_safe k now a) R1) as S1. cbn [run] in R. rewrite (mid_not k d a h h1 K S1) in R. rewrite (run_safe a is_file _ (post_safe k now a) _ _ _ R j J), upd_same. apply S1. exact J.
Qed.

(** ** Success *)
Definition total (s : step) : Prop := forall h, exists x, s h = Ok x.
Lemma total_edit a g : total (edit a g).
Proof using. intros h. eexists. reflexivity. Qed.
Lemma run_total a l : Forall total l -> forall h, exists h', run a l h = (h', None).
Proof using. induction 1 as [|s l T F IH]; intros h; [exists h; reflexivity|]. cbn [run]. destruct (T h) as (x & ->). apply IH. Qed.
Ltac totals := each; apply total_edit.
Ltac othersafe := each; first [apply safe_hist | apply safe_tell | apply safe_set; discriminate | apply safe_new; discriminate].
Lemma tell_run a e1 ks text e2 h : Forall total e1 -> Forall total e2 -> (forall k, In k ks -> Forall (safe a (eq k)) e1) ->
  ((exists h', run a (e1 ++ tell show a ks text :: e2) h = (h', None)) <-> Forall (fun k => get k (h a) <> None) ks).
Proof using.
  intros T1 T2 S. destruct (run_total a e1 T1 h) as (h1 & R1).
  assert (Q : Forall (fun k => get k (h1 a) <> None) ks <-> Forall (fun k => get k (h a) <> None) ks). { rewrite !Forall_forall. split; intros H k K; [rewrite <- (run_safe a (eq k) e1 (S k K) _ _ _ R1 k eq_refl)|rewrite (run_safe a (eq k) e1 (S k K) _ _ _ R1 k eq_refl)]; exact (H k K). }
  rewrite <- Q, <- (tell_can a ks text h1). split.
  - intros (h' & R). apply run_app in R. destruct R as (h2 & A & B). rewrite R1 in A. injection A as <-. cbn [run] in B. destruct (tell show a ks text h1) as [x|e]; [exists x; reflexivity|discriminate].
  - intros (x & X). destruct (run_total a e2 T2 (upd a x h1)) as (h' & R2). exists h'. apply run_app. exists h1. split; [exact R1|]. cbn [run]. rewrite X. exact R2.
Qed.
Definition early (k : tail) : list string := match k with TKgain _ _ | TNonlin => ["DATETIME"] | _ => [] end.
Definition late (k : tail) : list string := match k with TDark _ _ => ["EXPTIME"; "EMGAIN_C"; "DRPNFILE"] | TTrap => ["DRPNFILE"] | _ => [] end.
Lemma pre_can k now a h : (exists h', run a (pre k now a) h = (h', None)) <-> Forall (fun j => get j (h a) <> None) (early k).
Proof using.
  destruct k; cbn [pre early].
  - apply (tell_run a (firstn 3 (kgain_steps order show version rn rn_err now [] a)) ["DATETIME"] _ (firstn 7 (skipn 4 (kgain_steps order show version rn rn_err now [] a)))); cbn [firstn skipn kgain_steps start app]; [totals|totals|intros k [<-|[]]; othersafe].
  - apply (tell_run a [] ["DATETIME"] _ (firstn 6 (skipn 1 (nonlin_steps order show version now [] a)))); cbn [firstn skipn nonlin_steps start app]; [totals|totals|intros k [<-|[]]; othersafe].
  - split; [intros _; constructor|intros _; apply run_total; cbn [firstn dark_steps start app]; totals].
  - split; [intros _; constructor|intros _; apply run_total; cbn [firstn trap_steps start app]; totals].
Qed.
Lemma post_can k now a h : (exists h', run a (post k now a) h = (h', None)) <-> Forall (fun j => get j (h a) <> None) (late k).
Proof using.
  destruct k; cbn [post late].
  - split; [intros _; constructor|intros _; apply run_total; cbn [skipn kgain_steps start app]; totals].
  - split; [intros _; constructor|intros _; apply run_total; cbn [skipn nonlin_steps start app]; totals].
  - apply (tell_run a [] ["EXPTIME"; "EMGAIN_C"; "DRPNFILE"] _ (skipn 13 (dark_steps order show version nx ny now [] a))); cbn [skipn dark_steps start app]; [totals|totals|intros; constructor].
  - apply (tell_run a [] ["DRPNFILE"] _ (skipn 8 (trap_steps order show version now [] a))); cbn [skipn trap_steps start app]; [totals|totals|intros; constructor].
Qed.
Lemma pre_keeps k now a j : In j ["DATETIME"; "EXPTIME"; "EMGAIN_C"] -> Forall (safe a (eq j)) (pre k now a).
Proof using. intros H. destruct k; cbn [pre firstn kgain_steps nonlin_steps dark_steps trap_steps start app]; cbn [In] in H; (destruct H as [<-|[<-|[<-|[]]]]; othersafe). Qed.
Lemma mid_keeps k d a j : In j ["DATETIME"; "EXPTIME"; "EMGAIN_C"] -> safe a (eq j) (mid k d a).
Proof using ORDER.
  intros H. assert (N : forall i, j = i -> ~ is_file i). { intros i <- F. apply not_file_DR in F. cbn [In] in H. destruct H as [<-|[<-|[<-|[]]]]; destruct F as [F|(? & F)]; discriminate F. }
  destruct k; cbn [mid]; first [apply safe_record; exact N | apply safe_if; exact N].
Qed.
Lemma steps_can k now d a h : (exists h', run a (steps k now d a) h = (h', None)) <-> Forall (fun j => get j (h a) <> None) (needs k) /\ (records k (h a) -> Forall listed (parents h d)).
Proof using ORDER.
  rewrite steps_split.
  assert (M : forall h1, same_files h1 h -> (exists x, mid k d a h1 = Ok x) <-> (records k (h a) -> Forall listed (parents h d))).
  { intros h1 S. destruct (records_dec k (h a)) as [K|K].
    - rewrite (mid_records k d a h h1 K S), <- (listed_same h1 h d S). split; [intros (x & X) _; exact (proj1 (record_ok order ORDER _ _ _ X))|intros L; exact (record_can order _ _ (L K))].
    - rewrite (mid_not k d a h h1 K S). split; [intros _ L; contradiction|intros _; eexists; reflexivity]. }
  assert (DN : forall h1 x, same_files h1 h -> mid k d a h1 = Ok x -> get "DRPNFILE" x <> None \/ ~ In "DRPNFILE" (late k)).
  { intros h1 x S X. destruct (records_dec k (h a)) as [K|K].
    - left. rewrite (mid_records k d a h h1 K S) in X. destruct (record_ok order ORDER _ _ _ X) as (_ & u & _ & _ & _ & G). rewrite G. discriminate.
    - left. rewrite (mid_not k d a h h1 K S) in X. injection X as <-. rewrite (S a _ is_file_n). destruct k; cbn in K; try (exfalso; apply K; exact I). exact K. }
  assert (SP : Forall (fun j => get j (h a) <> None) (needs k) <-> Forall (fun j => get j (h a) <> None) (early k) /\ forall j, In j (late k) -> j <> "DRPNFILE" -> get j (h a) <> None).
  { rewrite !Forall_forall. destruct k; cbn [needs early late In]; (split; [intros H; split; [intros j J; apply H; tauto|intros j J N; apply H; intuition congruence]|intros (A & B) j J; first [apply A; tauto|apply B; [tauto|destruct J as [<-|[<-|[]]]; discriminate]]]). }
  assert (KE : forall h1 x j, run a (pre k now a) h = (h1, None) -> mid k d a h1 = Ok x -> In j (late k) -> j <> "DRPNFILE" -> get j x = get j (h a)).
  { intros h1 x j R1 X J N. assert (IN : In j ["DATETIME"; "EXPTIME"; "EMGAIN_C"]) by (destruct k; cbn [late In] in J |- *; intuition congruence). rewrite (mid_keeps k d a j IN h1 x X j eq_refl). exact (run_safe a (eq j) _ (pre_keeps k now a j IN) _ _ _ R1 j eq_refl). }
  split.
  - intros (h' & R). apply run_app in R. destruct R as (h1 & R1 & R). pose proof (run_same a _ h h1 None (pre_safe k now a) R1) as S1. cbn [run] in R. destruct (mid k d a h1) as [x|e] eqn:X; [|discriminate]. split; [|apply (M h1 S1); exists x; exact X]. apply SP. split; [apply (pre_can k now a h); exists h1; exact R1|]. intros j J N. pose proof (proj1 (post_can k now a (upd a x h1)) (ex_intro _ h' R)) as P. rewrite Forall_forall in P. specialize (P j J). rewrite upd_same in P. rewrite <- (KE h1 x j R1 X J N). exact P.
  - intros (A & B). apply SP in A. destruct A as (A1 & A2). destruct (proj2 (pre_can k now a h) A1) as (h1 & R1). pose proof (run_same a _ h h1 None (pre_safe k now a) R1) as S1. destruct (proj2 (M h1 S1) B) as (x & X). destruct (proj2 (post_can k now a (upd a x h1))) as (h' & R2).
    + rewrite Forall_forall. intros j J. rewrite upd_same. destruct (string_dec j "DRPNFILE") as [->|N]; [destruct (DN h1 x S1 X) as [D|D]; [exact D|contradiction]|]. rewrite (KE h1 x j R1 X J N). exact (A2 j J N).
    + exists h'. apply run_app. exists h1. split; [exact R1|]. cbn [run]. rewrite X. exact R2.
Qed.
End Reuse.
