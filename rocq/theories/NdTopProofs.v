(** The calibration as a whole. *)
From Coq Require Import List Arith Bool Reals String Sorted Permutation Lia Lra.
From Verif Require Import Base DqModel DqProofs AngleModel ComboSpec ComboProofs SplitSpec SortGroupProofs NdModel NdSpec NdProofs NdRunProofs.
Import ListNotations.
Local Open Scope R_scope.

Lemma ne_cons : forall A (l : list A), l <> [] -> exists x t, l = x :: t.
Proof. intros A [|x t] N; [congruence|eauto]. Qed.
Lemma sum_perm : forall l m, Permutation l m -> sum l = sum m.
Proof. intros l m P. unfold sum. induction P; cbn [fold_right]; lra. Qed.
Lemma flat_perm : forall D key (l : list (frame D)) ks, NoDup ks -> Permutation (flat_map (fun k => filter (has_name D key k) l) ks) (filter (fun f => existsb (fun k => has_name D key k f) ks) l).
Proof.
  intros D key l ks N. induction N as [|k ks K N IH]; cbn [flat_map existsb]; [rewrite filter_none; [reflexivity|reflexivity]|].
  rewrite IH. apply filter_or_perm. intros x _ H. apply has_name_iff in H. destruct (existsb (fun k0 => has_name D key k0 x) ks) eqn:E; [|reflexivity]. apply existsb_exists in E. destruct E as (k' & I & H'). apply has_name_iff in H'. congruence.
Qed.
Lemma Forall2_flat : forall A B T (P : A -> B -> Prop) (F : T -> list A) ts m, Forall2 P (flat_map F ts) m <-> exists ms, Forall2 (fun t o => Forall2 P (F t) o) ts ms /\ m = List.concat ms.
Proof.
  intros A B T P F. induction ts as [|t ts IH]; intros m; cbn [flat_map].
  - split; [intros H; inversion H; subst; exists []; split; [constructor|reflexivity]|]. intros (ms & H & ->). inversion H; subst. constructor.
  - split.
    + intros H. apply Forall2_app_inv_l in H. destruct H as (a & b & H1 & H2 & ->). apply IH in H2. destruct H2 as (ms & H2 & ->). exists (a :: ms). split; [constructor; assumption|reflexivity].
    + intros (ms & H & ->). inversion H as [|? o ? ms' H1 H2]; subst. cbn [List.concat]. apply Forall2_app; [exact H1|]. apply IH. eauto.
Qed.
Lemma combine_app : forall A B (a1 a2 : list A) (b1 b2 : list B), List.length a1 = List.length b1 -> combine (a1 ++ a2) (b1 ++ b2) = combine a1 b1 ++ combine a2 b2.
Proof. intros A B. induction a1 as [|x a IH]; intros a2 [|y b] b2 H; try discriminate H; [reflexivity|]. cbn. f_equal. apply IH. cbn in H. lia. Qed.
Lemma keep_concat : forall A (oss : list (list (option A))), keep (List.concat oss) = List.concat (map keep oss).
Proof. intros A. induction oss as [|o oss IH]; [reflexivity|]. cbn [List.concat map]. rewrite keep_app, IH. reflexivity. Qed.

Section Top.
Variable D : Type.
Notation frame := (frame D).
Variable leb : string -> string -> bool.
Hypothesis Leb : total_order leb.
Variables aper_factor gauss_factor : frame -> result R.
Variables aper_phot gauss_phot : frame -> result (option R).
Variable centroid : D -> result (option (R * R)).
Variable irradiance : string -> string -> result posreal.
Notation measured := (measured aper_phot gauss_phot centroid irradiance).
Notation summed := (summed D aper_phot gauss_phot centroid irradiance).
Notation process := (process_bright D aper_phot gauss_phot centroid irradiance).

Lemma choose_iff : forall (fs : list frame) gs, (match group_by D leb (f_fpam D) fs with Ok g => Ok g | Raise _ => group_by D leb (f_fsam D) fs end) = Ok gs <-> exists key, naming fs key /\ group_by D leb key fs = Ok gs.
Proof.
  intros fs gs. destruct (group_by D leb (f_fpam D) fs) as [g|e] eqn:E.
  - split.
    + intros H. exists (f_fpam D). split; [|congruence]. split; [left; reflexivity|]. apply (group_by_iff leb Leb) in E. apply E.
    + intros (key & [[->|[-> (f & I & N)]] _] & H); [congruence|]. apply (group_by_iff leb Leb) in E. destruct E as [E _]. destruct (E f I N).
  - split.
    + intros H. exists (f_fsam D). split; [|exact H]. split; [right; split; [reflexivity|]|].
      * unfold group_by in E. destruct (mapR (fun f => getkey (f_fpam D f)) fs) as [ks|e'] eqn:M; cbn [bind] in E; [discriminate|]. apply mapR_raise in M. destruct M as (f & I & G). exists f. split; [exact I|]. destruct (f_fpam D f); [discriminate G|reflexivity].
      * apply (group_by_iff leb Leb) in H. apply H.
    + intros (key & [[->|[-> _]] _] & H); [congruence|exact H].
Qed.

Lemma avg_iff : forall method dims cal, dims <> [] -> (avg_factor D aper_factor gauss_factor method dims = Ok cal <-> calibrated aper_factor gauss_factor method None dims cal).
Proof.
  intros method dims cal N. unfold avg_factor, calibrated.
  assert (K : forall cs, (if String.eqb method "Aperture" then mapR aper_factor dims else if String.eqb method "Gaussian" then mapR gauss_factor dims else Raise ValueError) = Ok cs <-> exists g, by_method method aper_factor gauss_factor g /\ Forall2 (fun f c => g f = Ok c) dims cs).
  { intros cs. unfold by_method. destruct (String.eqb_spec method "Aperture") as [->|N1].
    - rewrite mapR_iff. split; [intros H; eauto|]. intros (g & [[_ ->]|[E _]] & H); [exact H|discriminate].
    - destruct (String.eqb_spec method "Gaussian") as [->|N2].
      + rewrite mapR_iff. split; [intros H; eauto|]. intros (g & [[E _]|[_ ->]] & H); [discriminate|exact H].
      + split; [discriminate|]. intros (g & [[E _]|[E _]] & _); congruence. }
  match goal with |- context [bind ?m _] => destruct m as [cs|e] eqn:M end; cbn [bind].
  - assert (M1 := proj1 (K cs) eq_refl). destruct M1 as (g & G & F). assert (L := Forall2_len _ _ _ _ _ F). unfold meanR. destruct cs as [|c cs]; [destruct dims; [congruence|discriminate L]|]. set (l := c :: cs) in *.
    assert (P : 0 < INR (List.length l)) by (apply INR_pos; discriminate). split.
    + intros H. assert (X : cal = fold_right Rplus 0 l / INR (List.length l)) by congruence. exists g, l. split; [exact G|]. split; [exact F|]. rewrite X. exact (times_div _ _ P).
    + intros (g' & cs' & G' & F' & S). assert (X : Ok l = Ok cs') by (apply K; eauto). assert (cs' = l) by congruence. subst cs'. f_equal. fold (sum l). rewrite <- S. exact (div_times _ _ P).
  - split; [discriminate|]. intros (g & cs & G & F & _). assert (X : Raise e = Ok cs) by (apply K; eauto). discriminate X.
Qed.
Lemma calibrated_perm : forall method factor dim dims cal, Permutation dim dims -> calibrated aper_factor gauss_factor method factor dim cal -> calibrated aper_factor gauss_factor method factor dims cal.
Proof.
  intros method [c|] dim dims cal P H; [exact H|]. destruct H as (g & cs & G & F & S). destruct (Forall2_perm _ _ _ _ _ _ P F) as (cs' & F' & P'). exists g, cs'. split; [exact G|]. split; [exact F'|]. rewrite <- (Permutation_length P'), <- (sum_perm _ _ P'). exact S.
Qed.

(** The last star's scatter. *)
Lemma varying_last : forall thr (pre files : list frame) opre ot t, (forall f, In f pre -> f_target D f <> Some t) -> (forall f, In f files -> f_target D f = Some t) ->
  List.length pre = List.length opre -> List.length files = List.length ot -> (varying thr (pre ++ files) (opre ++ ot) t <-> spread thr ot).
Proof.
  intros thr pre files opre ot t Np Nf L1 L2. unfold varying, spread. rewrite combine_app by exact L1. set (q := fun x : frame * option row => has_name D (f_target D) t (fst x) && match snd x with Some _ => true | None => false end).
  assert (Q : forall x, q x = true <-> f_target D (fst x) = Some t /\ snd x <> None).
  { intros [f o]. unfold q. cbn [fst snd]. rewrite andb_true_iff, has_name_iff. destruct o; intuition congruence. }
  clearbody q. assert (F : filter q (combine pre opre ++ combine files ot) = filter q (combine files ot)).
  { rewrite filter_app, filter_none; [reflexivity|]. intros [f o] I. apply in_combine_l in I. destruct (q (f, o)) eqn:E; [|reflexivity]. apply Q in E. destruct E as [E _]. destruct (Np f I E). }
  assert (G : forall ds, Forall2 (fun x d => exists a b, snd x = Some (Some d, a, b)) (filter q (combine files ot)) ds <-> map (fun r : row => fst (fst r)) (keep ot) = map Some ds).
  { clear F Np L1. revert ot L2. induction files as [|f files IH]; intros [|o ot] L2 ds; try discriminate L2.
    - cbn. split; [intros H; inversion H; reflexivity|]. intros H. destruct ds; [constructor|discriminate].
    - cbn [combine filter keep]. assert (IH' := IH (fun g J => Nf g (or_intror J)) ot ltac:(cbn in L2; lia)). assert (T := Nf f (or_introl eq_refl)). destruct o as [[[od a] b]|].
      + assert (E : q (f, Some (od, a, b)) = true) by (apply Q; cbn; split; [exact T|discriminate]). match goal with |- context [if ?c then _ else _] => change c with (q (f, Some (od, a, b))) end. rewrite E. cbn [keep map fst]. split.
        * intros H. inversion H as [|? d ? ds' (a' & b' & X) H']; subst. cbn [snd] in X. injection X as -> -> ->. cbn [map]. f_equal. apply IH'. exact H'.
        * intros H. destruct ds as [|d ds]; [discriminate|]. cbn [map] in H. injection H as -> H. constructor; [exists a, b; reflexivity|]. apply IH'. exact H.
      + assert (E : q (f, None) = false) by (destruct (q (f, None)) eqn:E; [apply Q in E; cbn in E; destruct E as [_ E]; congruence|reflexivity]). rewrite E. apply IH'. }
  split.
  - intros (kept & ds & s & K & H & S & L). apply (sieve_filter _ _ q Q) in K. rewrite F in K. subst kept. apply G in H. eauto.
  - intros (ds & s & H & S & L). exists (filter q (combine files ot)), ds, s. split; [apply (sieve_filter _ _ q Q); symmetry; exact F|]. split; [apply G; exact H|auto].
Qed.

(** The stars of a list of groups, one after the other. *)
Section Stars.
Variables (method : string) (thr cal : R) (lit : list frame) (ts : list string).
Hypothesis ts_sorted : StronglySorted (slt leb) ts.
Hypothesis ts_in : forall t, In t ts <-> exists f, In f lit /\ f_target D f = Some t.
Hypothesis aimed : forall f, In f lit -> f_target D f <> None.
Definition files (t : string) : list frame := filter (has_name D (f_target D) t) lit.
Notation out := (flat_map files ts).
Lemma files_target : forall t f, In f (files t) -> f_target D f = Some t.
Proof. intros t f I. apply filter_In in I. apply (has_name_iff D). apply I. Qed.
Lemma files_some : forall t, In t ts -> exists f rest, files t = f :: rest.
Proof.
  intros t I. apply ts_in in I. destruct I as (f & I & T). assert (J : In f (files t)) by (apply filter_In; split; [exact I|apply has_name_iff; exact T]). destruct (files t) as [|g rest]; [destruct J|eauto].
Qed.
Lemma out_files : forall t, In t ts -> filter (has_name D (f_target D) t) out = files t.
Proof.
  intros t I. unfold files. rewrite (flat_in _ _ _ _ _ t); [reflexivity| |apply (slt_nodup leb); exact ts_sorted|exact I]. intros x X. apply has_name_iff. exact X.
Qed.
Lemma first_of_iff : forall t f, In t ts -> (first_of out t f <-> exists rest, files t = f :: rest).
Proof.
  intros t f I. unfold first_of. split.
  - intros (g & H). apply (sieve_filter _ _ _ (fun x => has_name_iff D (f_target D) t x)) in H. rewrite out_files in H by exact I. eauto.
  - intros (g & H). exists g. apply (sieve_filter _ _ _ (fun x => has_name_iff D (f_target D) t x)). rewrite out_files by exact I. auto.
Qed.
Lemma process_files : forall t s, In t ts -> (process method thr cal t (files t) = Ok s <-> exists first rest os, files t = first :: rest /\ summed method thr cal first (files t) os s).
Proof.
  intros t s I. destruct (files_some t I) as (first & rest & E). assert (T : forall f, In f (first :: rest) -> f_target D f = Some t) by (rewrite <- E; apply files_target). rewrite E, process_iff by exact T. split.
  - intros (os & H). exists first, rest, os. auto.
  - intros (f & r & os & H & S). injection H as <- <-. eauto.
Qed.

Definition starred (t : string) (q : star * list (option row)) : Prop := exists first rest, files t = first :: rest /\ summed method thr cal first (files t) (snd q) (fst q).
Definition finish (r : list row * option star * option bool) : result product :=
  match r with (rows, Some m, Some flag) => Ok (mkproduct rows (s_name m) (s_h m) (s_v m) flag) | _ => Raise UnboundLocalError end.
Lemma pair_up : forall A B C (P : A -> B -> C -> Prop) l m, Forall2 (fun a b => exists c, P a b c) l m <-> exists qs, map fst qs = m /\ Forall2 (fun a q => P a (fst q) (snd q)) l qs.
Proof.
  intros A B C P. induction l as [|a l IH]; intros m.
  - split; [intros H; inversion H; exists []; split; [reflexivity|constructor]|]. intros (qs & <- & H). inversion H. constructor.
  - split.
    + intros H. inversion H as [|? b ? m' (c & X) H']; subst. apply IH in H'. destruct H' as (qs & <- & H'). exists ((b, c) :: qs). split; [reflexivity|]. constructor; assumption.
    + intros (qs & <- & H). inversion H as [|? q ? qs' X H']; subst. cbn [map]. constructor; [eauto|]. apply IH. eauto.
Qed.
Lemma last_cons : forall A (x d : A) l, last (x :: l) d = last l x.
Proof. intros A x d l. revert x d. induction l as [|y l IH]; intros x d; [reflexivity|]. change (last (x :: y :: l) d) with (last (y :: l) d). rewrite IH. symmetry. apply IH. Qed.
Lemma sing_inv : forall A B (P : A -> B -> Prop) t m, Forall2 P [t] m -> exists b, m = [b] /\ P t b.
Proof. intros A B P t m H. inversion H as [|? b ? m' X H']; subst. inversion H'; subst. eauto. Qed.
Lemma last_map : forall A B (h : A -> B) x l q1 ql, x :: l = q1 ++ [ql] -> last (map h l) (h x) = h ql.
Proof. intros A B h x l q1 ql E. rewrite <- (last_cons _ (h x) (h x)). change (h x :: map h l) with (map h (x :: l)). rewrite E, map_app. apply last_last. Qed.
Lemma loop_stars : forall p, ts <> [] ->
  ((do r <- bright_loop D aper_phot gauss_phot centroid irradiance method thr cal [] None None (map (fun t => (t, files t)) ts); finish r) = Ok p <->
   exists s0 o0 qs, Forall2 starred ts ((s0, o0) :: qs) /\ Forall (fun q => check_star s0 (fst q) = Ok tt) qs
     /\ p = mkproduct (List.concat (map (fun q => s_rows (fst q)) ((s0, o0) :: qs))) (s_name s0) (s_h s0) (s_v s0) (last (map (fun q => s_flag (fst q)) qs) (s_flag s0))).
Proof.
  intros p NE. destruct (ne_cons _ ts NE) as (t0 & ts' & ET). rewrite ET. cbn [map bright_loop].
  assert (PF : forall t s, In t (t0 :: ts') -> (process method thr cal t (files t) = Ok s <-> exists o, starred t (s, o))).
  { intros t s I. rewrite (process_files t s) by (rewrite ET; exact I). unfold starred. cbn [fst snd]. split; [intros (f & r & o & X); eauto|intros (o & f & r & X); eauto]. }
  destruct (process method thr cal t0 (files t0)) as [s0|e] eqn:P0; cbn [bind].
  - rewrite app_nil_l. split.
    + intros H. match type of H with bind ?m _ = _ => destruct m as [r|] eqn:L end; cbn [bind] in H; [|discriminate]. apply loop_iff in L. destruct L as (ss & F & C & ->). cbn [finish] in H. injection H as <-.
      apply Forall2_mapl in F. cbn [fst snd] in F. assert (F2 : Forall2 (fun t s => exists o, starred t (s, o)) ts' ss) by (apply Forall2_impl with (2 := F); intros t s I X; apply PF; [right; exact I|exact X]).
      apply pair_up in F2. destruct F2 as (qs & <- & F2). destruct (proj1 (PF t0 s0 (or_introl eq_refl)) P0) as (o0 & X0). exists s0, o0, qs. split; [constructor; [exact X0|]|].
      * apply Forall2_impl with (2 := F2). intros a [b c] _ X. exact X.
      * split; [rewrite Forall_forall in *; intros q I; apply C; apply in_map; exact I|]. cbn [map List.concat fst]. rewrite !map_map. reflexivity.
    + intros (s1 & o1 & qs & F & C & ->). inversion F as [|? ? ? ? X0 F']; subst. assert (E1 : process method thr cal t0 (files t0) = Ok s1) by (apply PF; [left; reflexivity|eauto]). assert (s1 = s0) by congruence. subst s1.
      assert (L : bright_loop D aper_phot gauss_phot centroid irradiance method thr cal (s_rows s0) (Some s0) (Some (s_flag s0)) (map (fun t => (t, files t)) ts') = Ok (s_rows s0 ++ List.concat (map s_rows (map fst qs)), Some s0, Some (last (map s_flag (map fst qs)) (s_flag s0)))).
      { apply loop_iff. exists (map fst qs). split; [|split; [|reflexivity]].
        - apply Forall2_mapl. cbn [fst snd]. apply Forall2_mapr. apply Forall2_impl with (2 := F'). intros t [s o] I X. apply PF; [right; exact I|]. exists o. exact X.
        - rewrite Forall_forall in *. intros s I. apply in_map_iff in I. destruct I as (q & <- & I). apply C. exact I. }
      rewrite L. cbn [bind finish map List.concat fst]. rewrite !map_map. reflexivity.
  - split; [discriminate|]. intros (s1 & o1 & qs & F & _). inversion F as [|? ? ? ? X0 F']; subst. assert (E1 : process method thr cal t0 (files t0) = Ok s1) by (apply PF; [left; reflexivity|eauto]). congruence.
Qed.
Lemma apart_self : forall c a b, 0 < c -> apart (fun d => d <= c) a b -> a = b -> apart (fun d => d < c) a b.
Proof. intros c a b P (x & y & -> & -> & _) E. injection E as <-. exists x, x. split; [reflexivity|]. split; [reflexivity|]. rewrite Rminus_diag_eq by reflexivity. rewrite Rabs_R0. exact P. Qed.
Lemma last_nth : forall A (pre l : list A), l <> [] -> exists x, nth_error (pre ++ l) (List.length (pre ++ l) - 1) = Some x /\ In x l.
Proof.
  intros A pre l N. destruct (exists_last N) as (l' & x & ->). exists x. split; [|apply in_or_app; right; left; reflexivity]. rewrite app_assoc, nth_error_app2; rewrite !app_length; cbn [List.length]; [|lia]. replace (_ - _)%nat with 0%nat by lia. reflexivity.
Qed.
Lemma out_mem : forall f, In f out <-> In f lit.
Proof.
  intros f. unfold files. rewrite flat_mem. split; [tauto|]. intros I. split; [exact I|]. destruct (f_target D f) as [t|] eqn:T; [|destruct (aimed f I T)]. exists t. split; [apply ts_in; eauto|reflexivity].
Qed.
Lemma stars_iff : forall p, ts <> [] ->
  ((do r <- bright_loop D aper_phot gauss_phot centroid irradiance method thr cal [] None None (map (fun t => (t, files t)) ts); finish r) = Ok p <->
   exists os f0 fl t, nth_error out 0 = Some f0 /\ nth_error out (List.length out - 1) = Some fl /\ f_target D fl = Some t /\ agreeing out f0 /\ Forall2 (measured method cal) out os
    /\ sieve (fun o => o <> None) os (map Some (p_rows p)) /\ p_name p = f_fpam D f0 /\ p_h p = f_h D f0 /\ p_v p = f_v D f0 /\ (p_flag p = true <-> varying thr out os t)).
Proof.
  intros p NE. rewrite loop_stars by exact NE.
  assert (HD : exists t0 ts' f0 r0, ts = t0 :: ts' /\ files t0 = f0 :: r0 /\ nth_error out 0 = Some f0).
  { destruct (ne_cons _ ts NE) as (t0 & ts' & ET). destruct (files_some t0) as (f0 & r0 & E0); [rewrite ET; left; reflexivity|]. exists t0, ts', f0, r0. split; [exact ET|]. split; [exact E0|]. rewrite ET. cbn [flat_map]. rewrite E0. reflexivity. }
  destruct HD as (t0 & ts' & f0 & r0 & ET & E0 & N0). destruct (exists_last NE) as (ts1 & tl & EL).
  assert (OUT : out = flat_map files ts1 ++ files tl) by (rewrite EL, flat_map_app; cbn [flat_map]; rewrite app_nil_r; reflexivity).
  assert (It0 : In t0 ts) by (rewrite ET; left; reflexivity). assert (Itl : In tl ts) by (rewrite EL; apply in_or_app; right; left; reflexivity).
  assert (LAST : exists fl, nth_error out (List.length out - 1) = Some fl /\ f_target D fl = Some tl).
  { destruct (files_some tl Itl) as (f & r & Ef). destruct (last_nth _ (flat_map files ts1) (files tl)) as (x & X & I); [rewrite Ef; discriminate|]. exists x. rewrite OUT. split; [exact X|]. apply files_target. exact I. }
  assert (PRE : forall f, In f (flat_map files ts1) -> f_target D f <> Some tl).
  { intros f I. apply in_flat_map in I. destruct I as (t & T & I). apply files_target in I. rewrite I. intros X. injection X as ->. assert (ND := slt_nodup leb ts ts_sorted). rewrite EL in ND. apply NoDup_remove_2 in ND. apply ND. rewrite app_nil_r. exact T. }
  assert (VL : forall oss1 ol, Forall2 (fun t o => Forall2 (measured method cal) (files t) o) ts1 oss1 -> Forall2 (measured method cal) (files tl) ol -> (varying thr out (List.concat oss1 ++ ol) tl <-> spread thr ol)).
  { intros oss1 ol F1 F2. rewrite OUT. apply varying_last; [exact PRE|apply files_target| |exact (Forall2_len _ _ _ _ _ F2)]. assert (X : Forall2 (measured method cal) (flat_map files ts1) (List.concat oss1)) by (apply Forall2_flat; eauto). exact (Forall2_len _ _ _ _ _ X). }
  split.
  - intros (s0 & o0 & qs & F & C & ->). set (all := (s0, o0) :: qs) in *. destruct LAST as (fl & LN & LT). exists (List.concat (map snd all)), f0, fl, tl. split; [exact N0|]. split; [exact LN|]. split; [exact LT|].
    assert (M : Forall2 (fun t o => Forall2 (measured method cal) (files t) o) ts (map snd all)) by (apply Forall2_mapr; apply Forall2_impl with (2 := F); intros t q I (f & r & Ef & S); apply S).
    assert (X0 : starred t0 (s0, o0)) by (rewrite ET in F; inversion F; assumption). destruct X0 as (f0' & r0' & E0' & S0). cbn [fst snd] in S0. assert (f0' = f0) by congruence. subst f0'.
    destruct S0 as (L0 & _ & _ & Nm0 & H0 & V0 & C0 & _). assert (LF := L0 f0 ltac:(rewrite E0; left; reflexivity)).
    split; [|split; [|split; [|split; [|split; [|split]]]]].
    + intros f t f1 I T FO. assert (It : In t ts) by (apply ts_in; exists f; split; [apply out_mem; exact I|exact T]). apply (first_of_iff t f1 It) in FO. destruct FO as (r1 & E1).
      assert (If : In f (files t)) by (apply filter_In; split; [apply out_mem; exact I|apply has_name_iff; exact T]).
      destruct (Forall2_in _ _ _ _ _ _ F It) as ([s o] & Iq & f1' & r1' & E1' & S1). cbn [fst snd] in S1. assert (f1' = f1) by congruence. subst f1'. destruct S1 as (L1 & _ & _ & Nm1 & H1 & V1 & C1 & _). destruct (L1 f If) as (A1 & A2 & A3 & A4 & A5).
      assert (CS : s_name s0 = s_name s /\ apart (fun d => d < 12 / 10) (s_h s0) (s_h s) /\ apart (fun d => d < 12 / 10) (s_v s0) (s_v s) /\ s_cfam s0 = s_cfam s).
      { destruct Iq as [Iq|Iq].
        - injection Iq as <- <-. destruct LF as (_ & _ & _ & B4 & B5). split; [reflexivity|]. split; [|split; [|reflexivity]]; [rewrite H0|rewrite V0]; apply apart_self; try lra; try assumption; reflexivity.
        - apply check_star_iff. rewrite Forall_forall in C. apply (C (s, o) Iq). }
      destruct CS as (K1 & K2 & K3 & K4). rewrite <- H0, <- V0, <- H1, <- V1, A1, A2, <- Nm1, <- Nm0, C1, C0. split; [congruence|]. split; [congruence|]. split; [discriminate|]. rewrite H1, V1 in *. split; [exact A4|]. split; [exact A5|]. split; assumption.
    + apply Forall2_flat. eauto.
    + apply keep_iff. cbn [p_rows]. rewrite keep_concat, map_map. f_equal. clear -F. induction F as [|t q l m X F IH]; [reflexivity|]. cbn [map]. rewrite IH. f_equal. destruct X as (f & r & _ & S). apply S.
    + exact Nm0.
    + exact H0.
    + exact V0.
    + cbn [p_flag]. rewrite EL in F. apply Forall2_app_inv_l in F. destruct F as (q1 & q2 & F1 & F2 & EQ). destruct (sing_inv _ _ _ _ _ F2) as (ql & -> & XL).
      assert (LF1 : last (map (fun q => s_flag (fst q)) qs) (s_flag s0) = s_flag (fst ql)) by exact (last_map _ _ (fun q : star * list (option row) => s_flag (fst q)) (s0, o0) qs q1 ql EQ).
      rewrite LF1. destruct XL as (f & r & _ & (_ & ML & _ & _ & _ & _ & _ & FL)). rewrite FL, EQ, map_app, concat_app. cbn [map List.concat]. rewrite app_nil_r. symmetry. apply VL; [|exact ML]. apply Forall2_mapr. apply Forall2_impl with (2 := F1). intros t q _ (f' & r' & _ & S). apply S.
  - intros (os & f0' & fl & t & N0' & LN & LT & AG & M & RW & E1 & E2 & E3 & E4). assert (f0' = f0) by congruence. subst f0'. destruct LAST as (fl' & LN' & LT'). assert (fl' = fl) by congruence. subst fl'. assert (t = tl) by congruence. subst t.
    apply Forall2_flat in M. destruct M as (oss & M & ->). apply keep_iff in RW.
    assert (ST : Forall2 (fun t o => exists s, starred t (s, o)) ts oss).
    { apply Forall2_impl with (2 := M). intros t o It MO. destruct (files_some t It) as (f1 & r1 & Ef1). assert (FO : first_of out t f1) by (apply first_of_iff; eauto). assert (LK : forall f, In f (files t) -> like_first D f1 f /\ f_cfam D f = f_cfam D f0).
      { assert (G : forall f, In f (files t) -> f_fpam D f = f_fpam D f0 /\ f_cfam D f = f_cfam D f0 /\ f_cfam D f0 <> None /\ apart (fun d => d <= 12 / 10) (f_h D f) (f_h D f1) /\ apart (fun d => d <= 12 / 10) (f_v D f) (f_v D f1)).
        { intros f If. destruct (AG f t f1) as (A1 & A2 & A3 & A4 & A5 & _); [apply in_flat_map; eauto|apply files_target; exact If|exact FO|]. tauto. }
        intros f If. destruct (G f If) as (A1 & A2 & A3 & A4 & A5). destruct (G f1 ltac:(rewrite Ef1; left; reflexivity)) as (B1 & B2 & _). split; [|exact A2]. unfold like_first. rewrite A1, A2, B1, B2. tauto. }
      destruct (f_cfam D f1) as [cfam|] eqn:Cf. 2:{ destruct (LK f1 ltac:(rewrite Ef1; left; reflexivity)) as [(_ & _ & X & _) _]. congruence. }
      exists (mkstar (keep o) (f_fpam D f1) (f_h D f1) (f_v D f1) cfam (match std (map (fun r : row => fst (fst r)) (keep o)) with Some s => if Rle_dec thr s then true else false | None => false end)).
      exists f1, r1. split; [exact Ef1|]. cbn [fst snd]. split; [intros f If; apply LK; exact If|]. split; [exact MO|]. cbn [s_rows s_name s_h s_v s_cfam s_flag]. do 4 (split; [reflexivity|]). split; [exact Cf|]. apply flag_iff. }
    apply pair_up in ST. destruct ST as (qs' & EQ & ST). set (all := map (fun q : list (option row) * star => (snd q, fst q)) qs').
    assert (STA : Forall2 starred ts all) by (apply Forall2_mapr; exact ST).
    assert (SA : map snd all = oss) by (unfold all; rewrite map_map, <- EQ; apply map_ext; intros [a b]; reflexivity).
    destruct all as [|[s0 o0] qs] eqn:EA; [rewrite ET in STA; inversion STA|]. exists s0, o0, qs. rewrite <- EA in *. split; [exact STA|].
    assert (X0 : starred t0 (s0, o0)) by (rewrite ET, EA in STA; inversion STA; assumption). destruct X0 as (f0' & r0' & E0' & S0). cbn [fst snd] in S0. assert (f0' = f0) by congruence. subst f0'. destruct S0 as (L0 & _ & _ & Nm0 & H0 & V0 & C0 & _).
    split.
    + apply Forall_forall. intros [s o] Iq. cbn [fst]. apply check_star_iff. assert (Iq' : In (s, o) all) by (rewrite EA; right; exact Iq). destruct (Forall2_in' _ _ _ _ _ _ STA Iq') as (t & It & f1 & r1 & Ef1 & S1). cbn [fst snd] in S1. destruct S1 as (_ & _ & _ & Nm1 & H1 & V1 & C1 & _).
      assert (FO : first_of out t f1) by (apply first_of_iff; eauto). assert (If : In f1 (files t)) by (rewrite Ef1; left; reflexivity). destruct (AG f1 t f1) as (A1 & A2 & A3 & _ & _ & A6 & A7); [apply in_flat_map; eauto|apply files_target; exact If|exact FO|]. rewrite Nm0, Nm1, H0, H1, V0, V1. split; [congruence|]. split; [exact A6|]. split; [exact A7|]. congruence.
    + destruct p as [rows nm hh vv fg]. cbn [p_rows p_name p_h p_v p_flag] in *. rewrite E1, E2, E3, Nm0, H0, V0. f_equal.
      * rewrite RW, keep_concat, <- SA, map_map. f_equal. clear -STA. induction STA as [|t q l m X F IH]; [reflexivity|]. cbn [map]. rewrite IH. f_equal. destruct X as (f & r & _ & S). symmetry. apply S.
      * apply eq_true_iff_eq. rewrite E4. rewrite EL in STA. apply Forall2_app_inv_l in STA. destruct STA as (q1 & q2 & F1 & F2 & EQ2). destruct (sing_inv _ _ _ _ _ F2) as (ql & -> & XL).
        assert (LF1 : last (map (fun q => s_flag (fst q)) qs) (s_flag s0) = s_flag (fst ql)) by exact (last_map _ _ (fun q : star * list (option row) => s_flag (fst q)) (s0, o0) qs q1 ql (eq_trans (eq_sym EA) EQ2)).
        rewrite LF1. destruct XL as (f & r & _ & (_ & ML & _ & _ & _ & _ & _ & FL)). rewrite FL, <- SA, EQ2, map_app, concat_app. cbn [map List.concat]. rewrite app_nil_r. apply VL; [|exact ML]. apply Forall2_mapr. apply Forall2_impl with (2 := F1). intros t q _ (f' & r' & _ & S). apply S.
Qed.
End Stars.
End Top.
