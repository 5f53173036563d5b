(** Consequences and examples. *)
From Coq Require Import List Arith Bool QArith ZArith String Sorted Permutation Lia Lqa.
From Verif Require Import Base DqModel SortModel SortSpec SortNameProofs SortRunProofs SortGroupProofs SortSeqProofs SortTopProofs.
Import ListNotations.
Local Open Scope Z_scope.
Local Open Scope list_scope.

Lemma sel_rows : forall G j (r : Z * Q * string), In r (List.concat (firstn j G)) -> In r (List.concat G).
Proof. intros G j r I. rewrite <- (firstn_skipn j G), concat_app. apply in_or_app. left. exact I. Qed.
Lemma kgain_rows_in : forall s sel r, kgain_rows s sel -> In r sel -> In r s.
Proof. intros s sel r (G & j & (-> & _) & _ & _ & _ & ->) I. exact (sel_rows G _ r I). Qed.
Lemma nonlin_rows_in : forall s sel r, nonlin_rows s sel -> In r sel -> In r s.
Proof.
  intros s sel r [[-> _]|(p & q & _ & -> & _)] I; [destruct I|].
  assert (J : In r (skipn p s)) by (rewrite <- (firstn_skipn (S q - p) (skipn p s)); apply in_or_app; left; exact I).
  rewrite <- (firstn_skipn p s). apply in_or_app. right. exact J.
Qed.
Lemma path_pos : forall fs i j f f', distinct_paths fs -> nth_error fs i = Some f -> nth_error fs j = Some f' -> s_path f = s_path f' -> i = j.
Proof.
  intros fs i j f f' D A B E. unfold distinct_paths in D. rewrite NoDup_nth_error in D. apply D.
  - rewrite map_length. apply nth_error_Some. congruence.
  - rewrite !nth_error_map, A, B. cbn. congruence.
Qed.
Lemma picked_P : forall fs P s sel l i, distinct_paths fs -> in_order fs P s -> (forall r, In r sel -> In r s) -> picked fs sel l -> In i l -> exists f, nth_error fs i = Some f /\ P f.
Proof.
  intros fs P s sel l i D (l0 & rows & [_ POS] & F & PS & _) H [[_ PK] _] I. apply PK in I. destruct I as (f & Hf & r & R & E).
  assert (R' : In r rows) by (apply (Permutation_in _ (Permutation_sym PS)); apply H; exact R).
  destruct (Forall2_in' _ _ _ _ _ _ F R') as (j & J & (g & Hg & _ & _ & Pg)). assert (i = j) by (apply (path_pos fs i j f g D Hf Hg); congruence). subst j.
  apply POS. exact J.
Qed.
Lemma lt_nodup : forall l, StronglySorted lt l -> NoDup l.
Proof. intros m S. induction S as [|x m S IH F]; constructor; [|exact IH]. intros I. rewrite Forall_forall in F. specialize (F x I). lia. Qed.
Lemma nodup_app : forall A (a b : list A), NoDup a -> NoDup b -> (forall x, In x a -> In x b -> False) -> NoDup (a ++ b).
Proof.
  intros A a b Na Nb H. induction Na as [|x a X Na IH]; [exact Nb|]. cbn. constructor.
  - intros I. apply in_app_or in I. destruct I as [I|I]; [exact (X I)|exact (H x (or_introl eq_refl) I)].
  - apply IH. intros y Ya Yb. exact (H y (or_intror Ya) Yb).
Qed.

Lemma sorted_kinds : forall ty fs m ks ns, distinct_paths fs -> sorted_frames ty fs m ks ns -> exists e,
  mean_frames fs e m
  /\ (forall i, In i m -> exists f, nth_error fs i = Some f /\ has_gain 1 f /\ has_exp e f)
  /\ (forall i, In i ks -> exists f, nth_error fs i = Some f /\ has_gain 1 f /\ ~ has_exp e f)
  /\ (forall i, In i ns -> exists f, nth_error fs i = Some f /\ s_gain f <> None /\ ~ has_gain 1 f)
  /\ NoDup (m ++ ks ++ ns).
Proof.
  intros ty fs m ks ns D (TG & TE & t & e & CT & MF & KP & NL). exists e. split; [exact MF|].
  assert (M1 : forall i, In i m -> exists f, nth_error fs i = Some f /\ has_gain 1 f /\ has_exp e f).
  { intros i I. destruct MF as (l & ids & run & ([_ G] & _) & _ & _ & _ & IN). apply IN in I. destruct I as [I _]. apply G in I. exact I. }
  assert (K1 : forall i, In i ks -> exists f, nth_error fs i = Some f /\ has_gain 1 f /\ ~ has_exp e f).
  { intros i I. destruct KP as (s & sel & O & KR & P). exact (picked_P fs _ s sel ks i D O (fun r => kgain_rows_in s sel r KR) P I). }
  assert (NLD : NoDup ns /\ forall i, In i ns -> exists f, nth_error fs i = Some f /\ s_gain f <> None /\ ~ has_gain 1 f).
  { destruct t; [subst ns; split; [constructor|intros i []]|]. destruct NL as (gs & xs & (SG & WG & _) & -> & F).
    assert (X : forall g x i, In g gs -> gain_spec fs g x -> In i x -> exists f, nth_error fs i = Some f /\ has_gain g f).
    { intros g x i _ (s & sel & O & NR & P) I. exact (picked_P fs _ s sel x i D O (fun r => nonlin_rows_in s sel r NR) P I). }
    split.
    - clear WG. revert SG X. clear - F. change (Forall2 (gain_spec fs) gs xs) in F. induction F as [|g x gs xs H F IH]; intros SG X; [constructor|]. cbn [List.concat].
      inversion SG as [|? ? SG' FG]; subst. apply nodup_app.
      + destruct H as (s & sel & _ & _ & [[S _] _]). apply lt_nodup. exact S.
      + apply IH; [exact SG'|]. intros g' x' i I. apply (X g' x' i). right. exact I.
      + intros i I J. apply in_concat in J. destruct J as (x' & Jx & J). destruct (Forall2_in' _ _ _ _ _ _ F Jx) as (g' & G' & H').
        destruct (X g x i (or_introl eq_refl) H I) as (f & Hf & (q & Q & E)). destruct (X g' x' i (or_intror G') H' J) as (f' & Hf' & (q' & Q' & E')).
        assert (f = f') by congruence. subst f'. assert (q = q') by congruence. subst q'. rewrite Forall_forall in FG. specialize (FG g' G'). lra.
    - intros i I. apply in_concat in I. destruct I as (x & Ix & I). destruct (Forall2_in' _ _ _ _ _ _ F Ix) as (g & G & H).
      destruct (X g x i G H I) as (f & Hf & (q & Q & E)). exists f. split; [exact Hf|]. split; [congruence|]. intros (q' & Q' & E').
      destruct (WG g G) as [N _]. apply N. assert (q = q') by congruence. subst q'. rewrite <- E. exact E'. }
  destruct NLD as [NN N1]. split; [exact M1|]. split; [exact K1|]. split; [exact N1|].
  apply nodup_app; [|apply nodup_app|].
  - destruct MF as (l & ids & run & _ & _ & _ & S & _). apply lt_nodup. exact S.
  - destruct KP as (s & sel & _ & _ & [[S _] _]). apply lt_nodup. exact S.
  - exact NN.
  - intros i A B. destruct (K1 i A) as (f & Hf & G & _). destruct (N1 i B) as (f' & Hf' & _ & NG). assert (f = f') by congruence. subst. exact (NG G).
  - intros i A B. destruct (M1 i A) as (f & Hf & G & X). apply in_app_or in B. destruct B as [B|B].
    + destruct (K1 i B) as (f' & Hf' & _ & NX). assert (f = f') by congruence. subst. exact (NX X).
    + destruct (N1 i B) as (f' & Hf' & _ & NG). assert (f = f') by congruence. subst. exact (NG G).
Qed.

Lemma second_turn : forall ty t fs e m s G j j', (forall f, In f fs -> s_gain f <> None) -> (forall f, In f fs -> has_gain 1 f -> s_exp f <> None) ->
  is_type ty t -> mean_frames fs e m -> in_order fs (fun f => has_gain 1 f /\ ~ has_exp e f) s -> stretches s G ->
  turn G j -> distinct_steps G j -> (forall i, turn G i -> (j <= i)%nat) -> turn G j' -> (j < j')%nat ->
  sort_pupilimg_frames ty fs = Raise TypeError.
Proof.
  intros ty t fs e m s G j j' TG TE CT MF O GS T D F T' L. unfold sort_pupilimg_frames. cbv zeta.
  destruct (split_by_total s_gain (number 0 fs)) as (gs & SB); [intros (i & f) I; apply TG; apply number_in in I; exact (nth_error_In _ _ I)|].
  rewrite SB. cbn [bind]. destruct (split_by_ok _ _ _ SB) as (_ & kk & -> & KS).
  assert (HU : exists k, In k kk /\ (k == 1)%Q).
  { destruct MF as (l & ids & run & (GG & N & _) & _). destruct l as [|i l]; [congruence|]. destruct GG as [_ GG]. destruct (proj1 (GG i) (or_introl eq_refl)) as (f & Hf & (q & Q & E) & _).
    destruct KS as (_ & _ & C). destruct (C (i, f) q (proj2 (number_in _ _ _ _) Hf) Q) as (k & I & KQ). exists k. split; [exact I|]. rewrite KQ. exact E. }
  destruct (find_unity 0 _) as [u|] eqn:FU.
  2:{ exfalso. destruct HU as (k & I & E). refine (find_unity_none _ _ FU (k, _) (in_map (fun k => (k, filter (keyed s_gain k) (number 0 fs))) _ _ I) E). }
  destruct (find_unity_some _ _ _ FU) as ((k1 & g1) & _ & N & E1). cbn [fst] in E1. rewrite Nat.sub_0_r in N. rewrite (nth_error_nth _ _ _ N). cbn [snd].
  rewrite nth_error_map in N. destruct (nth_error kk u) as [k1'|] eqn:K; [|discriminate N]. cbn in N. injection N as -> <-.
  destruct (mean_stage_complete fs k1 e m E1 TE MF) as (rest & MS & PR). unfold gaink in MS. rewrite MS. cbn [bind snd fst].
  rewrite (proj2 (cal_type_spec ty t) CT).
  unfold rest_of in PR. rewrite filter_filter in PR.
  assert (HP : forall i f, In f fs -> (gaink k1 (i, f) && negb (expk e (i, f)) = true <-> has_gain 1 f /\ ~ has_exp e f)).
  { intros i f _. rewrite andb_true_iff, negb_true_iff, <- not_true_iff_false. unfold gaink, expk. rewrite !keyed_iff. fold (has_exp e f) (has_gain k1 f).
    split; intros [A B]; (split; [|exact B]); [exact (has_gain_ext k1 1 f E1 A)|exact (has_gain_ext 1 k1 f (Qeq_sym _ _ E1) A)]. }
  destruct (order_complete fs _ (fun x => gaink k1 x && negb (expk e x)) rest s HP PR O) as (rows & M & Es).
  rewrite kgain_paths_of, M. cbn [bind]. rewrite Es, (kgain_second s G j j' GS T T' L F D). reflexivity.
Qed.

(** ** Examples *)
Local Open Scope string_scope.
Definition fr (n : string) (g e : Q) : sfr := mksfr (n ++ ".fits") ("/data/" ++ n ++ ".fits") (Some g) (Some e) (Some "PUPILIMG").
Definition campaign : list sfr :=
  [fr "CGI_03" 1 5; fr "CGI_01" 1 5; fr "CGI_02" 1 5; fr "CGI_05" 1 5; fr "CGI_06" 1 5;
   fr "CGI_10" 1 1; fr "CGI_11" 1 1; fr "CGI_12" 1 2; fr "CGI_13" 1 2; fr "CGI_14" 1 3; fr "CGI_15" 1 3; fr "CGI_16" 1 1; fr "CGI_17" 1 1;
   fr "CGI_20" 2 1; fr "CGI_21" 2 2; fr "CGI_22" 2 3; fr "CGI_23" 2 2; fr "CGI_24" 2 7].
Lemma campaign_run : sort_pupilimg_frames "NonLin" campaign = Ok ([0; 1; 2], [5; 6; 7; 8; 9; 10; 11; 12], [13; 14; 15; 16])%nat.
Proof. vm_compute. reflexivity. Qed.

(** The frames selected for K-gain need not come in equal numbers, nor
    consecutively. *)
Definition uneven : list sfr :=
  [fr "CGI_01" 1 5; fr "CGI_02" 1 5; fr "CGI_03" 1 5; fr "CGI_04" 1 5;
   fr "CGI_10" 1 1; fr "CGI_12" 1 2; fr "CGI_15" 1 2; fr "CGI_30" 1 3; fr "CGI_40" 1 1; fr "CGI_50" 1 1].
Lemma uneven_run : sort_pupilimg_frames "k-gain" uneven = Ok ([0; 1; 2; 3], [4; 5; 6; 7; 8; 9], [])%nat.
Proof. vm_compute. reflexivity. Qed.

(** Two complete K-gain sequences. *)
Definition twice : list sfr :=
  [fr "CGI_01" 1 5; fr "CGI_02" 1 5; fr "CGI_03" 1 5; fr "CGI_04" 1 5;
   fr "CGI_10" 1 1; fr "CGI_11" 1 2; fr "CGI_12" 1 1; fr "CGI_13" 1 2; fr "CGI_14" 1 3; fr "CGI_15" 1 2].
Lemma twice_run : sort_pupilimg_frames "k-gain" twice = Raise TypeError.
Proof. vm_compute. reflexivity. Qed.

Lemma fnum : forall n z, extract_frame_id n = Ok z -> frame_number n z.
Proof. intros n z H. apply frame_id_spec. exact H. Qed.
Definition idof (f : sfr) : option Z := match extract_frame_id (s_name f) with Ok z => Some z | Raise _ => None end.
Lemma ids_distinct : forall fs, NoDup (map idof fs) -> distinct_ids fs.
Proof.
  intros fs N i j f f' q q' z A B _ _ _ C D. apply frame_id_spec in C, D. rewrite NoDup_nth_error in N. apply N.
  - rewrite map_length. apply nth_error_Some. congruence.
  - rewrite !nth_error_map, A, B. cbn. unfold idof. rewrite C, D. reflexivity.
Qed.
Ltac nodup := vm_compute; repeat (constructor; [intros H; repeat (destruct H as [H|H]; [discriminate H|]); exact H|]); constructor.
Lemma campaign_ids : distinct_ids campaign.
Proof. apply ids_distinct. nodup. Qed.
Lemma campaign_paths : distinct_paths campaign.
Proof. unfold distinct_paths. nodup. Qed.
Lemma uneven_ids : distinct_ids uneven.
Proof. apply ids_distinct. nodup. Qed.
Lemma twice_ids : distinct_ids twice.
Proof. apply ids_distinct. nodup. Qed.

Definition rw (z : Z) (e : Q) (n : string) : Z * Q * string := (z, e, "/data/" ++ n ++ ".fits").
Definition twice_rows : list (Z * Q * string) := [rw 10 1 "CGI_10"; rw 11 2 "CGI_11"; rw 12 1 "CGI_12"; rw 13 2 "CGI_13"; rw 14 3 "CGI_14"; rw 15 2 "CGI_15"].
Definition twice_G : list (list (Z * Q * string)) := map (fun r => [r]) twice_rows.
Lemma twice_case : (forall f, In f twice -> s_gain f <> None) /\ (forall f, In f twice -> has_gain 1 f -> s_exp f <> None) /\ is_type "K-Gain" KGain
  /\ mean_frames twice 5 [0; 1; 2; 3]%nat /\ in_order twice (fun f => has_gain 1 f /\ ~ has_exp 5 f) twice_rows /\ stretches twice_rows twice_G
  /\ turn twice_G 2 /\ distinct_steps twice_G 2 /\ (forall i, turn twice_G i -> (2 <= i)%nat) /\ turn twice_G 5.
Proof.
  assert (TG : forall f, In f twice -> s_gain f <> None) by (intros f I; repeat (destruct I as [<-|I]; [discriminate|]); destruct I).
  assert (TE : forall f, In f twice -> has_gain 1 f -> s_exp f <> None) by (intros f I _; repeat (destruct I as [<-|I]; [discriminate|]); destruct I).
  assert (ST : stretches twice_rows twice_G) by exact (stretches_exist twice_rows).
  assert (GS : stretches (List.concat twice_G) twice_G) by exact ST.
  split; [exact TG|]. split; [exact TE|]. split; [apply cal_type_spec; vm_compute; reflexivity|].
  assert (E1 : (1 == 1)%Q) by reflexivity.
  assert (HP : forall i f, In f twice -> (gaink 1 (i, f) && negb (expk 5 (i, f)) = true <-> has_gain 1 f /\ ~ has_exp 5 f)).
  { intros i f _. rewrite andb_true_iff, negb_true_iff, <- not_true_iff_false. unfold gaink, expk. rewrite !keyed_iff. reflexivity. }
  assert (MM : exists e, mean_frames twice e [0; 1; 2; 3]%nat).
  { destruct (mean_stage (filter (gaink 1) (number 0 twice))) as [[m rest]|] eqn:MS; [|exfalso; vm_compute in MS; discriminate MS].
    destruct (mean_stage_ok twice 1 m rest E1 MS) as (_ & e & MF & _). vm_compute in MS. injection MS as <- _. exists e. exact MF. }
  split.
  { destruct MM as (e & MF). apply (mean_frames_ext twice e 5); [|exact MF]. destruct MF as (l & ids & run & ([_ G] & _) & _ & _ & _ & IN).
    destruct (proj1 (IN 0%nat) (or_introl eq_refl)) as [I _]. apply G in I. destruct I as (f & Hf & _ & (q & Q & E)). cbn in Hf. injection Hf as <-. cbn in Q. injection Q as <-. symmetry. exact E. }
  split.
  { assert (M : mapR to_row (filter (fun x => gaink 1 x && negb (expk 5 x)) (number 0 twice)) = Ok twice_rows) by (vm_compute; reflexivity).
    change twice_rows with (sortR twice_rows). refine (order_ok twice _ (fun x => gaink 1 x && negb (expk 5 x)) _ twice_rows 1 twice_ids HP _ (Permutation_refl _) M). tauto. }
  split; [exact ST|].
  split; [apply (turnb_iff twice_G GS 1); [cbn; lia|vm_compute; reflexivity]|].
  split; [apply (T_distinct twice_G GS 1); [cbn; lia|]; apply dedup_len; vm_compute; reflexivity|].
  split; [|apply (turnb_iff twice_G GS 4); [cbn; lia|vm_compute; reflexivity]].
  intros i T. destruct (turn_pos _ _ T) as (k & -> & L). destruct k as [|k]; [|lia]. apply (turnb_iff twice_G GS 0 L) in T. vm_compute in T. discriminate T.
Qed.
