From Coq Require Import List ZArith QArith Qabs Bool Lia String Ascii.
From Verif Require Import Base BaseProofs CalDBModel CalDBSpec.
Import ListNotations.
Local Open Scope string_scope.
Local Open Scope list_scope.

(** ** Rows of entries *)

Lemma row_of_entry_describes e r : row_of_entry true e = Ok r <-> Describes e r.
Proof.
  unfold row_of_entry. destruct e as [p c st ex nf ct ve ob ha sh om eg xc];
    cbn [e_path e_class e_sctsrt e_exptime e_drpnfile e_drpctime e_drpversn e_obsnum e_hash e_shape e_opmode e_emgain e_excamt].
  split.
  - destruct (labels c) as [lab|] eqn:EL; cbn [getkey bind]; [|discriminate].
    destruct st as [st|]; cbn [getkey bind]; [|discriminate].
    destruct ex as [ex|]; cbn [getkey bind]; [|discriminate].
    destruct ob as [ob|]; cbn [getkey bind]; [|discriminate].
    destruct (shape_last sh 0) as [n1|] eqn:E1; cbn [getkey bind]; [|discriminate].
    destruct (Nat.ltb (List.length sh) 2) eqn:EB; cbn [getkey bind].
    + destruct om as [om|]; cbn [getkey bind]; [|discriminate].
      destruct eg as [eg|]; cbn [getkey bind]; [|discriminate].
      destruct xc as [xc|]; cbn [getkey bind]; [|discriminate].
      intro H; injection H as <-. constructor; cbn; auto.
      * destruct nf; auto.
      * destruct ct; auto.
      * destruct ve; auto.
      * right. apply Nat.ltb_lt in EB. unfold shape_last in E1.
        destruct sh as [|a [|b sh]]; cbn in *; try lia; [discriminate|].
        injection E1 as ->. auto.
    + apply Nat.ltb_ge in EB.
      destruct (shape_last sh 1) as [n2|] eqn:E2; cbn [getkey bind]; [|discriminate].
      destruct om as [om|]; cbn [getkey bind]; [|discriminate].
      destruct eg as [eg|]; cbn [getkey bind]; [|discriminate].
      destruct xc as [xc|]; cbn [getkey bind]; [|discriminate].
      intro H; injection H as <-. constructor; cbn; auto.
      * destruct nf; auto.
      * destruct ct; auto.
      * destruct ve; auto.
      * left. unfold shape_last in *. destruct (rev sh) as [|a [|b t]] eqn:ER; cbn in *; try discriminate.
        injection E1 as ->. injection E2 as ->.
        exists (rev t). rewrite <- (rev_involutive sh), ER. cbn. rewrite <- app_assoc. reflexivity.
  - intros [H1 H2 H3 H4 H5 H6 H7 H8 H9 H10 H11 H12 H13];
      cbn [e_path e_class e_sctsrt e_exptime e_drpnfile e_drpctime e_drpversn e_obsnum e_hash e_shape e_opmode e_emgain e_excamt] in *.
    rewrite H2, H3, H4, H9, H11, H12, H13; cbn [getkey bind].
    assert (S : shape_last sh 0 = Ok (r_naxis1 r) /\
                (if Nat.ltb (List.length sh) 2 then Ok 0%Z else shape_last sh 1) = Ok (r_naxis2 r)).
    { destruct H10 as [[outer ->]|[-> ->]]; [|split; reflexivity].
      unfold shape_last. rewrite rev_app_distr. split; [reflexivity|].
      replace (Nat.ltb (List.length (outer ++ [r_naxis2 r; r_naxis1 r])) 2) with false; [reflexivity|].
      symmetry. apply Nat.ltb_ge. rewrite app_length. cbn. lia. }
    destruct S as [S1 S2]. rewrite S1; cbn [bind]. rewrite S2; cbn [bind].
    destruct r as [rp rt rm re rn rc rh rv ro r1 r2 rop reg rx]; cbn in *. subst.
    repeat f_equal.
    + destruct H5 as [->|[-> ->]]; reflexivity.
    + destruct H6 as [->|[-> ->]]; reflexivity.
    + destruct H8 as [->|[-> ->]]; reflexivity.
Qed.

Lemma describes_fun e r1 r2 : Describes e r1 -> Describes e r2 -> r1 = r2.
Proof.
  intros H1 H2. apply row_of_entry_describes in H1. apply row_of_entry_describes in H2. congruence.
Qed.

Lemma unreadable_raise e : Unreadable e <-> exists x, row_of_entry true e = Raise x.
Proof.
  split.
  - intro H. destruct (row_of_entry true e) as [r|x] eqn:E; [|eauto].
    apply row_of_entry_describes in E. destruct (H r E).
  - intros [x E] r Hr. apply row_of_entry_describes in Hr. congruence.
Qed.

(** ** Membership under the naming convention *)

Lemma clean_describes e r : clean_entry e -> Describes e r -> clean_row r.
Proof.
  intros (Hp & Hh & Hv & Ho) D. unfold clean_row.
  pose proof (ds_type _ _ D) as Ht. pose proof (ds_version _ _ D) as Hver.
  pose proof (ds_opmode _ _ D) as Hop. rewrite (ds_path _ _ D), (ds_hash _ _ D).
  repeat split; try assumption.
  - revert Ht. destruct (e_class e); cbn; intro Ht; try discriminate; injection Ht as <-; reflexivity.
  - destruct Hver as [E|[_ ->]]; [eauto|reflexivity].
  - eauto.
Qed.

Lemma in_values_paths p d :
  is_abs p = true -> (forall r, In r d -> clean_row r) ->
  in_values p d = if in_dec string_dec p (paths d) then true else false.
Proof.
  intros Hp Hd.
  assert (E : in_values p d = true <-> In p (paths d)).
  { unfold in_values, paths. rewrite existsb_exists, in_map_iff. split.
    - intros (r & Hr & H). exists r. split; [|exact Hr].
      destruct (Hd r Hr) as (_ & H1 & H2 & H3 & H4).
      unfold row_has_cell in H. rewrite !orb_true_iff in H.
      rewrite !String.eqb_eq in H.
      destruct H as [[[[H|H]|H]|H]|H]; congruence.
    - intros (r & H & Hr). exists r. split; [exact Hr|].
      unfold row_has_cell. rewrite H, String.eqb_refl. reflexivity. }
  destruct (in_dec string_dec p (paths d)) as [H|H].
  - apply E. exact H.
  - destruct (in_values p d); [|reflexivity]. destruct H. apply E. reflexivity.
Qed.

(** ** Effects on paths and on lookups *)

Definition replace_row (r r' : row) : row :=
  if String.eqb (r_path r') (r_path r) then r else r'.

Lemma paths_replace r d : paths (map (replace_row r) d) = paths d.
Proof.
  induction d as [|a d IH]; [reflexivity|]. cbn. f_equal; [|exact IH].
  unfold replace_row. destruct (String.eqb_spec (r_path a) (r_path r)); congruence.
Qed.

Lemma lookup_none d p : lookup d p = None <-> ~ In p (paths d).
Proof.
  induction d as [|a d IH]; cbn; [tauto|].
  destruct (string_dec p (r_path a)) as [E|N]; [split; [discriminate|intro H; destruct H; auto]|].
  rewrite IH. split; [intros H [K|K]; [congruence|tauto]|tauto].
Qed.

Lemma lookup_replace r d p :
  In (r_path r) (paths d) ->
  lookup (map (replace_row r) d) p = if string_dec p (r_path r) then Some r else lookup d p.
Proof.
  induction d as [|a d IH]; [intros []|]. cbn [paths map In]. intro H. cbn [lookup find map].
  destruct (string_dec (r_path a) (r_path r)) as [E|N].
  - replace (replace_row r a) with r
      by (unfold replace_row; rewrite E, String.eqb_refl; reflexivity).
    destruct (string_dec p (r_path r)) as [E2|N2]; [reflexivity|].
    destruct (string_dec p (r_path a)) as [E3|N3]; [congruence|].
    destruct (in_dec string_dec (r_path r) (paths d)) as [Hin|Hnin].
    + fold (lookup (map (replace_row r) d) p). rewrite IH by exact Hin. reflexivity.
    + assert (F : map (replace_row r) d = d).
      { clear -Hnin. induction d as [|b d IH]; [reflexivity|]. cbn in *.
        rewrite IH by tauto. unfold replace_row.
        destruct (String.eqb_spec (r_path b) (r_path r)); [tauto|reflexivity]. }
      rewrite F. reflexivity.
  - replace (replace_row r a) with a
      by (unfold replace_row; destruct (String.eqb_spec (r_path a) (r_path r)); congruence).
    destruct (string_dec p (r_path a)) as [E3|N3].
    + destruct (string_dec p (r_path r)); [congruence|reflexivity].
    + apply IH. destruct H; [congruence|assumption].
Qed.

Lemma lookup_app d1 d2 p :
  lookup (d1 ++ d2) p = match lookup d1 p with Some r => Some r | None => lookup d2 p end.
Proof.
  induction d1 as [|a d IH]; [reflexivity|]. cbn.
  destruct (string_dec p (r_path a)); [reflexivity|apply IH].
Qed.

Lemma paths_filter p d :
  paths (filter (fun r' => negb (String.eqb (r_path r') p)) d) = remove string_dec p (paths d).
Proof.
  induction d as [|a d IH]; [reflexivity|]. cbn.
  destruct (String.eqb_spec (r_path a) p) as [E|N]; cbn;
    destruct (string_dec p (r_path a)) as [E2|N2]; try congruence.
  - exact IH.
  - f_equal. exact IH.
Qed.

Lemma lookup_filter p d q :
  lookup (filter (fun r' => negb (String.eqb (r_path r') p)) d) q
  = if string_dec q p then None else lookup d q.
Proof.
  induction d as [|a d IH]; cbn; [destruct (string_dec q p); reflexivity|].
  destruct (String.eqb_spec (r_path a) p) as [E|N]; cbn.
  - unfold lookup in IH. rewrite IH. destruct (string_dec q p) as [E2|N2]; [reflexivity|].
    destruct (string_dec q (r_path a)); [congruence|reflexivity].
  - destruct (string_dec q (r_path a)) as [E2|N2].
    + destruct (string_dec q p); [congruence|reflexivity].
    + apply IH.
Qed.

(** ** Refinement *)

(** [Refines d ks m]: the table [d] represents the abstract database. *)
Definition Refines (d : db) (ks : list string) (m : string -> option row) : Prop :=
  paths d = ks /\ (forall p, lookup d p = m p) /\ NoDup ks /\ (forall r, In r d -> clean_row r).

Lemma NoDup_snoc {A} (l : list A) x : NoDup l -> ~ In x l -> NoDup (l ++ [x]).
Proof.
  intros H1 H2. induction H1 as [|a l Ha Hl IH]; cbn; constructor.
  - intros [].
  - constructor.
  - rewrite in_app_iff. intros [K|[K|[]]]; [tauto|]. subst. apply H2. left. reflexivity.
  - apply IH. intro. apply H2. right. assumption.
Qed.

Lemma NoDup_remove_dec (l : list string) x : NoDup l -> NoDup (remove string_dec x l).
Proof.
  induction 1 as [|a l Ha Hl IH]; cbn; [constructor|].
  destruct (string_dec x a); [exact IH|]. constructor; [|exact IH].
  intro K. apply in_remove in K. tauto.
Qed.

Lemma insert_refines d ks m r :
  Refines d ks m -> clean_row r ->
  Refines (insert_row r d) (apply_keys ks (Put r)) (apply_map m (Put r)).
Proof.
  intros (<- & Hm & Hn & Hc) Hr. unfold insert_row.
  rewrite in_values_paths; [|apply Hr|exact Hc].
  unfold apply_keys, apply_map. fold (replace_row r).
  destruct (in_dec string_dec (r_path r) (paths d)) as [Hin|Hnin].
  - split; [|split; [|split]].
    + apply paths_replace.
    + intro p. rewrite lookup_replace by exact Hin. rewrite Hm. reflexivity.
    + exact Hn.
    + intros x Hx. apply in_map_iff in Hx. destruct Hx as (a & <- & Ha). unfold replace_row.
      destruct (String.eqb (r_path a) (r_path r)); [exact Hr|apply (Hc a Ha)].
  - split; [|split; [|split]].
    + unfold paths. rewrite map_app. reflexivity.
    + intro p. rewrite lookup_app, Hm. cbn.
      destruct (string_dec p (r_path r)) as [E|N].
      * subst p. rewrite <- Hm. apply lookup_none in Hnin. rewrite Hnin. reflexivity.
      * destruct (m p); reflexivity.
    + apply NoDup_snoc; assumption.
    + intros a Ha. apply in_app_iff in Ha. destruct Ha as [Ha|[<-|[]]]; [apply Hc; exact Ha|exact Hr].
Qed.

Lemma delete_refines d ks m p :
  Refines d ks m -> is_abs p = true ->
  (In p ks -> exists d', delete_path p d = Ok d' /\ Refines d' (apply_keys ks (Del p)) (apply_map m (Del p)))
  /\ (~ In p ks -> delete_path p d = Raise ValueError
        /\ Refines d (apply_keys ks (Del p)) (apply_map m (Del p))).
Proof.
  intros (<- & Hm & Hn & Hc) Hp. unfold delete_path. rewrite in_values_paths by assumption.
  destruct (in_dec string_dec p (paths d)) as [Hin|Hnin]; split; intro H; try tauto.
  - eexists. split; [reflexivity|]. split; [|split; [|split]].
    + apply paths_filter.
    + intro q. rewrite lookup_filter, Hm. reflexivity.
    + apply NoDup_remove_dec. exact Hn.
    + intros r Hr. apply filter_In in Hr. apply Hc. tauto.
  - split; [reflexivity|]. split; [|split; [|split]].
    + cbn. symmetry. apply notin_remove. exact Hnin.
    + intro q. cbn. destruct (string_dec q p) as [->|N]; [|apply Hm].
      apply lookup_none. exact Hnin.
    + cbn. rewrite notin_remove by exact Hnin. exact Hn.
    + exact Hc.
Qed.

Lemma create_all_refines : forall fs evs d ks m,
  (forall e, In e fs -> clean_entry e) -> ScanEvents fs evs -> Refines d ks m ->
  Refines (fst (scan_dir fs d)) (keys_after ks evs) (map_after m evs).
Proof.
  induction fs as [|e fs IH]; intros evs d ks m Hc Hev HR;
    inversion Hev as [|e0 t0 evs0 Hl Ht|e0 r t0 evs0 Hd Ht|e0 t0 Hl Hu]; subst.
  - exact HR.
  - unfold scan_dir in *. cbn. rewrite Hl. apply IH; auto. intros; apply Hc; right; assumption.
  - unfold scan_dir in *. cbn. rewrite (ds_type _ _ Hd). cbn.
    unfold create_entry. pose proof Hd as Hd'. apply row_of_entry_describes in Hd'. rewrite Hd'. cbn.
    apply IH; [intros; apply Hc; right; assumption|assumption|].
    apply insert_refines; [exact HR|]. eapply clean_describes; [|exact Hd]. apply Hc. left. reflexivity.
  - unfold scan_dir. cbn. destruct (labels (e_class e)); [|congruence]. cbn.
    unfold create_entry. apply unreadable_raise in Hu. destruct Hu as [x ->]. cbn. exact HR.
Qed.

Lemma step_refines o ev d ks m :
  (forall e, In e (op_entries o) -> clean_entry e) -> Events o ev -> Refines d ks m ->
  Refines (fst (step d o)) (keys_after ks ev) (map_after m ev).
Proof.
  intros Hc He HR. destruct He as [e r Hd|e Hu|e r Hd|e Hu|fs evs Hs|f c]; cbn [step].
  - unfold create_entry. pose proof Hd as Hd'. apply row_of_entry_describes in Hd'. rewrite Hd'. cbn.
    apply insert_refines; [exact HR|]. eapply clean_describes; [|exact Hd]. apply Hc. left; reflexivity.
  - unfold create_entry. apply unreadable_raise in Hu. destruct Hu as [x ->]. exact HR.
  - unfold remove_entry. pose proof Hd as Hd'. apply row_of_entry_describes in Hd'. rewrite Hd'. cbn [bind].
    rewrite (ds_path _ _ Hd).
    destruct (delete_refines d ks m (e_path e) HR) as [D1 D2].
    { apply (Hc e). left; reflexivity. }
    destruct (in_dec string_dec (e_path e) ks) as [Hin|Hnin].
    + destruct (D1 Hin) as (d' & -> & HR'). exact HR'.
    + destruct (D2 Hnin) as (-> & HR'). exact HR'.
  - unfold remove_entry. apply unreadable_raise in Hu. destruct Hu as [x ->]. exact HR.
  - apply create_all_refines; [exact Hc|assumption|exact HR].
  - destruct (get_calib f c d); exact HR.
Qed.

Lemma run_refines : forall h evs d ks m,
  clean_history h -> HistoryEvents h evs -> Refines d ks m ->
  Refines (run d h) (keys_after ks evs) (map_after m evs).
Proof.
  induction h as [|o h IH]; intros evs d ks m Hc He HR; inversion He; subst.
  - exact HR.
  - unfold run. cbn [fold_left]. fold (run (fst (step d o)) h).
    unfold keys_after, map_after. rewrite !fold_left_app. apply IH.
    + intros o' e' Ho. apply Hc. right. exact Ho.
    + assumption.
    + apply step_refines; [|assumption|exact HR]. intros e Hin. apply (Hc o); [left; reflexivity|exact Hin].
Qed.

Lemma run_is_map d h evs :
  NoDup (paths d) -> (forall r, In r d -> clean_row r) -> clean_history h -> HistoryEvents h evs ->
  paths (run d h) = keys_after (paths d) evs
  /\ (forall p, lookup (run d h) p = map_after (lookup d) evs p)
  /\ NoDup (paths (run d h)).
Proof.
  intros Hn Hd Hc He.
  destruct (run_refines h evs d (paths d) (lookup d) Hc He) as (H1 & H2 & H3 & _).
  - split; [reflexivity|]. split; [reflexivity|]. split; assumption.
  - rewrite <- H1 in H3. auto.
Qed.

(** Every history has an abstract reading. *)
Lemma readable_dec e : (exists r, Describes e r) \/ Unreadable e.
Proof.
  destruct (row_of_entry true e) as [r|x] eqn:E.
  - left. exists r. apply row_of_entry_describes. exact E.
  - right. apply unreadable_raise. eauto.
Qed.

Lemma scan_events_total fs : exists evs, ScanEvents fs evs.
Proof.
  induction fs as [|e fs [evs IH]]; [eexists; constructor|].
  destruct (labels (e_class e)) eqn:E; [|exists evs; apply scan_skip; assumption].
  destruct (readable_dec e) as [[r Hr]|Hu].
  - exists (Put r :: evs). apply scan_put; assumption.
  - exists []. apply scan_stop; congruence || assumption.
Qed.

Lemma events_total h : exists evs, HistoryEvents h evs.
Proof.
  induction h as [|o h [evs IH]]; [eexists; constructor|].
  assert (exists ev, Events o ev) as [ev Hev].
  { destruct o as [e|e|fs|f c].
    - destruct (readable_dec e) as [[r Hr]|Hu]; eexists; [eapply ev_create|apply ev_create_bad]; eassumption.
    - destruct (readable_dec e) as [[r Hr]|Hu]; eexists; [eapply ev_remove|apply ev_remove_bad]; eassumption.
    - destruct (scan_events_total fs) as [ev Hev]. exists ev. constructor. exact Hev.
    - eexists. constructor. }
  exists (ev ++ evs). constructor; assumption.
Qed.

Lemma remove_absent_raises d e r :
  (forall r, In r d -> clean_row r) -> clean_entry e -> Describes e r ->
  (step d (ORemove e) = (d, Some ValueError) <-> ~ In (e_path e) (paths d))
  /\ (In (e_path e) (paths d) -> snd (step d (ORemove e)) = None).
Proof.
  intros Hd Hc Hr. pose proof Hr as Hr'. apply row_of_entry_describes in Hr'.
  cbn. unfold remove_entry. rewrite Hr'. cbn. unfold delete_path. rewrite (ds_path _ _ Hr).
  rewrite in_values_paths; [|apply Hc|exact Hd].
  destruct (in_dec string_dec (e_path e) (paths d)); split; try tauto.
  - split; [discriminate|tauto].
Qed.
