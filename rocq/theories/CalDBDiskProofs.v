From Coq Require Import List ZArith QArith Bool Lia String Ascii.
From Verif Require Import Base BaseProofs CalDBModel CalDBSpec CalDBProofs CalDBQueryProofs.
Import ListNotations.
Local Open Scope string_scope.
Local Open Scope list_scope.

Lemma set_mem_same i d m : set_mem i d m i = d.
Proof. unfold set_mem. rewrite Nat.eqb_refl. reflexivity. Qed.

(** One single-entry operation with [to_disk] acts on the file as the
    in-memory operation acts on the table. *)
Lemma w_modify_disk i vals f w d :
  w_disk w = Some d -> (vals = Raise KeyError \/ True) ->
  w_disk (fst (w_modify i true vals f w)) =
    Some (match vals with Ok _ => match f d with Ok d' => d' | Raise _ => d end | Raise _ => d end)
  /\ snd (w_modify i true vals f w) =
    match vals with
    | Ok _ => match f d with Ok _ => None | Raise x => Some x end
    | Raise x => Some x end.
Proof.
  intros Hd _. unfold w_modify. destruct vals as [r|x]; [|split; assumption || reflexivity].
  unfold load. rewrite Hd. cbn. rewrite set_mem_same.
  destruct (f d) as [d'|x]; cbn; [|split; assumption || reflexivity].
  rewrite set_mem_same. split; reflexivity.
Qed.

Lemma w_create_disk i e w d : w_disk w = Some d ->
  w_disk (fst (w_create i true e w)) = Some (fst (step d (OCreate e)))
  /\ snd (w_create i true e w) = snd (step d (OCreate e)).
Proof.
  intro Hd. unfold w_create.
  destruct (w_modify_disk i (row_of_entry true e) (create_entry e) w d Hd (or_intror I)) as [-> ->].
  cbn [step]. unfold create_entry. destruct (row_of_entry true e); cbn [bind]; split; reflexivity.
Qed.

Lemma w_remove_disk i e w d : w_disk w = Some d ->
  w_disk (fst (w_remove i true e w)) = Some (fst (step d (ORemove e)))
  /\ snd (w_remove i true e w) = snd (step d (ORemove e)).
Proof.
  intro Hd. unfold w_remove.
  destruct (w_modify_disk i (row_of_entry true e) (remove_entry e) w d Hd (or_intror I)) as [-> ->].
  cbn [step]. unfold remove_entry. destruct (row_of_entry true e); cbn [bind]; [|split; reflexivity].
  destruct (delete_path (r_path a) d); split; reflexivity.
Qed.

Lemma w_create_all_disk i : forall es w d, w_disk w = Some d ->
  w_disk (fst (w_create_all i true es w)) = Some (fst (create_all es d))
  /\ snd (w_create_all i true es w) = snd (create_all es d).
Proof.
  induction es as [|e es IH]; intros w d Hd; [split; [exact Hd|reflexivity]|].
  cbn [w_create_all create_all].
  destruct (w_create_disk i e w d Hd) as [H1 H2]. cbn [step] in *.
  destruct (w_create i true e w) as [w' x'] eqn:E. cbn in *.
  destruct (create_entry e d) as [d'|x]; cbn in *; subst x'.
  - apply IH. exact H1.
  - split; [exact H1|reflexivity].
Qed.

Lemma w_get_disk i f c w d : w_disk w = Some d ->
  w_disk (fst (w_get i true f c w)) = Some d
  /\ snd (w_get i true f c w) = get_calib f c d.
Proof.
  intro Hd. unfold w_get. destruct (labels c) as [lab|] eqn:EL.
  2:{ split; [exact Hd|]. unfold get_calib. rewrite EL. reflexivity. }
  destruct f as [f|].
  - destruct (row_of_entry false f) as [fr|x] eqn:ER; cbn [bind].
    + unfold load. rewrite Hd. cbn. rewrite set_mem_same. split; reflexivity.
    + split; [exact Hd|]. unfold get_calib. rewrite EL, ER. reflexivity.
  - unfold load. rewrite Hd. cbn. rewrite set_mem_same. split; reflexivity.
Qed.

Lemma w_step_disk i o w d : w_disk w = Some d ->
  w_disk (fst (w_step i true o w)) = Some (fst (step d o))
  /\ snd (w_step i true o w) = snd (step d o).
Proof.
  intro Hd. destruct o as [e|e|fs|f c]; cbn [w_step].
  - apply w_create_disk. exact Hd.
  - apply w_remove_disk. exact Hd.
  - apply w_create_all_disk. exact Hd.
  - destruct (w_get_disk i f c w d Hd) as [H1 H2].
    destruct (w_get i true f c w) as [w' r]. cbn in *. subst r.
    destruct (get_calib f c d); split; assumption || reflexivity.
Qed.

Lemma w_run_disk : forall h os w d, shared_history h os -> w_disk w = Some d ->
  w_disk (fst (w_run w h)) = Some (run d os).
Proof.
  induction h as [|a h IH]; intros os w d Hs Hd; inversion Hs as [|a' h' o os' Ha Hh]; subst.
  - exact Hd.
  - cbn [w_run]. destruct (w_exec w a) as [w' x] eqn:E.
    destruct (w_run w' h) as [w'' xs] eqn:E2. cbn [fst].
    assert (Hd' : w_disk w' = Some (run d o)).
    { destruct Ha as [i o|i]; cbn [w_exec] in E.
      - destruct (w_step_disk i o w d Hd) as [H1 _]. rewrite E in H1. exact H1.
      - injection E as <- _. unfold open. rewrite Hd. reflexivity. }
    specialize (IH os' w' (run d o) Hh Hd'). rewrite E2 in IH. cbn in IH. rewrite IH.
    unfold run. rewrite fold_left_app. reflexivity.
Qed.

(** A to_disk=False session: everything done in memory reaches the file at the
    next save, and the file is untouched before. *)
Lemma mem_step i o w :
  w_disk (fst (w_step i false o w)) = w_disk w
  /\ w_mem (fst (w_step i false o w)) i = fst (step (w_mem w i) o)
  /\ (forall j, j <> i -> w_mem (fst (w_step i false o w)) j = w_mem w j)
  /\ snd (w_step i false o w) = snd (step (w_mem w i) o).
Proof.
  assert (Hm : forall (vals : result row) f w0,
    let r := w_modify i false vals f w0 in
    w_disk (fst r) = w_disk w0
    /\ w_mem (fst r) i = (match vals with Ok _ => match f (w_mem w0 i) with Ok d' => d' | Raise _ => w_mem w0 i end | Raise _ => w_mem w0 i end)
    /\ (forall j, j <> i -> w_mem (fst r) j = w_mem w0 j)
    /\ snd r = match vals with Ok _ => match f (w_mem w0 i) with Ok _ => None | Raise x => Some x end | Raise x => Some x end).
  { intros vals f w0. unfold w_modify. destruct vals as [a|x]; [|cbn; auto].
    destruct (f (w_mem w0 i)) as [d'|x]; cbn; [|auto].
    rewrite set_mem_same. repeat split. intros j Hj. unfold set_mem.
    destruct (Nat.eqb_spec j i); [congruence|reflexivity]. }
  assert (Hc : forall e w0,
    w_disk (fst (w_create i false e w0)) = w_disk w0
    /\ w_mem (fst (w_create i false e w0)) i = fst (step (w_mem w0 i) (OCreate e))
    /\ (forall j, j <> i -> w_mem (fst (w_create i false e w0)) j = w_mem w0 j)
    /\ snd (w_create i false e w0) = snd (step (w_mem w0 i) (OCreate e))).
  { intros e w0. unfold w_create. destruct (Hm (row_of_entry true e) (create_entry e) w0) as (H1 & H2 & H3 & H4).
    split; [exact H1|]. rewrite H2, H4. split; [|split; [exact H3|]];
      clear; cbn [step]; unfold create_entry; destruct (row_of_entry true e); reflexivity. }
  destruct o as [e|e|fs|f c]; cbn [w_step].
  - apply Hc.
  - unfold w_remove. destruct (Hm (row_of_entry true e) (remove_entry e) w) as (H1 & H2 & H3 & H4).
    split; [exact H1|]. rewrite H2, H4. split; [|split; [exact H3|]];
      clear; cbn [step]; unfold remove_entry; destruct (row_of_entry true e); cbn [bind];
      [destruct (delete_path (r_path a) (w_mem w i))| |destruct (delete_path (r_path a) (w_mem w i))|];
      reflexivity.
  - cbn [step]. unfold w_scan, scan_dir.
    generalize (filter (fun e : entry => match labels (e_class e) with Some _ => true | None => false end) fs).
    intro es. revert w. induction es as [|e es IH]; intro w; [cbn; auto|].
    cbn [w_create_all create_all]. destruct (Hc e w) as (H1 & H2 & H3 & H4). cbn [step] in *.
    destruct (w_create i false e w) as [w' x'] eqn:E. cbn [fst snd] in *.
    destruct (create_entry e (w_mem w i)) as [d'|x]; cbn [fst snd] in *; subst x'.
    + destruct (IH w') as (K1 & K2 & K3 & K4). rewrite H1 in K1. rewrite H2 in K2, K4.
      repeat split; try assumption. intros j Hj. rewrite (K3 j Hj). apply H3. exact Hj.
    + repeat split; assumption.
  - cbn [step]. unfold w_get. destruct (labels c) as [lab|] eqn:EL.
    + destruct f as [f|].
      * destruct (row_of_entry false f) as [fr|x] eqn:ER; cbn [bind].
        -- destruct (get_calib (Some f) c (w_mem w i)); cbn; auto.
        -- unfold get_calib. rewrite EL, ER. cbn. auto.
      * cbn [bind]. destruct (get_calib None c (w_mem w i)); cbn; auto.
    + unfold get_calib. rewrite EL. cbn. auto.
Qed.

Lemma w_run_app : forall h1 h2 w, fst (w_run w (h1 ++ h2)) = fst (w_run (fst (w_run w h1)) h2).
Proof.
  induction h1 as [|a h1 IH]; intros h2 w; [reflexivity|].
  cbn [app w_run]. destruct (w_exec w a) as [w' x]. specialize (IH h2 w').
  destruct (w_run w' (h1 ++ h2)) as [w1 x1]. destruct (w_run w' h1) as [w2 x2]. exact IH.
Qed.

Lemma mem_run i : forall os w,
  w_disk (fst (w_run w (mem_history i os))) = w_disk w
  /\ w_mem (fst (w_run w (mem_history i os))) i = run (w_mem w i) os.
Proof.
  induction os as [|o os IH]; intro w; [split; reflexivity|].
  cbn [mem_history map w_run w_exec]. destruct (mem_step i o w) as (H1 & H2 & _).
  destruct (w_step i false o w) as [w' x]. cbn [fst] in *.
  destruct (IH w') as [K1 K2]. unfold mem_history in *.
  destruct (w_run w' (map (WOp i false) os)) as [w'' xs]. cbn [fst] in *.
  rewrite K1, K2, H1, H2. split; reflexivity.
Qed.

Lemma mem_session i os w d :
  w_disk w = Some d ->
  w_disk (fst (w_run w (WOpen i :: mem_history i os))) = Some d
  /\ w_disk (fst (w_run w (WOpen i :: mem_history i os ++ [WSave i]))) = Some (run d os).
Proof.
  intro Hd. set (w0 := open i w).
  assert (E0 : w_disk w0 = Some d /\ w_mem w0 i = d).
  { unfold w0, open. rewrite Hd. cbn. rewrite set_mem_same. auto. }
  destruct E0 as [E1 E2]. destruct (mem_run i os w0) as [K1 K2].
  split.
  - change (WOpen i :: mem_history i os) with ([WOpen i] ++ mem_history i os).
    rewrite w_run_app. cbn [w_run w_exec fst]. fold w0. rewrite K1. exact E1.
  - change (WOpen i :: mem_history i os ++ [WSave i]) with ([WOpen i] ++ mem_history i os ++ [WSave i]).
    rewrite w_run_app, w_run_app. cbn [w_run w_exec fst]. fold w0.
    unfold save. cbn [w_disk]. rewrite K2, E2. reflexivity.
Qed.

(** ** Interleavings *)

Lemma single_fail o d x : single o -> snd (step d o) = Some x -> fst (step d o) = d.
Proof.
  destruct o as [e|e|fs|f c]; cbn; try tauto.
  - destruct (create_entry e d); cbn; congruence.
  - destruct (remove_entry e d); cbn; congruence.
Qed.

Lemma overwrite_same o d : single o -> overwrite o d d = fst (step d o).
Proof.
  intro H. unfold overwrite. destruct (snd (step d o)) as [x|] eqn:E; [|reflexivity].
  symmetry. eapply single_fail; eassumption.
Qed.

(** All complete schedules, for case analysis. *)
Fixpoint schedules (t f : nat) (fuel : nat) : list (list bool) :=
  match fuel with
  | O => [[]]
  | S fuel =>
    (match t with O => [] | S t' => map (cons true) (schedules t' f fuel) end) ++
    (match f with O => [] | S f' => map (cons false) (schedules t f' fuel) end)
  end.

Lemma schedules_all : forall s t f fuel,
  count_occ Bool.bool_dec s true = t -> count_occ Bool.bool_dec s false = f ->
  fuel = (t + f)%nat -> In s (schedules t f fuel).
Proof.
  induction s as [|x s IH]; intros t f fuel Ht Hf Hn.
  - cbn in *. subst. left. reflexivity.
  - cbn [count_occ] in Ht, Hf. destruct x.
    + destruct (Bool.bool_dec true true); [|congruence].
      destruct (Bool.bool_dec true false); [discriminate|].
      subst t. subst fuel. cbn [Nat.add schedules]. apply in_app_iff. left. apply in_map.
      apply IH; auto.
    + destruct (Bool.bool_dec false true); [discriminate|].
      destruct (Bool.bool_dec false false); [|congruence].
      subst f. subst fuel. rewrite Nat.add_succ_r. cbn [schedules]. apply in_app_iff. right. apply in_map.
      apply IH; auto.
Qed.

Lemma interleave_cases s o1 o2 d :
  complete s -> single o1 -> single o2 ->
  let final := fst (fst (interleave o1 o2 s d thread0 thread0)) in
  (* first thread saves before the second loads *)
  (before_all false 0 s = 3%nat -> final = run d [o1; o2])
  (* second saves before the first loads *)
  /\ (before_all true 0 s = 3%nat -> final = run d [o2; o1])
  (* otherwise both loaded the same table; the last to save wins *)
  /\ ((before_all false 0 s < 3)%nat -> (before_all true 0 s < 3)%nat ->
      (before_all false 2 s = 3%nat -> final = overwrite o2 d (run d [o1]))
      /\ (before_all true 2 s = 3%nat -> final = overwrite o1 d (run d [o2]))
      /\ (before_all false 2 s = 3%nat \/ before_all true 2 s = 3%nat)).
Proof.
  intros [Hc1 Hc2] S1 S2 final.
  assert (Hin : In s (schedules 3 3 6)) by (apply schedules_all; auto).
  pose proof (overwrite_same o1 d S1) as O1. pose proof (overwrite_same o2 d S2) as O2.
  pose proof (overwrite_same o2 (fst (step d o1)) S2) as O12.
  pose proof (overwrite_same o1 (fst (step d o2)) S1) as O21.
  cbn [schedules map app In] in Hin.
  repeat (destruct Hin as [<-|Hin];
    [ unfold final; cbn [before_all Bool.eqb];
      split; [|split; [|intros HA HB; split; [|split]]]; try (intros HC; exfalso; lia); try lia;
      try (intros _); unfold run; cbn [fold_left];
      cbn [interleave thread_step thread0 t_pc t_mem t_exn fst snd];
      repeat match goal with
      | |- context [match snd (step ?x ?o) with Some _ => ?d | None => fst (step ?x ?o) end] =>
          change (match snd (step x o) with Some _ => d | None => fst (step x o) end)
            with (overwrite o x d)
      end;
      rewrite ?O1, ?O2, ?O12, ?O21; reflexivity | ]).
  destruct Hin.
Qed.

Lemma shared_outputs h os w d i o :
  shared_history h os -> w_disk w = Some d ->
  snd (w_step i true o (fst (w_run w h))) = snd (step (run d os) o).
Proof.
  intros Hs Hd. apply w_step_disk. apply w_run_disk; assumption.
Qed.

Lemma shared_get h os w d i f c :
  shared_history h os -> w_disk w = Some d ->
  snd (w_get i true f c (fst (w_run w h))) = get_calib f c (run d os).
Proof.
  intros Hs Hd. apply w_get_disk. apply w_run_disk; assumption.
Qed.

Lemma crash_loses k new r :
  NoDup (paths new) -> (k < List.length new)%nat -> nth_error new k = Some r ->
  exists d, crash_in_save k new = Some d /\ lookup d (r_path r) = None.
Proof.
  intros Hn Hk Hr. exists (firstn k new). split; [reflexivity|]. apply lookup_none.
  intro Hin. unfold paths in *. rewrite <- (firstn_skipn k new), map_app in Hn.
  assert (In (r_path r) (map r_path (skipn k new))) as H2.
  { apply in_map. rewrite <- (firstn_skipn k new) in Hr.
    rewrite nth_error_app2 in Hr; rewrite firstn_length_le in * by lia; [|lia].
    eapply nth_error_In. exact Hr. }
  revert Hn Hin H2. generalize (map r_path (skipn k new)). intros l2.
  induction (map r_path (firstn k new)) as [|x l IH]; cbn; [tauto|].
  intros Hn [->|Hin] H2; inversion Hn as [|? ? Hx Hl]; subst.
  - apply Hx. apply in_app_iff. right. exact H2.
  - apply IH; assumption.
Qed.

(** ** Concrete entries *)
Definition ex_entry (p : string) (c : cls) (t ex created : Q) (opmode : string) : entry :=
  mkentry p c (Some t) (Some ex) (Some 3%Z) (Some created) (Some "2.0") (Some 1%Z) "123"
    [1024; 1024]%Z (Some opmode) (Some 1) (Some 40).
Definition ex_dark1 := ex_entry "/cal/dark1.fits" Dark 60000 10 60001 "IMAGE".
Definition ex_dark2 := ex_entry "/cal/dark2.fits" Dark 60005 10 60006 "IMAGE".
Definition ex_dark3 := ex_entry "/cal/dark3.fits" Dark 60002 20 60009 "IMAGE".
Definition ex_flat := ex_entry "/cal/flat.fits" FlatField 60003 5 60004 "IMAGE".
Definition ex_image := ex_entry "/data/img.fits" OtherClass 60003 10 60004 "IMAGE".
Definition ex_row (e : entry) : row :=
  match row_of_entry true e with Ok r => r
  | Raise _ => mkrow "" "" 0 0 0 0 "" "" 0 0 0 "" 0 0 end.

Lemma open_spec i w :
  (w_disk w = None -> w_disk (open i w) = Some [] /\ w_mem (open i w) i = [])
  /\ (forall d, w_disk w = Some d -> w_disk (open i w) = Some d /\ w_mem (open i w) i = d)
  /\ (forall j, j <> i -> w_mem (open i w) j = w_mem w j).
Proof.
  unfold open, set_mem. split; [|split].
  - intros ->. cbn. rewrite Nat.eqb_refl. auto.
  - intros d ->. cbn. rewrite Nat.eqb_refl. auto.
  - intros j Hj. destruct (w_disk w); cbn; destruct (Nat.eqb_spec j i); congruence.
Qed.

Lemma shared_from_nothing i h os w :
  shared_history h os -> w_disk w = None ->
  w_disk (fst (w_run w (WOpen i :: h))) = Some (run [] os).
Proof.
  intros Hs Hd. pose proof (proj1 (open_spec i w) Hd) as [O _]. cbn [w_run w_exec].
  pose proof (w_run_disk h os (open i w) [] Hs O) as Q. destruct (w_run (open i w) h) as [w2 xs]. exact Q.
Qed.
