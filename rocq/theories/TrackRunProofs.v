(** Proofs about all the traps followed over the temperatures. *)
From Coq Require Import List Arith Bool Reals Lra Lia ZArith String Permutation Sorted.
From Verif Require Import LocModel LocSpec LocProofs LocRunProofs LocFactsProofs TrackModel TrackSpec TrackProofs.
Import ListNotations.
Local Open Scope R_scope.

(** ** Lists *)
Lemma remove_in : forall l x y, NoDup l -> (In y (remove_trap x l) <-> In y l /\ y <> x).
Proof.
  induction l as [|a l IH]; intros x y N; cbn [remove_trap]; [cbn; tauto|]. inversion N as [|? ? N1 N2]; subst. destruct (trap_eq_dec x a) as [->|NE].
  - split; [intros H; split; [right; exact H|intros ->; contradiction]|]. intros ([H|H] & K); [congruence|exact H].
  - cbn [In]. rewrite (IH x y N2). split; [intros [<-|H]; [split; [left; reflexivity|congruence]|tauto]|tauto].
Qed.
Lemma remove_nodup : forall l x, NoDup l -> NoDup (remove_trap x l).
Proof.
  induction l as [|a l IH]; intros x N; cbn [remove_trap]; [constructor|]. inversion N as [|? ? N1 N2]; subst. destruct (trap_eq_dec x a); [exact N2|]. constructor; [|exact (IH x N2)]. intros H. apply (remove_in _ _ _ N2) in H. tauto.
Qed.
Lemma remove_len : forall l x, In x l -> List.length (remove_trap x l) = (List.length l - 1)%nat.
Proof.
  induction l as [|a l IH]; intros x I; [destruct I|]. cbn [remove_trap List.length]. destruct (trap_eq_dec x a) as [->|N]; [lia|]. destruct I as [I|I]; [congruence|]. cbn [List.length]. rewrite (IH x I). destruct l; [destruct I|cbn [List.length]; lia].
Qed.
Lemma precedes_cons : forall {A} (l : list A) u x y, precedes l x y -> precedes (u :: l) x y.
Proof. intros A l u x y (a & b & c & ->). exists (u :: a), b, c. reflexivity. Qed.
Lemma precedes_in : forall {A} (l : list A) x y, precedes l x y -> In x l /\ In y l.
Proof. intros A l x y (a & b & c & ->). split; [apply in_elt|]. apply in_or_app. right. right. apply in_elt. Qed.
Lemma precedes_head : forall {A} (l : list A) x y, In y l -> precedes (x :: l) x y.
Proof. intros A l x y I. apply in_split in I. destruct I as (b & c & ->). exists [], b, c. reflexivity. Qed.
Lemma precedes_inv : forall {A} (l : list A) u x y, precedes (u :: l) x y -> (u = x /\ In y l) \/ precedes l x y.
Proof. intros A l u x y (a & b & c & E). destruct a as [|v a]; cbn [app] in E; injection E as -> ->; [left; split; [reflexivity|apply in_elt]|right; exists a, b, c; reflexivity]. Qed.
Lemma remove_precedes : forall l z x y, precedes (remove_trap z l) x y -> precedes l x y.
Proof.
  induction l as [|u l IH]; intros z x y H; cbn [remove_trap] in H; [exact H|]. destruct (trap_eq_dec z u); [exact (precedes_cons _ _ _ _ H)|]. apply precedes_inv in H. destruct H as [(-> & H)|H]; [|exact (precedes_cons _ _ _ _ (IH _ _ _ H))].
  apply precedes_head. clear -H. induction l as [|w l IH]; cbn [remove_trap] in H; [exact H|]. destruct (trap_eq_dec z w); [right; exact H|]. destruct H as [H|H]; [left; exact H|right; exact (IH H)].
Qed.
Lemma precedes_asym : forall {A} (l : list A) x y, NoDup l -> precedes l x y -> precedes l y x -> False.
Proof.
  intros A. induction l as [|u l IH]; intros x y N P Q; [destruct P as ([|? ?] & ? & ? & P); discriminate P|]. inversion N as [|? ? N1 N2]; subst. apply precedes_inv in P, Q. destruct P as [(-> & P)|P], Q as [(-> & Q)|Q]; [contradiction| | |exact (IH _ _ N2 P Q)].
  - apply precedes_in in Q. tauto.
  - apply precedes_in in P. tauto.
Qed.

(** ** The fits that remain after [n] traps *)
Section Stage.
Variable sub : string.
Variable Ts : list R.
Hypothesis TS : StronglySorted Rlt Ts.
Variable L : R -> list trap.
Hypothesis LN : forall T x, In x (L T) -> named sub x = true.
Hypothesis LD : forall T, NoDup (L T).
Fixpoint stage (n : nat) : R -> list trap := match n with O => L | S m => less (stage m) (line sub (stage m) [] Ts) end.
Definition asg (n : nat) (T : R) : option trap := look T (line sub (stage n) [] Ts).
Lemma stage_S : forall n T, stage (S n) T = match asg n T with Some x => remove_trap x (stage n T) | None => stage n T end.
Proof. reflexivity. Qed.
Lemma ts_nodup : NoDup Ts.
Proof. clear LN LD. induction TS as [|x l S IH F]; constructor; auto. intros I. rewrite Forall_forall in F. pose proof (F x I). lra. Qed.
Lemma line_nodup : forall V prev, NoDup (map fst (line sub V prev Ts)).
Proof. intros V prev. rewrite line_temps. apply NoDup_filter, ts_nodup. Qed.
Lemma asg_split : forall n T x, asg n T = Some x -> exists l1 l2, line sub (stage n) [] Ts = l1 ++ (T, x) :: l2.
Proof. intros n T x H. apply look_in, in_split in H. exact H. Qed.
Lemma asg_some_in : forall n T x, asg n T = Some x -> In x (stage n T).
Proof.
  intros n T x H. destruct (asg_split _ _ _ H) as (l1 & l2 & E). destruct (line_split _ _ _ _ _ _ _ _ E) as (prev' & _ & P). apply pick_some in P. destruct P as (a & b & P & _).
  assert (I : In x (filter (named sub) (stage n T))) by (rewrite P; apply in_elt). apply filter_In in I. tauto.
Qed.
Lemma stage_nodup : forall n T, NoDup (stage n T).
Proof. induction n as [|n IH]; intros T; [apply LD|]. rewrite stage_S. destruct (asg n T); [apply remove_nodup|]; apply IH. Qed.
Lemma in_stage : forall n T x, In x (stage n T) <-> In x (L T) /\ forall m, (m < n)%nat -> asg m T <> Some x.
Proof.
  induction n as [|n IH]; intros T x; [cbn [stage]; split; [intros H; split; [exact H|intros m; lia]|tauto]|]. rewrite stage_S.
  transitivity (In x (stage n T) /\ asg n T <> Some x).
  - destruct (asg n T) as [y|]; [rewrite (remove_in _ _ _ (stage_nodup n T)); split; intros (A & B); split; congruence || assumption|split; [intros H; split; [exact H|discriminate]|tauto]].
  - rewrite IH. split.
    + intros ((A & B) & D). split; [exact A|]. intros m M. destruct (Nat.eq_dec m n) as [->|]; [exact D|apply B; lia].
    + intros (A & B). split; [split; [exact A|intros m M; apply B; lia]|apply B; lia].
Qed.
Lemma stage_named : forall n T, filter (named sub) (stage n T) = stage n T.
Proof. intros n T. assert (H : forall x, In x (stage n T) -> named sub x = true) by (intros x H; apply in_stage in H; apply (LN T); tauto). induction (stage n T) as [|y l IH]; [reflexivity|]. cbn [filter]. rewrite (H y (or_introl eq_refl)). f_equal. apply IH. intros z Z. apply H. right. exact Z. Qed.
Lemma asg_none : forall n T, In T Ts -> (asg n T = None <-> stage n T = []).
Proof.
  intros n T I. split.
  - intros H. destruct (stage n T) as [|y l] eqn:E; [reflexivity|]. exfalso. assert (J : In T (map fst (line sub (stage n) [] Ts))) by (rewrite line_temps; apply filter_In; split; [exact I|rewrite stage_named, E; reflexivity]).
    apply in_map_iff in J. destruct J as ((T', x) & <- & J). cbn [fst] in *. apply in_look in J; [unfold asg in H; congruence|apply line_nodup].
  - intros H. destruct (asg n T) as [x|] eqn:E; [|reflexivity]. apply asg_some_in in E. rewrite H in E. destruct E.
Qed.
Lemma stage_len : forall n T, In T Ts -> List.length (stage n T) = (List.length (L T) - n)%nat.
Proof.
  induction n as [|n IH]; intros T I; [cbn [stage]; lia|]. rewrite stage_S. destruct (asg n T) as [x|] eqn:E.
  - rewrite (remove_len _ _ (asg_some_in _ _ _ E)), (IH T I). lia.
  - apply (asg_none n T I) in E. rewrite E. specialize (IH T I). rewrite E in IH. cbn [List.length] in *. lia.
Qed.
Lemma stage_precedes : forall n T x y, precedes (stage n T) x y -> precedes (L T) x y.
Proof. induction n as [|n IH]; intros T x y H; [exact H|]. rewrite stage_S in H. apply IH. destruct (asg n T); [exact (remove_precedes _ _ _ _ H)|exact H]. Qed.
Lemma asg_off : forall n T, ~ In T Ts -> asg n T = None.
Proof. intros n T N. apply look_none. intros H. apply in_map_iff in H. destruct H as ((T', x) & <- & H). apply line_in in H. contradiction. Qed.
Lemma sorted_split : forall l1 x l2, StronglySorted Rlt (l1 ++ x :: l2) -> (forall y, In y l1 -> y < x) /\ (forall y, In y l2 -> x < y).
Proof.
  induction l1 as [|u l1 IH]; intros x l2 H; cbn [app] in H; inversion H as [|? ? A B]; subst.
  - split; [intros ? []|]. intros y Y. rewrite Forall_forall in B. exact (B y Y).
  - destruct (IH x l2 A) as (P & Q). split; [|exact Q]. intros y [<-|Y]; [|exact (P y Y)]. rewrite Forall_forall in B. apply B. apply in_elt.
Qed.
Lemma filter_sorted : forall f l, StronglySorted Rlt l -> StronglySorted Rlt (filter f l).
Proof.
  intros f l H. induction H as [|x l H IH F]; [constructor|]. cbn [filter]. destruct (f x); [|exact IH]. constructor; [exact IH|]. apply Forall_forall. intros y Y. apply filter_In in Y. rewrite Forall_forall in F. apply F. tauto.
Qed.
Lemma line_sorted : forall V prev, StronglySorted Rlt (map fst (line sub V prev Ts)).
Proof. intros V prev. rewrite line_temps. apply filter_sorted. exact TS. Qed.
Lemma asg_pick : forall n T x, asg n T = Some x -> exists prev, chosen prev (stage n T) x /\
  match prev with [] => forall T', T' < T -> asg n T' = None | (T0, x0) :: _ => T0 < T /\ asg n T0 = Some x0 /\ forall T', T0 < T' < T -> asg n T' = None end.
Proof.
  intros n T x H. destruct (asg_split _ _ _ H) as (l1 & l2 & E). destruct (line_split _ _ _ _ _ _ _ _ E) as (prev & P & Q). apply pick_some in Q. rewrite stage_named in Q. exists prev. split; [exact Q|].
  pose proof (line_sorted (stage n) []) as SS. rewrite E, map_app in SS. cbn [map fst] in SS. destruct (sorted_split _ _ _ SS) as (A & B).
  assert (NEAR : forall T', T' < T -> (forall y, ~ In (T', y) l1) -> asg n T' = None).
  { intros T' LT NO. destruct (asg n T') as [y|] eqn:K; [|reflexivity]. exfalso. apply look_in in K. rewrite E in K. apply in_app_or in K. destruct K as [K|[K|K]]; [exact (NO y K)|injection K as -> ->; lra|]. pose proof (B T' (in_map fst _ _ K)). lra. }
  destruct (rev l1) as [|(T0, x0) r] eqn:RV; subst prev.
  - intros T' LT. apply (NEAR T' LT). intros y Y. apply in_rev in Y. rewrite RV in Y. destruct Y.
  - assert (L1 : l1 = rev r ++ [(T0, x0)]) by (rewrite <- (rev_involutive l1), RV; reflexivity).
    assert (I0 : In (T0, x0) l1) by (rewrite L1; apply in_elt). split; [exact (A T0 (in_map fst _ _ I0))|]. split; [apply in_look; [apply line_nodup|rewrite E; apply in_or_app; left; exact I0]|].
    intros T' (G1 & G2). apply (NEAR T' G2). intros y Y. rewrite L1 in Y. apply in_app_or in Y. destruct Y as [Y|[Y|[]]]; [|injection Y as -> ->; lra].
    rewrite L1, !map_app, <- app_assoc in SS. cbn [map fst app] in SS. destruct (sorted_split _ _ _ SS) as (A' & _). pose proof (A' T' (in_map fst _ _ Y)). lra.
Qed.
Lemma asg_tracked : tracked L Ts asg.
Proof.
  assert (FREE : forall n T y, free L asg n T y <-> In y (stage n T)) by (intros n T y; unfold free; rewrite in_stage; reflexivity).
  constructor.
  - intros n T I. rewrite (asg_none n T I). pose proof (stage_len n T I) as SL. destruct (stage n T); cbn [List.length] in SL; split; intros H; try congruence; try lia. all: intros H'; try congruence; lia.
  - intros n T x _ H. apply asg_some_in, in_stage in H. tauto.
  - intros m n T x _ A B. destruct (Nat.lt_trichotomy m n) as [G|[G|G]]; [|exact G|]; exfalso.
    + apply asg_some_in, in_stage in B. exact (proj2 B m G A).
    + apply asg_some_in, in_stage in A. exact (proj2 A n G B).
  - intros n T x I H LOW y FY. apply FREE in FY. destruct (asg_pick _ _ _ H) as (prev & (l1 & l2 & E & CH) & PV). destruct prev as [|(T0, x0) prev].
    + subst l1. cbn [app] in E. rewrite E in FY. destruct FY as [FY|FY]; [left; exact FY|right]. apply (stage_precedes n). rewrite E. apply precedes_head. exact FY.
    + destruct PV as (P1 & P2 & _). destruct (in_dec Req_EM_T T0 Ts) as [J|J]; [rewrite (LOW T0 J P1) in P2; discriminate P2|rewrite (asg_off n T0 J) in P2; discriminate P2].
  - intros n T x T0 x0 I I0 H H0 LT BET y FY. apply FREE in FY. destruct (asg_pick _ _ _ H) as (prev & (l1 & l2 & E & CH) & PV). destruct prev as [|(T1, x1) prev]; [rewrite (PV T0 LT) in H0; discriminate H0|]. destruct PV as (P1 & P2 & P3).
    assert (T1 = T0). { destruct (Rtotal_order T1 T0) as [G|[G|G]]; [rewrite (P3 T0) in H0 by lra; discriminate H0|exact G|]. destruct (in_dec Req_EM_T T1 Ts) as [J|J]; [rewrite (BET T1 J) in P2 by lra; discriminate P2|rewrite (asg_off n T1 J) in P2; discriminate P2]. }
    subst T1. assert (x1 = x0) by congruence. subst x1. destruct CH as (C1 & C2). rewrite E in FY. apply in_app_or in FY. destruct FY as [FY|[FY|FY]]; [left; exact (C1 y FY)|subst y; right; split; [reflexivity|left; reflexivity]|].
    destruct (Rle_lt_or_eq_dec _ _ (C2 y FY)) as [G|G]; [left; exact G|right]. split; [exact G|]. right. apply (stage_precedes n). rewrite E. apply in_split in FY. destruct FY as (b & c & ->). exists l1, b, c. reflexivity.
Qed.
Definition line_entry (n : nat) : entry := entry_of (rev (line sub (stage n) [] Ts)).
Lemma line_recorded : forall n, line sub (stage n) [] Ts <> [] -> recorded Ts asg n (line_entry n).
Proof.
  intros n NE. unfold line_entry, recorded, entry_of. cbn [e_T e_tau e_sig e_cap]. rewrite rev_involutive.
  assert (KEY : forall T x, In (T, x) (line sub (stage n) [] Ts) -> asg n T = Some x) by (intros T x H; apply in_look; [apply line_nodup|exact H]).
  assert (F2 : forall {B} (f : trap -> B), Forall2 (fun T v => exists x, asg n T = Some x /\ v = f x) (map fst (line sub (stage n) [] Ts)) (map (fun p => f (snd p)) (line sub (stage n) [] Ts))).
  { intros B f. revert KEY. generalize (line sub (stage n) [] Ts) as l. clear NE. induction l as [|(T, x) l IH]; intros KEY; cbn [map fst snd]; constructor; [exists x; split; [apply KEY; left; reflexivity|reflexivity]|apply IH; intros T' x' I; apply KEY; right; exact I]. }
  split; [intros H; apply NE; exact (map_eq_nil _ _ H)|]. split; [apply line_sorted|]. split; [|split; [apply F2|split; apply F2]].
  intros T. split.
  - intros H. apply in_map_iff in H. destruct H as ((T', x) & <- & H). split; [exact (line_in _ _ _ _ _ _ H)|]. cbn [fst]. rewrite (KEY _ _ H). discriminate.
  - intros (I & H). destruct (asg n T) as [x|] eqn:E; [|congruence]. apply look_in in E. exact (in_map fst _ _ E).
Qed.
End Stage.

Lemma sorted_same : forall l m : list R, StronglySorted Rlt l -> StronglySorted Rlt m -> (forall x, In x l <-> In x m) -> l = m.
Proof.
  induction l as [|x l IH]; intros m A B H.
  - destruct m as [|y m]; [reflexivity|]. destruct (proj2 (H y) (or_introl eq_refl)).
  - destruct m as [|y m]; [destruct (proj1 (H x) (or_introl eq_refl))|]. inversion A as [|? ? A1 A2]; inversion B as [|? ? B1 B2]; subst. rewrite Forall_forall in A2, B2.
    assert (x = y). { destruct (proj1 (H x) (or_introl eq_refl)) as [E|E]; [auto|]. destruct (proj2 (H y) (or_introl eq_refl)) as [E'|E']; [auto|]. pose proof (B2 x E). pose proof (A2 y E'). lra. }
    subst y. f_equal. apply IH; [exact A1|exact B1|]. intros z. split; intros Z.
    + destruct (proj1 (H z) (or_intror Z)) as [<-|K]; [|exact K]. pose proof (A2 x Z). lra.
    + destruct (proj2 (H z) (or_intror Z)) as [<-|K]; [|exact K]. pose proof (B2 x Z). lra.
Qed.
Lemma recorded_unique : forall Ts a n e e', recorded Ts a n e -> recorded Ts a n e' -> e = e'.
Proof.
  intros Ts a n e e' (_ & S1 & I1 & A1 & B1 & C1) (_ & S2 & I2 & A2 & B2 & C2).
  assert (TT : e_T e = e_T e') by (apply sorted_same; [exact S1|exact S2|]; intros x; rewrite I1, I2; reflexivity).
  assert (F : forall {B} (f : trap -> B) l v w, Forall2 (fun T v => exists x, a n T = Some x /\ v = f x) l v -> Forall2 (fun T v => exists x, a n T = Some x /\ v = f x) l w -> v = w).
  { intros B f l. induction l as [|T l IH]; intros v w F G; inversion F as [|? ? ? ? (u & X1 & X2) F']; inversion G as [|? ? ? ? (z & Y1 & Y2) G']; subst; [reflexivity|]. f_equal; [congruence|exact (IH _ _ F' G')]. }
  destruct e as [t1 u1 v1 w1], e' as [t2 u2 v2 w2]. cbn [e_T e_tau e_sig e_cap] in *. subst t2. f_equal; [exact (F _ _ _ _ _ A1 A2)|exact (F _ _ _ _ _ B1 B2)|exact (F _ _ _ _ _ C1 C2)].
Qed.

(** ** Uniqueness of the description *)
Lemma latest : forall (P : R -> Prop) (dec : forall T, {P T} + {~ P T}) Ts T, (exists T0, In T0 Ts /\ T0 < T /\ P T0 /\ forall T', In T' Ts -> T0 < T' < T -> ~ P T') \/ (forall T', In T' Ts -> T' < T -> ~ P T').
Proof.
  intros P dec Ts T. induction Ts as [|u Ts IH]; [right; intros ? []|]. destruct (Rlt_dec u T) as [G|G].
  - destruct (dec u) as [D|D].
    + left. destruct IH as [(T0 & I0 & L0 & P0 & K)|K].
      * destruct (Rlt_le_dec T0 u) as [Q|Q]; [exists u|exists T0]; (split; [try (left; reflexivity); right; exact I0|]); (split; [assumption|]); (split; [assumption|]); intros T' [<-|I] B; try lra; try (apply K; [exact I|lra]).
      * exists u. split; [left; reflexivity|]. split; [exact G|]. split; [exact D|]. intros T' [<-|I] B; [lra|apply K; [exact I|lra]].
    + destruct IH as [(T0 & I0 & L0 & P0 & K)|K]; [left|right].
      * exists T0. split; [right; exact I0|]. split; [exact L0|]. split; [exact P0|]. intros T' [<-|I] B; [exact D|exact (K T' I B)].
      * intros T' [<-|I] B; [exact D|exact (K T' I B)].
  - destruct IH as [(T0 & I0 & L0 & P0 & K)|K]; [left|right].
    + exists T0. split; [right; exact I0|]. split; [exact L0|]. split; [exact P0|]. intros T' [<-|I] B; [lra|exact (K T' I B)].
    + intros T' [<-|I] B; [lra|exact (K T' I B)].
Qed.
Lemma below_ind : forall (Ts : list R) (P : R -> Prop), (forall T, In T Ts -> (forall T', In T' Ts -> T' < T -> P T') -> P T) -> forall T, In T Ts -> P T.
Proof.
  intros Ts P H T. remember (List.length (filter (fun u => if Rlt_dec u T then true else false) Ts)) as k eqn:K. revert T K. induction k as [k IH] using (well_founded_induction lt_wf). intros T K I. apply H; [exact I|]. intros T' I' G.
  apply (IH (List.length (filter (fun u => if Rlt_dec u T' then true else false) Ts))); [|reflexivity|exact I']. subst k. clear -I' G.
  assert (LE : forall l : list R, (List.length (filter (fun u => if Rlt_dec u T' then true else false) l) <= List.length (filter (fun u => if Rlt_dec u T then true else false) l))%nat).
  { induction l as [|u l IH]; [reflexivity|]. cbn [filter]. destruct (Rlt_dec u T'), (Rlt_dec u T); cbn [List.length]; try lia; lra. }
  induction Ts as [|u l IH]; [destruct I'|]. cbn [filter]. destruct I' as [->|I'].
  - destruct (Rlt_dec T' T'); [lra|]. destruct (Rlt_dec T' T); [|lra]. cbn [List.length]. pose proof (LE l). lia.
  - specialize (IH I'). destruct (Rlt_dec u T'), (Rlt_dec u T); cbn [List.length]; try lia; lra.
Qed.
Lemma tracked_unique : forall L Ts a b, (forall T, NoDup (L T)) -> tracked L Ts a -> tracked L Ts b -> forall n T, In T Ts -> a n T = b n T.
Proof.
  intros L Ts a b ND A B n. induction n as [n IHn] using (well_founded_induction lt_wf). apply (below_ind Ts (fun T => a n T = b n T)). intros T I IHT.
  assert (FR : forall y, free L a n T y <-> free L b n T y) by (intros y; unfold free; split; intros (F & G); (split; [exact F|]); intros m M; [rewrite <- (IHn m M T I)|rewrite (IHn m M T I)]; exact (G m M)).
  pose proof (tr_present _ _ _ A n T I) as PA. pose proof (tr_present _ _ _ B n T I) as PB.
  destruct (a n T) as [x|] eqn:EA, (b n T) as [y|] eqn:EB; [| | |reflexivity]; [|exfalso; apply PB; [apply PA; discriminate|reflexivity]|exfalso; apply PA; [apply PB; discriminate|reflexivity]].
  f_equal.
  assert (FX : free L b n T x). { apply FR. split; [exact (tr_mine _ _ _ A n T x I EA)|]. intros m M E. pose proof (tr_once _ _ _ A m n T x I E EA). lia. }
  assert (FY : free L a n T y). { apply FR. split; [exact (tr_mine _ _ _ B n T y I EB)|]. intros m M E. pose proof (tr_once _ _ _ B m n T y I E EB). lia. }
  assert (dec : forall T', {a n T' <> None} + {~ a n T' <> None}) by (intros T'; destruct (a n T'); [left; discriminate|right; intros H; apply H; reflexivity]).
  destruct (latest (fun T' => a n T' <> None) dec Ts T) as [(T0 & I0 & L0 & P0 & K)|K].
  - destruct (a n T0) as [x0|] eqn:E0; [|congruence]. assert (E0' : b n T0 = Some x0) by (rewrite <- (IHT T0 I0 L0); exact E0).
    assert (BA : forall T', In T' Ts -> T0 < T' < T -> a n T' = None) by (intros T' I' G; destruct (a n T') eqn:E; [exfalso; apply (K T' I' G); rewrite E; discriminate|reflexivity]).
    assert (BB : forall T', In T' Ts -> T0 < T' < T -> b n T' = None) by (intros T' I' G; rewrite <- (IHT T' I') by lra; exact (BA T' I' G)).
    pose proof (tr_next _ _ _ A n T x T0 x0 I I0 EA E0 L0 BA y FY) as Q1. pose proof (tr_next _ _ _ B n T y T0 x0 I I0 EB E0' L0 BB x FX) as Q2.
    destruct Q1 as [Q1|(Q1 & [R1|R1])], Q2 as [Q2|(Q2 & [R2|R2])]; try congruence; try lra. destruct (precedes_asym _ _ _ (ND T) R1 R2).
  - assert (BA : forall T', In T' Ts -> T' < T -> a n T' = None) by (intros T' I' G; destruct (a n T') eqn:E; [exfalso; apply (K T' I' G); rewrite E; discriminate|reflexivity]).
    assert (BB : forall T', In T' Ts -> T' < T -> b n T' = None) by (intros T' I' G; rewrite <- (IHT T' I' G); exact (BA T' I' G)).
    destruct (tr_start _ _ _ A n T x I EA BA y FY) as [R1|R1], (tr_start _ _ _ B n T y I EB BB x FX) as [R2|R2]; try congruence. destruct (precedes_asym _ _ _ (ND T) R1 R2).
Qed.
