(** Proofs: what is accepted and what is raised. *)
From Coq Require Import List Arith Bool ZArith QArith String Lia.
From Verif Require Import ChkValModel ChkValSpec ChkValProofs.
Import ListNotations.

Lemma le0_at : forall v p, real v p -> le0 v = match p with Below | Zero => true | _ => false end.
Proof.
  intros v p H. destruct (le0 v) eqn:E.
  - apply le0_iff in E. destruct E as [E|E]; rewrite (real_one _ _ _ H E) || rewrite (real_one _ _ _ E H); reflexivity.
  - destruct p; try reflexivity; exfalso; assert (X : le0 v = true) by (apply le0_iff; auto); congruence.
Qed.
Lemma lt0_at : forall v p, real v p -> lt0 v = match p with Below => true | _ => false end.
Proof.
  intros v p H. destruct (lt0 v) eqn:E.
  - apply lt0_iff in E. rewrite (real_one _ _ _ E H). reflexivity.
  - destruct p; try reflexivity; exfalso; assert (X : lt0 v = true) by (apply lt0_iff; auto); congruence.
Qed.
Lemma real_not_complex : forall v p, real v p -> ~ complex v.
Proof. intros v p H C. apply complex_iff in C. assert (X : is_number v && is_real v = true) by (apply real_some; eauto). destruct (is_number v), (is_real v); discriminate. Qed.
Lemma classify : forall v,
  (is_number v = false /\ is_int v = false /\ ~ number v /\ ~ complex v /\ (forall p, ~ real v p) /\ (forall p, ~ whole v p)) \/
  (is_number v = true /\ is_real v = false /\ is_int v = false /\ number v /\ complex v /\ (forall p, ~ real v p) /\ (forall p, ~ whole v p)) \/
  (exists p, is_number v = true /\ is_real v = true /\ is_int v = false /\ number v /\ ~ complex v /\ real v p /\ (forall p', real v p' -> p' = p) /\ (forall p, ~ whole v p)) \/
  (exists p, is_number v = true /\ is_real v = true /\ is_int v = true /\ number v /\ ~ complex v /\ real v p /\ (forall p', real v p' -> p' = p) /\ whole v p /\ (forall p', whole v p' -> p' = p)).
Proof.
  intros v. pose proof (number_iff v) as N. pose proof (real_some v) as S1. pose proof (complex_iff v) as C. pose proof (whole_some v) as W. assert (WR : forall p, whole v p -> real v p) by (intros p; apply real_whole).
  destruct (is_number v) eqn:EN.
  - destruct (is_real v) eqn:ER; cbn [andb negb] in *.
    + destruct (proj1 S1 eq_refl) as (p & R). assert (NC : ~ complex v) by (apply (real_not_complex v p R)). right. right. destruct (is_int v) eqn:EI.
      * right. destruct (proj1 W eq_refl) as (p' & W'). exists p'. pose proof (WR _ W') as R'. repeat split; try assumption; [apply N; reflexivity|intros q Q; apply (real_one v p' q R' Q)|intros q Q; apply (whole_one v p' q W' Q)].
      * left. exists p. repeat split; try assumption; [apply N; reflexivity|intros q Q; apply (real_one v p q R Q)|]. intros q Q. assert (X : false = true) by (apply W; eauto). discriminate.
    + right. left. assert (CV : complex v) by (apply C; reflexivity). assert (NR : forall p, ~ real v p) by (intros p R; apply (real_not_complex v p R CV)). repeat split; try assumption; [|apply N; reflexivity|intros p Q; apply (NR p); auto]. destruct (is_int v) eqn:EI; [|reflexivity]. destruct (proj1 W eq_refl) as (p & Q). destruct (NR p (WR p Q)).
  - left. assert (NN : ~ number v) by (intros X; apply N in X; discriminate). assert (NR : forall p, ~ real v p) by (intros p R; apply NN; left; eauto). repeat split; try assumption; [|intros X; apply NN; right; assumption|intros p Q; apply (NR p); auto]. destruct (is_int v) eqn:EI; [|reflexivity]. destruct (proj1 W eq_refl) as (p & Q). destruct (NR p (WR p Q)).
Qed.

(** The outcome but for name and exception: a value, a message or neither *)
Local Open Scope string_scope.
Definition array_verdict (c : chk) (sh : list nat) (k : kind) (ls : list pyval) : pyval + string :=
  match c with
  | RealArray => if Nat.eqb (List.length sh) 0 then inr " must have length > 0" else if is_complex k then inr " must be a real array" else if negb (numeric_kind k) then inr " must be a real numeric type to be real" else inl (PArr sh k ls)
  | OneD => if negb (Nat.eqb (List.length sh) 1) then inr " must be a 1D array" else inl (PArr sh k ls)
  | TwoD => if negb (Nat.eqb (List.length sh) 2) then inr " must be a 2D array" else inl (PArr sh k ls)
  | Square => match sh with [a; b] => if negb (Nat.eqb a b) then inr " must be a square 2D array" else inl (PArr sh k ls) | _ => inr " must be a 2D array" end
  | _ => if negb (Nat.eqb (List.length sh) 3) then inr " must be a 3D array" else inl (PArr sh k ls)
  end.
Definition verdict (c : chk) (v : pyval) : option (pyval + string) :=
  match c with
  | RealPositive => Some (if negb (is_number v) then inr " must be scalar" else if negb (is_real v) then inr " must be real" else if le0 v then inr " must be positive" else inl v)
  | RealScalar => Some (if negb (is_number v) then inr " must be scalar" else if negb (is_real v) then inr " must be real" else inl v)
  | RealNonnegative => Some (if negb (is_number v) then inr " must be scalar" else if negb (is_real v) then inr " must be real" else if lt0 v then inr " must be nonnegative" else inl v)
  | PositiveInteger => Some (if negb (is_number v) then inr " must be scalar" else if negb (is_int v) then inr " must be integer" else if le0 v then inr " must be positive" else inl v)
  | NonnegativeInteger => Some (if negb (is_number v) then inr " must be scalar" else if negb (is_int v) then inr " must be integer" else if lt0 v then inr " must be nonnegative" else inl v)
  | Integer => Some (if negb (is_number v) then inr " must be scalar" else if negb (is_int v) then inr " must be integer" else inl v)
  | Text => Some (match v with PStr _ | PBytes _ => inl v | _ => inr " must be a string" end)
  | Boolean => Some (match v with PBool _ => inl v | _ => inr " must be a bool" end)
  | Dictionary => Some (match v with PDict => inl v | _ => inr " must be a dict" end)
  | _ => match asarray v with Some (sh, k, ls) => Some (array_verdict c sh k ls) | None => None end
  end.
Lemma run_verdict : forall c v n e, run c v n e = guard n e (match verdict c v with Some (inl r) => Ret r | Some (inr msg) => complain n e msg | None => Exc XValue end).
Proof.
  assert (B : forall b, b && negb b = false) by (intros []; reflexivity).
  intros c v n e. destruct c; cbn [run verdict].
  1-6: unfold real_positive_scalar, real_scalar, real_nonnegative_scalar, positive_scalar_integer, nonnegative_scalar_integer, scalar_integer; f_equal; destruct (is_number v); cbn [negb]; [|reflexivity]; try (destruct (is_real v); cbn [negb]; [|reflexivity]); try (destruct (is_int v); cbn [negb]; [|reflexivity]); try destruct (le0 v); try destruct (lt0 v); reflexivity.
  1-5: unfold real_array, oneD_array, twoD_array, twoD_square_array, threeD_array, with_array; f_equal; destruct (asarray v) as [[[sh k] ls]|]; [|reflexivity]; cbn [array_verdict]; try rewrite B; try (destruct (Nat.eqb (List.length sh) _); cbn [negb]; try reflexivity).
  - destruct (is_complex k); [reflexivity|]. destruct (numeric_kind k); reflexivity.
  - destruct sh as [|a [|b [|]]]; try reflexivity. destruct (Nat.eqb a b); reflexivity.
  - unfold string_. f_equal. destruct v; reflexivity.
  - unfold boolean. f_equal. destruct v; reflexivity.
  - unfold dictionary. f_equal. destruct v; reflexivity.
Qed.
Definition one_of (c : chk) (v : pyval) : Prop :=
  match verdict c v with
  | Some (inl r) => accepted c v r /\ (forall r', accepted c v r' -> r' = r) /\ (forall msg, ~ rejected c v msg) /\ ~ (of_arrays c /\ ragged v)
  | Some (inr msg) => rejected c v msg /\ (forall r, ~ accepted c v r) /\ (forall msg', rejected c v msg' -> msg' = msg) /\ ~ (of_arrays c /\ ragged v)
  | None => of_arrays c /\ ragged v /\ (forall r, ~ accepted c v r) /\ (forall msg, ~ rejected c v msg)
  end.
Lemma scalar_accepted : forall c v r, ~ of_arrays c -> (accepted c v r <-> good_scalar c v /\ r = v).
Proof. intros c v r N. unfold accepted. split; [|auto]. intros [H|(sh & k & ls & _ & H & _)]; [assumption|]. destruct c; cbn in *; tauto. Qed.
Lemma scalar_rejected : forall c v m, ~ of_arrays c -> (rejected c v m <-> bad_scalar c v m).
Proof. intros c v m N. unfold rejected. split; [|auto]. intros [H|(sh & k & ls & _ & H)]; [assumption|]. destruct c; cbn in *; tauto. Qed.
Lemma whole_somewhere : forall v, ~ whole v Nowhere.
Proof. intros v W. inversion W as [| |z p X|z p X]; subst; unfold int_at in X; destruct X as [(_ & X)|[(_ & X)|(_ & X)]]; discriminate. Qed.
Ltac no_way := intros; try intro; repeat match goal with
  | H : _ \/ _ |- _ => destruct H
  | H : _ /\ _ |- _ => destruct H
  | H : exists _, _ |- _ => destruct H
  | N : forall p, ~ real ?v p, H : real ?v _ |- _ => destruct (N _ H)
  | N : forall p, ~ whole ?v p, H : whole ?v _ |- _ => destruct (N _ H)
  | U : forall p', whole ?v p' -> p' = _, H : whole ?v _ |- _ => apply U in H
  | U : forall p', real ?v p' -> p' = _, H : real ?v _ |- _ => apply U in H
  | H : ~ ?P, K : ?P |- _ => destruct (H K)
  | H : ?P -> False, K : ?P |- _ => destruct (H K)
  end; subst; try discriminate; try reflexivity; try congruence.
Ltac yes := solve [reflexivity | eauto 8 | cbn; intuition (eauto 8; discriminate) | eexists; split; [eassumption|first [discriminate|auto]]].
Lemma good_bad : forall c v, ~ of_arrays c -> match verdict c v with Some (inl r) => r = v /\ good_scalar c v /\ forall m, ~ bad_scalar c v m | Some (inr m) => bad_scalar c v m /\ ~ good_scalar c v /\ (forall m', bad_scalar c v m' -> m' = m) | None => False end.
Proof.
  intros c v N. destruct c; try (exfalso; apply N; exact I); cbn [verdict good_scalar bad_scalar]; clear N.
  1-6: destruct (classify v) as [(EN & EI & NN & NC & NR & NW)|[(EN & ER & EI & NN & CC & NR & NW)|[(p & EN & ER & EI & NN & NC & RP & RU & NW)|(p & EN & ER & EI & NN & NC & RP & RU & WP & WU)]]]; rewrite EN; try rewrite ER; try rewrite EI; cbn [negb]; try rewrite (le0_at v p RP); try rewrite (lt0_at v p RP); try destruct p.
  all: try (match goal with W : whole _ Nowhere |- _ => destruct (whole_somewhere _ W) end).
  all: try (split; [yes|]; split; [first [yes|solve [no_way]]|solve [no_way]]).
  - destruct v; first [split; [reflexivity|split; [eauto|intros m (X & _); apply X; eauto]] | split; [split; [intros [(? & Q)|(? & Q)]; discriminate|reflexivity]|split; [intros [(? & Q)|(? & Q)]; discriminate|intros m (_ & ->); reflexivity]]].
  - destruct v; first [split; [reflexivity|split; [eauto|intros m (X & _); apply X; eauto]] | split; [split; [intros (? & Q); discriminate|reflexivity]|split; [intros (? & Q); discriminate|intros m (_ & ->); reflexivity]]].
  - destruct v; first [split; [reflexivity|split; [reflexivity|intros m (X & _); apply X; reflexivity]] | split; [split; [discriminate|reflexivity]|split; [discriminate|intros m (_ & ->); reflexivity]]].
Qed.
Lemma array_one : forall c sh k ls, of_arrays c -> match array_verdict c sh k ls with inl r => r = PArr sh k ls /\ good_array c sh k /\ forall m, ~ bad_array c sh k m | inr m => bad_array c sh k m /\ ~ good_array c sh k /\ forall m', bad_array c sh k m' -> m' = m end.
Proof.
  intros c sh k ls A. destruct c; try destruct A; cbn [array_verdict good_array bad_array].
  - destruct sh as [|a sh]; cbn [List.length Nat.eqb]; [split; [auto|]; split; [intros (N & _); apply N; reflexivity|]; intros m [(_ & ->)|[(N & _)|(N & _)]]; [reflexivity|contradiction|contradiction]|]. destruct k; cbn [is_complex numeric_kind negb].
    1-2: split; [reflexivity|]; split; [split; [discriminate|auto]|]; intros m [(Q & _)|[(_ & Q & _)|(_ & [Q|[Q|Q]] & _)]]; discriminate.
    + split; [right; left; repeat split; discriminate|]. split; [intros (_ & [Q|Q]); discriminate|]. intros m [(Q & _)|[(_ & Q & ->)|(_ & [Q|[Q|Q]] & _)]]; try discriminate; reflexivity.
    + split; [right; right; repeat split; [discriminate|auto]|]. split; [intros (_ & [Q|Q]); discriminate|]. intros m [(Q & _)|[(_ & Q & ->)|(_ & [Q|[Q|Q]] & ->)]]; try discriminate; reflexivity.
    + split; [right; right; repeat split; [discriminate|auto]|]. split; [intros (_ & [Q|Q]); discriminate|]. intros m [(Q & _)|[(_ & Q & ->)|(_ & [Q|[Q|Q]] & ->)]]; try discriminate; reflexivity.
    + split; [right; right; repeat split; [discriminate|auto]|]. split; [intros (_ & [Q|Q]); discriminate|]. intros m [(Q & _)|[(_ & Q & ->)|(_ & [Q|[Q|Q]] & ->)]]; try discriminate; reflexivity.
  - destruct sh as [|a [|b sh]]; cbn [List.length Nat.eqb negb]; [split; [split; [discriminate|reflexivity]|]; split; [intros (x & Q); discriminate|intros m (_ & ->); reflexivity]|split; [reflexivity|]; split; [eauto|intros m (X & _); apply (X a); reflexivity]|split; [split; [discriminate|reflexivity]|]; split; [intros (x & Q); discriminate|intros m (_ & ->); reflexivity]].
  - destruct sh as [|a [|b [|d sh]]]; cbn [List.length Nat.eqb negb]; try (split; [split; [discriminate|reflexivity]|]; split; [intros (x & y & Q); discriminate|intros m (_ & ->); reflexivity]). split; [reflexivity|]. split; [eauto|]. intros m (X & _). apply (X a b). reflexivity.
  - destruct sh as [|a [|b [|d sh]]]; try (split; [left; split; [discriminate|reflexivity]|]; split; [intros (x & Q); discriminate|intros m [(_ & ->)|((x & y & Q & _) & _)]; [reflexivity|discriminate]]). destruct (Nat.eqb_spec a b) as [->|N]; cbn [negb].
    + split; [reflexivity|]. split; [eauto|]. intros m [(X & _)|((x & y & Q & D) & _)]; [apply (X b b); reflexivity|]. injection Q as -> ->. contradiction.
    + split; [right; split; [eauto|reflexivity]|]. split; [intros (x & Q); injection Q as -> ->; contradiction|]. intros m [(X & _)|(_ & ->)]; [destruct (X a b eq_refl)|reflexivity].
  - destruct sh as [|a [|b [|d [|g sh]]]]; cbn [List.length Nat.eqb negb]; try (split; [split; [discriminate|reflexivity]|]; split; [intros (x & y & w & Q); discriminate|intros m (_ & ->); reflexivity]). split; [reflexivity|]. split; [eauto|]. intros m (X & _). apply (X a b d). reflexivity.
Qed.
Lemma no_good : forall c v, of_arrays c -> ~ good_scalar c v /\ forall m, ~ bad_scalar c v m.
Proof. intros c v A. destruct c; destruct A; cbn; tauto. Qed.
Lemma scalars_or : forall c, {of_arrays c} + {~ of_arrays c}.
Proof. intros []; cbn; tauto. Qed.
Lemma verdict_array : forall c v, of_arrays c -> verdict c v = match asarray v with Some (sh, k, ls) => Some (array_verdict c sh k ls) | None => None end.
Proof. intros c v A. destruct c; destruct A; reflexivity. Qed.
Lemma verdict_one : forall c v, one_of c v.
Proof.
  intros c v. unfold one_of. destruct (scalars_or c) as [A|A].
  - destruct (no_good c v A) as (NG & NB). rewrite (verdict_array c v A). destruct (asarray v) as [[[sh k] ls]|] eqn:E.
    + assert (U : forall sh' k' ls', array_of v sh' k' ls' -> (sh', k', ls') = (sh, k, ls)) by (intros sh' k' ls' H; apply array_iff in H; congruence). assert (NR : ~ ragged v) by (intros X; apply array_none in X; congruence). apply array_iff in E. pose proof (array_one c sh k ls A) as X. destruct (array_verdict c sh k ls) as [r|m].
      * destruct X as (-> & G & NM). split; [right; exists sh, k, ls; auto|]. split; [intros r' [(G' & _)|(sh' & k' & ls' & H & _ & ->)]; [contradiction|]; apply U in H; injection H as -> -> ->; reflexivity|]. split; [|tauto]. intros m [B|(sh' & k' & ls' & H & B)]; [destruct (NB m B)|]. apply U in H. injection H as -> -> ->. apply (NM m B).
      * destruct X as (B & G & UM). split; [right; exists sh, k, ls; auto|]. split; [intros r' [(G' & _)|(sh' & k' & ls' & H & G' & _)]; [contradiction|]; apply U in H; injection H as -> -> ->; contradiction|]. split; [|tauto]. intros m' [B'|(sh' & k' & ls' & H & B')]; [destruct (NB _ B')|]. apply U in H. injection H as -> -> ->. auto.
    + apply array_none in E. split; [assumption|]. split; [assumption|]. split.
      * intros r [(G' & _)|(sh' & k' & ls' & (H & _) & _)]; [contradiction|]. apply (E _ H).
      * intros m [B'|(sh' & k' & ls' & (H & _) & _)]; [destruct (NB _ B')|]. apply (E _ H).
  - pose proof (good_bad c v A) as X. destruct (verdict c v) as [[r|m]|]; [| |destruct X].
    + destruct X as (-> & G & NM). split; [apply scalar_accepted; auto|]. split; [intros r' H; apply (scalar_accepted c v r' A) in H; tauto|]. split; [intros m H; apply (scalar_rejected c v m A) in H; apply (NM m H)|tauto].
    + destruct X as (B & G & UM). split; [apply scalar_rejected; auto|]. split; [intros r' H; apply (scalar_accepted c v r' A) in H; tauto|]. split; [intros m' H; apply (scalar_rejected c v m' A) in H; auto|tauto].
Qed.
Lemma name_iff : forall n, checkname n = true <-> nameable n.
Proof. intros n. unfold nameable. split; [destruct n; try discriminate; eauto|intros [(s & ->)|(s & ->)]; reflexivity]. Qed.
Lemma exc_iff : forall e, checkexc e = true <-> raisable e.
Proof. intros e. unfold raisable. split; [destruct e as [ | | | | | | | | | | | | | |[c t|]| | ]; try discriminate; eauto|intros (c & t & ->); reflexivity]. Qed.
Lemma guard_cases : forall n e, (nameable n /\ raisable e /\ forall r, guard n e r = r) \/ (~ (nameable n /\ raisable e) /\ forall r, guard n e r = Exc XCheck).
Proof.
  intros n e. unfold guard. pose proof (name_iff n) as N. pose proof (exc_iff e) as X. destruct (checkname n); cbn [negb]; [|right; split; [intros (Y & _); apply N in Y; discriminate|reflexivity]]. destruct (checkexc e); cbn [negb]; [left|right; split; [intros (_ & Y); apply X in Y; discriminate|reflexivity]]. split; [apply N; reflexivity|]. split; [apply X; reflexivity|reflexivity].
Qed.
Lemma complain_iff : forall n e m, nameable n -> raisable e -> exists x, complain n e m = Exc x /\ forall x', voiced n e m x' <-> x' = x.
Proof.
  intros n e m N (c & t & ->). unfold voiced. destruct N as [(s & ->)|(s & ->)]; cbn [complain].
  - destruct t.
    + eexists. split; [reflexivity|]. intros x'. split; [intros [(s' & c' & Q1 & Q2 & ->)|([(s' & Q)|(c' & Q)] & _)]; try discriminate; injection Q1 as <-; injection Q2 as <-; reflexivity|intros ->; left; eauto].
    + eexists. split; [reflexivity|]. intros x'. split; [intros [(s' & c' & Q1 & Q2 & _)|(_ & ->)]; [discriminate|reflexivity]|intros ->; right; split; [right; eauto|reflexivity]].
  - eexists. split; [reflexivity|]. intros x'. split; [intros [(s' & c' & Q1 & _)|(_ & ->)]; [discriminate|reflexivity]|intros ->; right; split; [left; eauto|reflexivity]].
Qed.
(** What is returned *)
Lemma returns : forall c v n e r, run c v n e = Ret r <-> nameable n /\ raisable e /\ accepted c v r.
Proof.
  intros c v n e r. rewrite run_verdict. pose proof (verdict_one c v) as V. unfold one_of in V. destruct (guard_cases n e) as [(N & X & G)|(NX & G)]; rewrite G; [|split; [discriminate|tauto]]. destruct (verdict c v) as [[r'|m]|].
  - destruct V as (A & U & _). split; [intros Q; injection Q as <-; auto|]. intros (_ & _ & A'). rewrite (U _ A'). reflexivity.
  - destruct V as (_ & A & _). destruct (complain_iff n e m N X) as (x & -> & _). split; [discriminate|]. intros (_ & _ & A'). destruct (A _ A').
  - destruct V as (_ & _ & A & _). split; [discriminate|]. intros (_ & _ & A'). destruct (A _ A').
Qed.
(** What is raised *)
Lemma raises : forall c v n e x, run c v n e = Exc x <-> faulted c v n e x.
Proof.
  intros c v n e x. unfold faulted. rewrite run_verdict. pose proof (verdict_one c v) as V. unfold one_of in V. destruct (guard_cases n e) as [(N & X & G)|(NX & G)]; rewrite G; [|split; [intros Q; injection Q as <-; auto|]; intros [(_ & ->)|(Y & Z & _)]; [reflexivity|destruct (NX (conj Y Z))]]. destruct (verdict c v) as [[r'|m]|].
  - destruct V as (A & U & B & R). split; [discriminate|]. intros [(Q & _)|(_ & _ & [(O & Y & _)|(m & Y & _)])]; [tauto|tauto|destruct (B m Y)].
  - destruct V as (RJ & A & U & R). destruct (complain_iff n e m N X) as (y & -> & VO). split.
    + intros Q. injection Q as <-. right. split; [assumption|]. split; [assumption|]. right. exists m. split; [assumption|]. apply VO. reflexivity.
    + intros [(Q & _)|(_ & _ & [(O & Y & _)|(m' & Y & Z)])]; [tauto|tauto|]. apply U in Y. subst m'. apply VO in Z. subst. reflexivity.
  - destruct V as (O & R & A & B). split; [intros Q; injection Q as <-; right; auto 10|]. intros [(Q & _)|(_ & _ & [(_ & _ & ->)|(m' & Y & Z)])]; [tauto|reflexivity|destruct (B m' Y)].
Qed.
