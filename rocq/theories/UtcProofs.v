(** The calendar, instants and their texts. *)
From Coq Require Import List ZArith Bool String Ascii Lia.
From Verif Require Import Base UtcModel UtcSpec.
Import ListNotations.
Local Open Scope Z_scope.

(** ** The calendar *)
Definition dim (y m : Z) : Z := month_days m + one_if ((m =? 2) && is_leap y).
Definition ord (p : Z * Z * Z) : Z := let '(y, m, d) := p in to_ordinal y m d.
Definition valid (p : Z * Z * Z) : Prop := let '(y, m, d) := p in 1 <= y /\ 1 <= m <= 12 /\ 1 <= d <= dim y m.
Lemma leap_iff : forall y, is_leap y = true <-> leap y.
Proof.
  intros y. unfold is_leap, leap. rewrite andb_true_iff, orb_true_iff, negb_true_iff, !Z.eqb_eq, Z.eqb_neq. rewrite <- !Z.mod_divide by lia. destruct (Z.eq_dec (y mod 100) 0) as [E|N]; intuition.
Qed.
Lemma twelve : forall m, 1 <= m <= 12 -> m = 1 \/ m = 2 \/ m = 3 \/ m = 4 \/ m = 5 \/ m = 6 \/ m = 7 \/ m = 8 \/ m = 9 \/ m = 10 \/ m = 11 \/ m = 12.
Proof. lia. Qed.
Ltac months H := destruct (twelve _ H) as [->|[->|[->|[->|[->|[->|[->|[->|[->|[->|[->| ->]]]]]]]]]]].
Lemma last_iff : forall y m d, last_day y m d <-> 1 <= m <= 12 /\ d = dim y m.
Proof.
  intros y m d. unfold last_day, dim. split.
  - intros [(I & ->)|[(I & ->)|[(-> & L & ->)|(-> & L & ->)]]].
    + cbn in I. repeat (destruct I as [<-|I]; [split; [lia|reflexivity]|]). destruct I.
    + cbn in I. repeat (destruct I as [<-|I]; [split; [lia|reflexivity]|]). destruct I.
    + apply leap_iff in L. rewrite L. split; [lia|reflexivity].
    + rewrite <- leap_iff in L. apply not_true_is_false in L. rewrite L. split; [lia|reflexivity].
  - intros (M & ->). months M; try (left; split; [cbn; tauto|reflexivity]); try (right; left; split; [cbn; tauto|reflexivity]). right. right. destruct (is_leap y) eqn:E.
    + left. apply leap_iff in E. auto.
    + right. split; [reflexivity|]. split; [rewrite <- leap_iff; congruence|reflexivity].
Qed.
Lemma year_step : forall y, before_year (y + 1) = before_year y + 365 + one_if (is_leap y).
Proof.
  intros y. unfold before_year, is_leap, one_if. replace (y + 1 - 1) with y by ring.
  destruct (Z.eqb_spec (y mod 4) 0), (Z.eqb_spec (y mod 100) 0), (Z.eqb_spec (y mod 400) 0); cbn [andb orb negb]; Z.to_euclidean_division_equations; lia.
Qed.
Lemma year_grow : forall y z, y <= z -> before_year y <= before_year z.
Proof.
  intros y z L. replace z with (y + Z.of_nat (Z.to_nat (z - y))) by lia. generalize (Z.to_nat (z - y)). clear. intros n. induction n as [|n IH]; [rewrite Z.add_0_r; lia|].
  rewrite Nat2Z.inj_succ. replace (y + Z.succ (Z.of_nat n)) with (y + Z.of_nat n + 1) by lia. rewrite year_step. unfold one_if. destruct (is_leap _); lia.
Qed.
Lemma month_next : forall y m, 1 <= m < 12 -> month_start (m + 1) + one_if ((2 <? m + 1) && is_leap y) = month_start m + one_if ((2 <? m) && is_leap y) + dim y m.
Proof. intros y m M. assert (H : 1 <= m <= 12) by lia. unfold dim. months H; destruct (is_leap y); try reflexivity; lia. Qed.
Lemma next_ok : forall p q, valid p -> next_day p q -> valid q /\ ord q = ord p + 1.
Proof.
  intros p q V H. destruct H as [y m d e L D|y m d L M|y]; unfold valid, ord, to_ordinal in *; destruct V as (Y & MM & DD).
  - apply last_iff in L. destruct L as (_ & ->). split; [|lia]. split; [assumption|]. split; [assumption|lia].
  - apply last_iff in L. destruct L as (_ & ->). assert (N := month_next y m ltac:(lia)). split; [split; [assumption|]; split; [lia|]; unfold dim|lia].
    assert (H : 1 <= m + 1 <= 12) by lia. months H; unfold one_if; destruct (is_leap y); cbn; lia.
  - rewrite year_step. split; [split; [lia|]; split; [lia|]; unfold dim; cbn; lia|]. cbn [Z.ltb Z.compare andb month_start]. unfold one_if. destruct (is_leap y); cbn; lia.
Qed.
Lemma day_ok : forall n p, day_number n p -> valid p /\ ord p = n.
Proof.
  intros n p H. induction H as [|n p q H (V & E) N].
  - split; [cbn; unfold dim; cbn; lia|reflexivity].
  - destruct (next_ok p q V N) as (V' & E'). split; [assumption|lia].
Qed.
Lemma next_exists : forall p, valid p -> exists q, next_day p q.
Proof.
  intros ((y, m), d) (Y & M & D). destruct (Z.eq_dec d (dim y m)) as [E|N].
  - destruct (Z.eq_dec m 12) as [->|M12]; [subst; eexists; apply next_year|]. eexists. apply next_month; [apply last_iff; auto|lia].
  - eexists. eapply within_month; [apply last_iff; split; [eassumption|reflexivity]|lia].
Qed.
Lemma day_exists : forall n, 1 <= n -> exists p, day_number n p.
Proof.
  intros n L. replace n with (1 + Z.of_nat (Z.to_nat (n - 1))) by lia. generalize (Z.to_nat (n - 1)). intros k. induction k as [|k (p & IH)]; [exists (1, 1, 1); constructor|].
  destruct (next_exists p (proj1 (day_ok _ _ IH))) as (q & Q). exists q. replace (1 + Z.of_nat (S k)) with (1 + Z.of_nat k + 1) by lia. econstructor; eassumption.
Qed.
Lemma within_year : forall y m d, valid (y, m, d) -> before_year y + 1 <= to_ordinal y m d <= before_year (y + 1).
Proof.
  intros y m d (Y & M & D). rewrite year_step. unfold to_ordinal, dim in *. revert D. months M; unfold one_if; destruct (is_leap y); cbn; lia.
Qed.
Lemma month_grow : forall y m m', 1 <= m -> m < m' -> m' <= 12 -> month_start m + one_if ((2 <? m) && is_leap y) + dim y m <= month_start m' + one_if ((2 <? m') && is_leap y).
Proof.
  intros y m m' A B C. assert (H : 1 <= m <= 12) by lia. assert (H' : 1 <= m' <= 12) by lia. unfold dim. revert B. months H; months H'; unfold one_if; destruct (is_leap y); cbn; lia.
Qed.
Definition earlier (p q : Z * Z * Z) : Prop := let '(y, m, d) := p in let '(y', m', d') := q in y < y' \/ y = y' /\ (m < m' \/ m = m' /\ d < d').
Lemma ord_lt : forall p q, valid p -> valid q -> earlier p q -> ord p < ord q.
Proof.
  intros ((y, m), d) ((y', m'), d') V V' E. cbn [ord]. destruct E as [E|(-> & [E|(-> & E)])].
  - assert (A := within_year _ _ _ V). assert (B := within_year _ _ _ V'). assert (C := year_grow (y + 1) y' ltac:(lia)). lia.
  - destruct V as (_ & M & D), V' as (_ & M' & D'). assert (G := month_grow y' m m' ltac:(lia) E ltac:(lia)). unfold to_ordinal. lia.
  - unfold to_ordinal. lia.
Qed.
Lemma ord_earlier : forall p q, valid p -> valid q -> (ord p < ord q <-> earlier p q).
Proof.
  intros p q V V'. split; [|apply ord_lt; assumption]. intros L. assert (T : earlier p q \/ p = q \/ earlier q p).
  { destruct p as ((y, m), d), q as ((y', m'), d'). cbn. destruct (Z.lt_trichotomy y y') as [?|[->|?]]; [lia| |lia]. destruct (Z.lt_trichotomy m m') as [?|[->|?]]; [lia| |lia]. destruct (Z.lt_trichotomy d d') as [?|[->|?]]; [lia|auto|lia]. }
  destruct T as [E|[->|E]]; [assumption|lia|]. assert (X := ord_lt q p V' V E). lia.
Qed.
Lemma ord_inj : forall p q, valid p -> valid q -> ord p = ord q -> p = q.
Proof.
  intros ((y, m), d) ((y', m'), d') V V' E. assert (A := proj2 (ord_earlier _ _ V V')). assert (B := proj2 (ord_earlier _ _ V' V)). cbn [earlier] in A, B.
  destruct (Z.lt_trichotomy y y') as [?|[->|?]]; [lia| |lia]. destruct (Z.lt_trichotomy m m') as [?|[->|?]]; [lia| |lia]. destruct (Z.lt_trichotomy d d') as [?|[->|?]]; [lia|reflexivity|lia].
Qed.
Theorem day_iff : forall n p, day_number n p <-> valid p /\ ord p = n.
Proof.
  intros n p. split; [apply day_ok|]. intros (V & E). assert (L : 1 <= n) by (destruct p as ((y, m), d); cbn [ord] in E; assert (W := within_year _ _ _ V); assert (G := year_grow 1 y ltac:(destruct V; lia)); cbn in G; lia).
  destruct (day_exists n L) as (q & Q). destruct (day_ok _ _ Q) as (V' & E'). rewrite (ord_inj p q V V') by lia. assumption.
Qed.
(** ** Dates of day numbers *)
Definition split_year (leap : bool) (n : Z) : Z * Z :=
  let m := (n + 50) / 32 in
  let preceding := month_start m + one_if ((2 <? m) && leap) in
  if n <? preceding then let m := m - 1 in let preceding := preceding - (month_days m + one_if ((m =? 2) && leap)) in (m, n - preceding + 1) else (m, n - preceding + 1).
Definition split_good (leap : bool) (n : Z) : bool :=
  let (m, d) := split_year leap n in (1 <=? m) && (m <=? 12) && (1 <=? d) && (d <=? month_days m + one_if ((m =? 2) && leap)) && (month_start m + one_if ((2 <? m) && leap) + d =? n + 1).
Lemma split_all : forallb (fun k => split_good true (Z.of_nat k) && split_good false (Z.of_nat k)) (seq 0 365) = true.
Proof. vm_compute. reflexivity. Qed.
Lemma split_ok : forall l n m d, 0 <= n < 365 -> split_year l n = (m, d) -> 1 <= m <= 12 /\ 1 <= d <= month_days m + one_if ((m =? 2) && l) /\ month_start m + one_if ((2 <? m) && l) + d = n + 1.
Proof.
  intros l n m d N E. assert (A := proj1 (forallb_forall _ _) split_all (Z.to_nat n)). cbv beta in A. rewrite Z2Nat.id in A by lia.
  assert (I : In (Z.to_nat n) (seq 0 365)) by (apply in_seq; lia). apply A in I. apply andb_true_iff in I. destruct I as (G1 & G2). assert (G : split_good l n = true) by (destruct l; assumption). unfold split_good in G. rewrite E in G.
  rewrite !andb_true_iff, !Z.leb_le, Z.eqb_eq in G. lia.
Qed.
Theorem from_ok : forall n, 1 <= n -> valid (from_ordinal n) /\ ord (from_ordinal n) = n.
Proof.
  intros n N. unfold from_ordinal. cbv zeta. set (k := n - 1). set (q := k / 146097). set (r := k mod 146097). set (a := r / 36524). set (r1 := r mod 36524). set (b := r1 / 1461). set (r2 := r1 mod 1461). set (c := r2 / 365). set (r3 := r2 mod 365).
  assert (F : k = 146097 * q + r /\ 0 <= r < 146097 /\ r = 36524 * a + r1 /\ 0 <= r1 < 36524 /\ r1 = 1461 * b + r2 /\ 0 <= r2 < 1461 /\ r2 = 365 * c + r3 /\ 0 <= r3 < 365).
  { repeat split; try (apply Z.div_mod; lia); apply Z.mod_pos_bound; lia. }
  assert (Q : 0 <= q) by (apply Z.div_pos; lia).
  clearbody r3 c r2 b r1 a r q. destruct F as (F1 & F2 & F3 & F4 & F5 & F6 & F7 & F8). assert (K : n = k + 1) by (unfold k; lia). clearbody k.
  assert (AB : 0 <= a <= 4 /\ 0 <= b <= 24 /\ 0 <= c <= 4) by lia. destruct AB as (A & B & C).
  destruct ((c =? 4) || (a =? 4)) eqn:E.
  - apply orb_true_iff in E. rewrite !Z.eqb_eq in E. set (y := q * 400 + 1 + (a * 100 + b * 4 + c) - 1).
    assert (X : y mod 4 = 0 /\ (y mod 100 <> 0 \/ y mod 400 = 0) /\ before_year y + 366 = n).
    { unfold before_year. destruct E as [-> | ->].
      - assert (a <= 3) by lia. assert (r3 = 0) by lia. assert (b <= 23) by lia. subst r3. replace (y - 1) with (400 * q + 100 * a + 4 * b + 3) by (unfold y; ring).
        rewrite <- (Z.div_unique (400 * q + 100 * a + 4 * b + 3) 4 (100 * q + 25 * a + b) 3) by lia. rewrite <- (Z.div_unique (400 * q + 100 * a + 4 * b + 3) 100 (4 * q + a) (4 * b + 3)) by lia. rewrite <- (Z.div_unique (400 * q + 100 * a + 4 * b + 3) 400 q (100 * a + 4 * b + 3)) by lia.
        rewrite <- (Z.mod_unique y 4 (100 * q + 25 * a + b + 1) 0) by (unfold y; lia). rewrite <- (Z.mod_unique y 100 (4 * q + a) (4 * b + 4)) by (unfold y; lia). split; [reflexivity|]. split; [left; lia|unfold y; lia].
      - assert (r1 = 0) by lia. assert (b = 0) by lia. assert (c = 0) by lia. assert (r3 = 0) by lia. subst. replace (y - 1) with (400 * q + 399). 2:{ unfold y. ring. }
        rewrite <- (Z.div_unique (400 * q + 399) 4 (100 * q + 99) 3) by lia. rewrite <- (Z.div_unique (400 * q + 399) 100 (4 * q + 3) 99) by lia. rewrite <- (Z.div_unique (400 * q + 399) 400 q 399) by lia.
        rewrite <- (Z.mod_unique y 4 (100 * q + 100) 0) by (unfold y; lia). rewrite <- (Z.mod_unique y 400 (q + 1) 0) by (unfold y; lia). split; [reflexivity|]. split; [right; reflexivity|unfold y; lia]. }
    destruct X as (X1 & X2 & X3). assert (L : is_leap y = true). { unfold is_leap. rewrite andb_true_iff, orb_true_iff, negb_true_iff, !Z.eqb_eq, Z.eqb_neq. auto. }
    cbn [valid ord]. unfold to_ordinal, dim. rewrite L. change ((2 <? 12) && true) with true. change ((12 =? 2) && true) with false. cbn [month_start month_days one_if]. split; [unfold y; lia|lia].
  - apply orb_false_iff in E. rewrite !Z.eqb_neq in E. set (y := q * 400 + 1 + (a * 100 + b * 4 + c)).
    set (l := (c =? 3) && (negb (b =? 24) || (a =? 3))).
    assert (X : before_year y = 146097 * q + 36524 * a + 1461 * b + 365 * c). { unfold before_year, y. assert (a <= 3) by lia. assert (c <= 3) by lia. clear - A B C H H0. Z.to_euclidean_division_equations. lia. }
    assert (L : is_leap y = l).
    { apply eq_true_iff_eq. unfold is_leap, l. rewrite !andb_true_iff, !orb_true_iff, !negb_true_iff, !Z.eqb_eq, !Z.eqb_neq. unfold y. assert (a <= 3) by lia. assert (c <= 3) by lia. clear - A B C H H0. Z.to_euclidean_division_equations. lia. }
    assert (Y : 1 <= y) by (unfold y; lia). clearbody l. 
    assert (S : forall m d, split_year l r3 = (m, d) -> valid (y, m, d) /\ ord (y, m, d) = n).
    { intros m d SP. destruct (split_ok l r3 m d F8 SP) as (M & D & O). cbn [valid ord]. unfold to_ordinal, dim. rewrite L. split; [auto|lia]. }
    unfold split_year in S. cbv zeta in S. destruct (r3 <? _); apply S; reflexivity.
Qed.
