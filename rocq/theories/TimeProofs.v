From Coq Require Import List ZArith Bool String Ascii Lia Znumtheory.
From Verif Require Import Base TimeModel TimeSpec.
Import ListNotations.
Local Open Scope Z_scope.

(** * Calendar *)
Lemma mod_div : forall k y, 0 < k -> (y mod k =? 0) = true <-> (k | y).
Proof. intros k y K. rewrite Z.eqb_eq. rewrite Z.mod_divide; [tauto|lia]. Qed.
Lemma is_leap_iff : forall y, is_leap y = true <-> leap y.
Proof.
  intros y. unfold is_leap, leap. rewrite andb_true_iff, orb_true_iff, negb_true_iff, (mod_div 4), (mod_div 400), <- (mod_div 100) by lia.
  destruct (y mod 100 =? 0); intuition congruence.
Qed.
Lemma is_leap_false : forall y, is_leap y = false <-> ~ leap y.
Proof. intros y. rewrite <- is_leap_iff. destruct (is_leap y); split; congruence. Qed.
Lemma div_step : forall k y, 0 < k -> y / k = (y - 1) / k + (if y mod k =? 0 then 1 else 0).
Proof.
  intros k y K. assert (A := Z.div_mod y k ltac:(lia)). assert (B := Z.mod_pos_bound y k K). set (q := y / k) in *. set (r := y mod k) in *. clearbody q r.
  destruct (r =? 0) eqn:E; [apply Z.eqb_eq in E | apply Z.eqb_neq in E].
  - assert ((y - 1) / k = q - 1); [|lia]. symmetry. apply Z.div_unique with (r := k - 1); lia.
  - assert ((y - 1) / k = q); [|lia]. symmetry. apply Z.div_unique with (r := r - 1); lia.
Qed.
Definition b2z (b : bool) : Z := if b then 1 else 0.
Lemma before_year_succ : forall y, before_year (y + 1) = before_year y + 365 + b2z (is_leap y).
Proof.
  intros y. unfold before_year. replace (y + 1 - 1) with y by lia. rewrite (div_step 4 y), (div_step 100 y), (div_step 400 y) by lia. unfold is_leap, b2z.
  assert (D : (y mod 400 =? 0) = true -> (y mod 100 =? 0) = true) by (rewrite !mod_div by lia; intros (k & ->); exists (k * 4); lia).
  assert (D2 : (y mod 100 =? 0) = true -> (y mod 4 =? 0) = true) by (rewrite !mod_div by lia; intros (k & ->); exists (k * 25); lia).
  destruct (y mod 4 =? 0), (y mod 100 =? 0), (y mod 400 =? 0); cbn [andb orb negb]; try (specialize (D eq_refl); discriminate); try (specialize (D2 eq_refl); discriminate); lia.
Qed.
Lemma before_year_mono : forall a b, a <= b -> before_year a <= before_year b.
Proof.
  intros a b H. replace b with (a + (b - a)) by lia. generalize (b - a) (Z.le_0_sub a b). intros c Hc. apply proj2 in Hc. specialize (Hc H). revert c Hc. apply natlike_ind; [rewrite Z.add_0_r; lia|].
  intros x Hx IH. replace (a + Z.succ x) with (a + x + 1) by lia. rewrite before_year_succ. unfold b2z. destruct (is_leap _); lia.
Qed.
Definition mlen (lp : bool) (m : Z) : Z := dim_table m + (if (m =? 2) && lp then 1 else 0).
Lemma month_range : forall y m n, month_len y m n -> 1 <= m <= 12.
Proof. intros y m n H. destruct H as [m H|m H| |]; [| |lia|lia]; repeat (destruct H as [<-|H]; [lia|]); destruct H. Qed.
Lemma month_cases : forall m, 1 <= m <= 12 -> In m [1; 2; 3; 4; 5; 6; 7; 8; 9; 10; 11; 12].
Proof. intros m H. cbn [In]. lia. Qed.
Ltac months H := repeat (destruct H as [<-|H]; [|]); [..|destruct H].
Lemma month_len_iff : forall y m n, month_len y m n <-> 1 <= m <= 12 /\ n = mlen (is_leap y) m.
Proof.
  intros y m n. split.
  - intros H. split; [exact (month_range _ _ _ H)|]. destruct H as [m H|m H|H|H]; [months H; reflexivity|months H; reflexivity| |].
    + apply is_leap_false in H. rewrite H. reflexivity.
    + apply is_leap_iff in H. rewrite H. reflexivity.
  - intros [R ->]. apply month_cases in R. months R; try (apply ml_31; cbn [In]; lia); try (apply ml_30; cbn [In]; lia).
    destruct (is_leap y) eqn:E; [apply ml_feb_leap; apply is_leap_iff; exact E | apply ml_feb; apply is_leap_false; exact E].
Qed.
Lemma before_month_succ : forall lp m, 1 <= m < 12 -> before_month lp (m + 1) = before_month lp m + mlen lp m.
Proof. intros lp m R. assert (H : In m [1; 2; 3; 4; 5; 6; 7; 8; 9; 10; 11]) by (cbn [In]; lia). months H; destruct lp; reflexivity. Qed.
Lemma before_month_last : forall lp, before_month lp 12 + mlen lp 12 = 365 + b2z lp.
Proof. intros [|]; reflexivity. Qed.
Lemma before_month_mono : forall lp a b, 1 <= a -> a < b -> b <= 12 -> before_month lp a + mlen lp a <= before_month lp b.
Proof.
  intros lp a b A L B. assert (H : In a [1; 2; 3; 4; 5; 6; 7; 8; 9; 10; 11]) by (cbn [In]; lia). assert (G : In b [2; 3; 4; 5; 6; 7; 8; 9; 10; 11; 12]) by (cbn [In]; lia).
  months H; months G; try lia; destruct lp; vm_compute; discriminate.
Qed.
Lemma mlen_pos : forall lp m, 28 <= mlen lp m <= 31.
Proof. intros lp m. unfold mlen, dim_table. destruct (m =? 2); cbn [andb]; [destruct lp; lia|]. destruct ((m =? 4) || (m =? 6) || (m =? 9) || (m =? 11)); lia. Qed.
Definition vdate (y m d : Z) : Prop := 1 <= y /\ 1 <= m <= 12 /\ 1 <= d <= mlen (is_leap y) m.
Lemma doy_bound : forall lp m d, 1 <= m <= 12 -> 1 <= d <= mlen lp m -> 1 <= before_month lp m + d <= 365 + b2z lp.
Proof.
  intros lp m d M D. assert (0 <= before_month lp m). { unfold before_month. apply month_cases in M. months M; destruct lp; vm_compute; discriminate. }
  destruct (Z.eq_dec m 12) as [->|N]; [rewrite <- before_month_last; lia|]. assert (A := before_month_mono lp m 12 ltac:(lia) ltac:(lia) ltac:(lia)). assert (B := before_month_last lp). assert (E := mlen_pos lp 12). lia.
Qed.
Lemma ord_pos : forall y m d, vdate y m d -> 1 <= toordinal y m d.
Proof. intros y m d (Y & M & D). unfold toordinal. assert (A := before_year_mono 1 y Y). assert (B := doy_bound _ _ _ M D). change (before_year 1) with 0 in A. lia. Qed.
Lemma ord_next : forall y m d b, vdate y m d -> next_day (y, m, d) b -> match b with (y', m', d') => vdate y' m' d' /\ toordinal y' m' d' = toordinal y m d + 1 end.
Proof.
  intros y m d b (Y & M & D) H. inversion H as [y0 m0 d0 n L R E1 E2|y0 m0 n L R E1 E2|y0 E1 E2]; subst.
  - apply month_len_iff in L as [_ ->]. split; [split; [exact Y|]; split; [exact M|lia]|]. unfold toordinal. lia.
  - apply month_len_iff in L as [_ L]. assert (X := mlen_pos (is_leap y) (m + 1)). split; [split; [exact Y|]; split; [lia|lia]|]. unfold toordinal. rewrite before_month_succ by lia. lia.
  - assert (X := mlen_pos (is_leap (y + 1)) 1). split; [split; [lia|]; split; [lia|lia]|]. unfold toordinal. rewrite before_year_succ. assert (B := before_month_last (is_leap y)). change (mlen (is_leap y) 12) with 31 in B. change (before_month (is_leap (y + 1)) 1) with 0. lia.
Qed.
Lemma ord_prev : forall y m d, vdate y m d -> (y, m, d) = (1, 1, 1) \/ exists y' m' d', vdate y' m' d' /\ next_day (y', m', d') (y, m, d).
Proof.
  intros y m d (Y & M & D). destruct (Z.eq_dec d 1) as [->|N].
  - destruct (Z.eq_dec m 1) as [->|N].
    + destruct (Z.eq_dec y 1) as [->|N]; [left; reflexivity|]. right. exists (y - 1), 12, 31. split; [split; [lia|]; split; [lia|]; change (mlen (is_leap (y - 1)) 12) with 31; lia|]. assert (X := nd_year (y - 1)). replace (y - 1 + 1) with y in X by lia. exact X.
    + right. exists y, (m - 1), (mlen (is_leap y) (m - 1)). assert (P := mlen_pos (is_leap y) (m - 1)). split; [split; [exact Y|]; split; [lia|lia]|].
      assert (R1 : 1 <= m - 1 <= 12) by lia. assert (R2 : m - 1 < 12) by lia. assert (X := nd_month y (m - 1) (mlen (is_leap y) (m - 1)) (proj2 (month_len_iff _ _ _) (conj R1 eq_refl)) R2). replace (m - 1 + 1) with m in X by lia. exact X.
  - right. exists y, m, (d - 1). split; [split; [exact Y|]; split; [exact M|lia]|]. assert (R1 : 1 <= d - 1 < mlen (is_leap y) m) by lia. assert (X := nd_day y m (d - 1) (mlen (is_leap y) m) (proj2 (month_len_iff _ _ _) (conj M eq_refl)) R1). replace (d - 1 + 1) with d in X by lia. exact X.
Qed.
Lemma day_no_fwd : forall a n, day_no a n -> match a with (y, m, d) => vdate y m d /\ n = toordinal y m d end.
Proof.
  intros a n H. induction H as [|[[y m] d] b n H [V IH] X]; [split; [split; [lia|]; split; [lia|]; vm_compute; split; discriminate|reflexivity]|].
  assert (G := ord_next _ _ _ _ V X). destruct b as [[y' m'] d']. destruct G as [V' G]. split; [exact V'|lia].
Qed.
Lemma day_no_iff : forall y m d n, day_no (y, m, d) n <-> vdate y m d /\ n = toordinal y m d.
Proof.
  intros y m d n. split; [exact (day_no_fwd (y, m, d) n)|].
  intros [V ->]. assert (P := ord_pos _ _ _ V). remember (toordinal y m d) as n eqn:E. assert (Q0 : 0 <= n) by lia. revert y m d V E P. revert n Q0.
    apply (natlike_ind (fun n => forall y m d, vdate y m d -> n = toordinal y m d -> 1 <= n -> day_no (y, m, d) n)); [intros; lia|]. intros x Hx IH y m d V E P. destruct (ord_prev _ _ _ V) as [X|(y' & m' & d' & V' & X)].
  - injection X as -> -> ->. change (toordinal 1 1 1) with 1 in E. rewrite E. constructor.
  - assert (G := ord_next _ _ _ _ V' X). cbn beta iota in G. destruct G as [_ G]. assert (P' := ord_pos _ _ _ V'). unfold Z.succ. apply dn_next with (a := (y', m', d')); [|exact X]. apply IH; [exact V'|lia|lia].
Qed.
Lemma ord_lex : forall y m d y' m' d', vdate y m d -> vdate y' m' d' -> y < y' \/ (y = y' /\ (m < m' \/ (m = m' /\ d < d'))) -> toordinal y m d < toordinal y' m' d'.
Proof.
  intros y m d y' m' d' (Y & M & D) (Y' & M' & D') [L|(<- & [L|(<- & L)])]; unfold toordinal.
  - assert (A := before_year_mono (y + 1) y' ltac:(lia)). rewrite before_year_succ in A. assert (B := doy_bound _ _ _ M D). assert (C := doy_bound _ _ _ M' D'). lia.
  - assert (A := before_month_mono (is_leap y) m m' ltac:(lia) L ltac:(lia)). lia.
  - lia.
Qed.

(** * From day numbers to dates *)
Definition zs (k : nat) : list Z := map Z.of_nat (seq 0 k).
Lemma zs_in : forall k n, 0 <= n < Z.of_nat k -> In n (zs k).
Proof. intros k n H. unfold zs. apply in_map_iff. exists (Z.to_nat n). split; [lia|]. apply in_seq. lia. Qed.
Definition md_ok (lp : bool) (n : Z) : bool :=
  let '(m, d) := month_day lp n in (1 <=? m) && (m <=? 12) && (1 <=? d) && (d <=? mlen lp m) && (before_month lp m + d =? n + 1).
Lemma md_all : forallb (md_ok true) (zs 366) = true /\ forallb (md_ok false) (zs 365) = true.
Proof. split; vm_compute; reflexivity. Qed.
Lemma md_good : forall lp n, 0 <= n < 365 + b2z lp -> let '(m, d) := month_day lp n in 1 <= m <= 12 /\ 1 <= d <= mlen lp m /\ before_month lp m + d = n + 1.
Proof.
  intros lp n H. assert (G : md_ok lp n = true). { destruct md_all as [A B]. rewrite forallb_forall in A, B. destruct lp; cbn [b2z] in H; [apply A|apply B]; apply zs_in; lia. }
  unfold md_ok in G. destruct (month_day lp n) as [m d]. rewrite !andb_true_iff, !Z.leb_le, Z.eqb_eq in G. lia.
Qed.
Lemma before_year_decomp : forall a b c e, 0 <= b <= 3 -> 0 <= c <= 24 -> 0 <= e <= 3 -> before_year (a * 400 + 1 + b * 100 + c * 4 + e) = 146097 * a + 36524 * b + 1461 * c + 365 * e.
Proof.
  intros a b c e B C E. unfold before_year. replace (a * 400 + 1 + b * 100 + c * 4 + e - 1) with (400 * a + 100 * b + 4 * c + e) by lia.
  assert (H4 : (400 * a + 100 * b + 4 * c + e) / 4 = 100 * a + 25 * b + c) by (symmetry; apply Z.div_unique with (r := e); lia).
  assert (H100 : (400 * a + 100 * b + 4 * c + e) / 100 = 4 * a + b) by (symmetry; apply Z.div_unique with (r := 4 * c + e); lia).
  assert (H400 : (400 * a + 100 * b + 4 * c + e) / 400 = a) by (symmetry; apply Z.div_unique with (r := 100 * b + 4 * c + e); lia).
  rewrite H4, H100, H400. lia.
Qed.
Lemma leap_decomp : forall a b c e, 0 <= b <= 3 -> 0 <= c <= 24 -> 0 <= e <= 3 -> is_leap (a * 400 + 1 + b * 100 + c * 4 + e) = (e =? 3) && (negb (c =? 24) || (b =? 3)).
Proof.
  intros a b c e B C E. unfold is_leap. set (y := a * 400 + 1 + b * 100 + c * 4 + e).
  assert (H4 : y mod 4 = (e + 1) mod 4) by (subst y; replace (a * 400 + 1 + b * 100 + c * 4 + e) with (e + 1 + (100 * a + 25 * b + c) * 4) by lia; apply Z.mod_add; lia).
  assert (H100 : y mod 100 = (4 * c + e + 1) mod 100) by (subst y; replace (a * 400 + 1 + b * 100 + c * 4 + e) with (4 * c + e + 1 + (4 * a + b) * 100) by lia; apply Z.mod_add; lia).
  assert (H400 : y mod 400 = (100 * b + 4 * c + e + 1) mod 400) by (subst y; replace (a * 400 + 1 + b * 100 + c * 4 + e) with (100 * b + 4 * c + e + 1 + a * 400) by lia; apply Z.mod_add; lia).
  rewrite H4, H100, H400. clearbody y. clear H4 H100 H400. assert (X : In e [0; 1; 2; 3]) by (cbn [In]; lia). assert (X2 : In b [0; 1; 2; 3]) by (cbn [In]; lia). assert (X3 : In c (zs 25)) by (apply zs_in; lia).
  assert (G : forallb (fun e => forallb (fun b => forallb (fun c => Bool.eqb (((e + 1) mod 4 =? 0) && (negb ((4 * c + e + 1) mod 100 =? 0) || ((100 * b + 4 * c + e + 1) mod 400 =? 0))) ((e =? 3) && (negb (c =? 24) || (b =? 3)))) (zs 25)) [0; 1; 2; 3]) [0; 1; 2; 3] = true) by (vm_compute; reflexivity).
  rewrite forallb_forall in G. specialize (G _ X). rewrite forallb_forall in G. specialize (G _ X2). rewrite forallb_forall in G. specialize (G _ X3). apply eqb_prop in G. exact G.
Qed.
Lemma fromordinal_ok : forall n, 1 <= n -> let '(y, m, d) := fromordinal n in vdate y m d /\ toordinal y m d = n.
Proof.
  intros n0 H0. unfold fromordinal. set (n := n0 - 1). assert (N0 : 0 <= n) by lia.
  assert (A := Z.div_mod n 146097 ltac:(lia)). assert (A1 := Z.mod_pos_bound n 146097 ltac:(lia)). assert (A2 := Z.div_pos n 146097 N0 ltac:(lia)). set (a := n / 146097) in *. set (ra := n mod 146097) in *. clearbody a ra.
  assert (B := Z.div_mod ra 36524 ltac:(lia)). assert (B1 := Z.mod_pos_bound ra 36524 ltac:(lia)). assert (B2 := Z.div_pos ra 36524 ltac:(lia) ltac:(lia)). set (b := ra / 36524) in *. set (rb := ra mod 36524) in *. clearbody b rb.
  assert (C := Z.div_mod rb 1461 ltac:(lia)). assert (C1 := Z.mod_pos_bound rb 1461 ltac:(lia)). assert (C2 := Z.div_pos rb 1461 ltac:(lia) ltac:(lia)). set (c := rb / 1461) in *. set (rc := rb mod 1461) in *. clearbody c rc.
  assert (E := Z.div_mod rc 365 ltac:(lia)). assert (E1 := Z.mod_pos_bound rc 365 ltac:(lia)). assert (E2 := Z.div_pos rc 365 ltac:(lia) ltac:(lia)). set (e := rc / 365) in *. set (re := rc mod 365) in *. clearbody e re.
  assert (Nn : n0 = n + 1) by lia. clearbody n. subst n0.
  assert (b <= 4) by lia. assert (c <= 24) by lia. assert (e <= 4) by lia.
  destruct ((e =? 4) || (b =? 4)) eqn:Q4.
  - (* 31 December of a leap year *)
    assert (K : exists b' c', 0 <= b' <= 3 /\ 0 <= c' <= 24 /\ (c' <> 24 \/ b' = 3) /\ a * 400 + 1 + b * 100 + c * 4 + e - 1 = a * 400 + 1 + b' * 100 + c' * 4 + 3 /\ n = 146097 * a + 36524 * b' + 1461 * c' + 365 * 3 + 365).
    { apply orb_true_iff in Q4 as [Q4|Q4]; apply Z.eqb_eq in Q4.
      - subst e. assert (re = 0) by lia. exists b, c. assert (b <> 4) by lia. lia.
      - subst b. assert (c = 0 /\ e = 0 /\ re = 0) by lia. exists 3, 24. lia. }
    destruct K as (b' & c' & K1 & K2 & K3 & K4 & K5). rewrite K4. assert (Y : 1 <= a * 400 + 1 + b' * 100 + c' * 4 + 3) by lia. split; [split; [exact Y|]; split; [lia|]; change (mlen (is_leap (a * 400 + 1 + b' * 100 + c' * 4 + 3)) 12) with 31; lia|].
    unfold toordinal. rewrite before_year_decomp, leap_decomp by lia. assert (LP : (3 =? 3) && (negb (c' =? 24) || (b' =? 3)) = true). { cbn [andb]. apply orb_true_iff. rewrite negb_true_iff, Z.eqb_neq, Z.eqb_eq. lia. } rewrite LP. change (before_month true 12) with 335. lia.
  - apply orb_false_iff in Q4 as [Q1 Q2]. apply Z.eqb_neq in Q1, Q2.
    assert (LB : re < 365 + b2z ((e =? 3) && (negb (c =? 24) || (b =? 3)))) by (unfold b2z; destruct ((e =? 3) && (negb (c =? 24) || (b =? 3))); lia).
    assert (G := md_good ((e =? 3) && (negb (c =? 24) || (b =? 3))) re ltac:(lia)). destruct (month_day ((e =? 3) && (negb (c =? 24) || (b =? 3))) re) as [m d] eqn:MD. cbn [fst snd]. destruct G as (G1 & G2 & G3).
    rewrite <- (leap_decomp a b c e) in G2, G3 by lia. split; [split; [lia|]; split; [exact G1|exact G2]|]. unfold toordinal. rewrite before_year_decomp by lia. lia.
Qed.
Lemma max_ord : toordinal 9999 12 31 = max_ordinal.
Proof. reflexivity. Qed.
Lemma ord_year_le : forall y m d, vdate y m d -> (toordinal y m d <= max_ordinal <-> y <= 9999).
Proof.
  intros y m d V. split; intros H.
  - destruct (Z_lt_le_dec 9999 y) as [L|L]; [|exact L]. assert (X := ord_lex 9999 12 31 y m d ltac:(split; [lia|]; split; [lia|]; vm_compute; split; discriminate) V ltac:(left; lia)). rewrite max_ord in X. lia.
  - assert (B := V). destruct B as (Y & M & D). destruct (Z.eq_dec y 9999) as [->|N].
    + assert (X := doy_bound _ _ _ M D). unfold toordinal, max_ordinal. change (is_leap 9999) with false in *. change (before_year 9999) with 3651694. cbn [b2z] in X. lia.
    + assert (X := ord_lex y m d 9999 12 31 V ltac:(split; [lia|]; split; [lia|]; vm_compute; split; discriminate) ltac:(left; lia)). rewrite max_ord in X. lia.
Qed.

(** * Instants *)
Definition inst (t : dt) : Z := (((toordinal (d_y t) (d_mo t) (d_d t) - 1) * 24 + d_h t) * 60 + d_mi t) * 60000000 + d_s t * 1000000 + d_us t.
Lemma valid_iff : forall t, valid t <-> vdate (d_y t) (d_mo t) (d_d t) /\ d_y t <= 9999 /\ 0 <= d_h t < 24 /\ 0 <= d_mi t < 60 /\ 0 <= d_s t < 60 /\ 0 <= d_us t < 1000000.
Proof.
  intros t. unfold valid, vdate. split.
  - intros (Y & (n & L & D) & R). apply month_len_iff in L as [M ->]. split; [split; [lia|]; split; [exact M|exact D]|]. split; [lia|exact R].
  - intros ((Y & M & D) & Y2 & R). split; [lia|]. split; [|exact R]. eexists. split; [apply month_len_iff; split; [exact M|reflexivity]|exact D].
Qed.
Lemma instant_iff : forall t us, valid t -> (instant t us <-> us = inst t).
Proof.
  intros t us V. apply valid_iff in V as (V & _). unfold instant, inst. split.
  - intros (n & D & ->). apply day_no_iff in D as [_ ->]. reflexivity.
  - intros ->. eexists. split; [apply day_no_iff; split; [exact V|reflexivity]|reflexivity].
Qed.
Lemma instant_inst : forall t us, instant t us -> us = inst t.
Proof. intros t us (n & D & ->). apply day_no_iff in D as [_ ->]. reflexivity. Qed.
Lemma inst_range : forall t, valid t -> 0 <= inst t < end_of_time.
Proof. intros t V. apply valid_iff in V as (V & Y & H & M & S0 & U). assert (A := ord_pos _ _ _ V). assert (B := proj2 (ord_year_le _ _ _ V) Y). unfold inst, end_of_time, max_ordinal in *. lia. Qed.
Lemma add_us_ok : forall t us, add_us t us = Raise PyException /\ ~ (0 <= inst t + us < end_of_time) \/ exists t', add_us t us = Ok t' /\ valid t' /\ inst t' = inst t + us.
Proof.
  intros t us. unfold add_us.
  set (total := ((toordinal (d_y t) (d_mo t) (d_d t) * 24 + d_h t) * 60 + d_mi t) * 60 * 1000000 + d_s t * 1000000 + d_us t + us).
  assert (TT : total = inst t + us + 86400000000) by (unfold total, inst; lia). clearbody total.
  assert (A := Z.div_mod total 86400000000 ltac:(lia)). assert (A1 := Z.mod_pos_bound total 86400000000 ltac:(lia)). set (days := total / 86400000000) in *. set (rest := total mod 86400000000) in *. clearbody days rest.
  destruct ((0 <? days) && (days <=? max_ordinal)) eqn:R.
  - right. apply andb_true_iff in R as [R1 R2]. apply Z.ltb_lt in R1. apply Z.leb_le in R2. assert (F := fromordinal_ok days ltac:(lia)). destruct (fromordinal days) as [[y m] d]. destruct F as [V F].
    assert (B := Z.div_mod rest 1000000 ltac:(lia)). assert (B1 := Z.mod_pos_bound rest 1000000 ltac:(lia)). set (secs := rest / 1000000) in *. set (u := rest mod 1000000) in *. clearbody secs u.
    assert (C := Z.div_mod secs 3600 ltac:(lia)). assert (C1 := Z.mod_pos_bound secs 3600 ltac:(lia)). assert (C3 := Z.div_mod (secs mod 3600) 60 ltac:(lia)). assert (C4 := Z.mod_pos_bound (secs mod 3600) 60 ltac:(lia)).
    assert (C5 : secs mod 60 = (secs mod 3600) mod 60). { rewrite C at 1. replace (3600 * (secs / 3600) + secs mod 3600) with (secs mod 3600 + 60 * (secs / 3600) * 60) by lia. apply Z.mod_add. lia. }
    rewrite C5. set (h := secs / 3600) in *. set (r := secs mod 3600) in *. clearbody h r. set (mi := r / 60) in *. set (s := r mod 60) in *. clearbody mi s.
    eexists. split; [reflexivity|]. split.
    + apply valid_iff. cbn [d_y d_mo d_d d_h d_mi d_s d_us]. split; [exact V|]. split; [apply (proj1 (ord_year_le _ _ _ V)); lia|]. lia.
    + unfold inst. cbn [d_y d_mo d_d d_h d_mi d_s d_us]. rewrite F. fold (inst t). unfold inst in TT. unfold inst. lia.
  - left. split; [reflexivity|]. apply andb_false_iff in R. rewrite Z.ltb_ge, Z.leb_gt in R. unfold end_of_time, max_ordinal in *. lia.
Qed.
Lemma inst_lex : forall t t', valid t -> valid t' ->
  (d_y t < d_y t' \/ (d_y t = d_y t' /\ (d_mo t < d_mo t' \/ (d_mo t = d_mo t' /\ (d_d t < d_d t' \/ (d_d t = d_d t' /\ (d_h t < d_h t' \/ (d_h t = d_h t' /\
   (d_mi t < d_mi t' \/ (d_mi t = d_mi t' /\ (d_s t < d_s t' \/ (d_s t = d_s t' /\ d_us t < d_us t')))))))))))) -> inst t < inst t'.
Proof.
  intros t t' V V' L. apply valid_iff in V as (V & Y & H & M & S0 & U). apply valid_iff in V' as (V' & Y' & H' & M' & S' & U'). unfold inst.
  assert (D : toordinal (d_y t) (d_mo t) (d_d t) < toordinal (d_y t') (d_mo t') (d_d t') \/ ((d_y t = d_y t' /\ d_mo t = d_mo t' /\ d_d t = d_d t') /\ (d_h t < d_h t' \/ (d_h t = d_h t' /\ (d_mi t < d_mi t' \/ (d_mi t = d_mi t' /\ (d_s t < d_s t' \/ (d_s t = d_s t' /\ d_us t < d_us t')))))))).
  { destruct L as [L|(E1 & [L|(E2 & [L|(E3 & L)])])]; [left; apply ord_lex; [exact V|exact V'|lia] .. | right; split; [split; [exact E1|split; [exact E2|exact E3]]|exact L]]. }
  destruct D as [D|((-> & -> & ->) & D)]; lia.
Qed.
Lemma inst_inj : forall t t', valid t -> valid t' -> inst t = inst t' -> t = t'.
Proof.
  intros t t' V V' E. assert (A := inst_lex t t' V V'). assert (B := inst_lex t' t V' V). destruct t as [y m d h mi s u], t' as [y' m' d' h' mi' s' u']. cbn [d_y d_mo d_d d_h d_mi d_s d_us] in *.
  destruct (Z.lt_trichotomy y y') as [C|[->|C]]; [exfalso; lia| |exfalso; lia].
  destruct (Z.lt_trichotomy m m') as [C|[->|C]]; [exfalso; lia| |exfalso; lia].
  destruct (Z.lt_trichotomy d d') as [C|[->|C]]; [exfalso; lia| |exfalso; lia].
  destruct (Z.lt_trichotomy h h') as [C|[->|C]]; [exfalso; lia| |exfalso; lia].
  destruct (Z.lt_trichotomy mi mi') as [C|[->|C]]; [exfalso; lia| |exfalso; lia].
  destruct (Z.lt_trichotomy s s') as [C|[->|C]]; [exfalso; lia| |exfalso; lia].
  destruct (Z.lt_trichotomy u u') as [C|[->|C]]; [exfalso; lia| |exfalso; lia]. reflexivity.
Qed.
Lemma round_ok : forall t, valid t -> round_tenth t = Raise PyException /\ end_of_time - 50000 <= inst t
  \/ exists t' r, round_tenth t = Ok t' /\ valid t' /\ inst t' = r /\ nearest_tenth (inst t) r.
Proof.
  intros t V. unfold round_tenth. assert (X := V). apply valid_iff in X as (V1 & Y & H & M & S0 & U).
  assert (A := Z.div_mod (d_us t + 50000) 100000 ltac:(lia)). assert (A1 := Z.mod_pos_bound (d_us t + 50000) 100000 ltac:(lia)). set (q := (d_us t + 50000) / 100000) in *. set (r := (d_us t + 50000) mod 100000) in *. clearbody q r.
  destruct (1000000 <=? q * 100000) eqn:E; [apply Z.leb_le in E | apply Z.leb_gt in E].
  - set (t0 := mkdt (d_y t) (d_mo t) (d_d t) (d_h t) (d_mi t) (d_s t) 0). assert (I0 : inst t0 = inst t - d_us t) by (unfold inst, t0; cbn [d_y d_mo d_d d_h d_mi d_s d_us]; lia).
    assert (R0 := inst_range t V). destruct (add_us_ok t0 1000000) as [(F & N)|(t' & F & V' & I)].
    + left. split; [exact F|]. lia.
    + right. exists t', (inst t'). split; [exact F|]. split; [exact V'|]. split; [reflexivity|]. split; [|lia]. rewrite I, I0. unfold inst. exists ((((toordinal (d_y t) (d_mo t) (d_d t) - 1) * 24 + d_h t) * 60 + d_mi t) * 600 + d_s t * 10 + 10). lia.
  - right. eexists; eexists. split; [reflexivity|]. split; [apply valid_iff; cbn [d_y d_mo d_d d_h d_mi d_s d_us]; split; [exact V1|]; assert (0 <= q) by lia; lia|]. split; [reflexivity|].
    unfold nearest_tenth, inst; cbn [d_y d_mo d_d d_h d_mi d_s d_us]. split; [exists ((((toordinal (d_y t) (d_mo t) (d_d t) - 1) * 24 + d_h t) * 60 + d_mi t) * 600 + d_s t * 10 + q); lia|lia].
Qed.
Lemma nearest_unique : forall us r r', nearest_tenth us r -> nearest_tenth us r' -> r = r'.
Proof. intros us r r' ((k & ->) & A) ((k' & ->) & B). lia. Qed.
