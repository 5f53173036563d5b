(** Instants and texts. *)
From Coq Require Import List ZArith Bool String Ascii Lia.
From Verif Require Import Base UtcModel UtcSpec UtcProofs.
Import ListNotations.
Local Open Scope Z_scope.

Lemma reads_stamp : forall a t, reads a t <-> valid (year a, month a, day a) /\ 0 <= hour a < 24 /\ 0 <= minute a < 60 /\ 0 <= second a < 60 /\ 0 <= micro a < 1000000 /\ t = stamp_of a.
Proof.
  intros a t. unfold reads, stamp_of. split.
  - intros (n & D & H & M & S & U & ->). apply day_iff in D. destruct D as (V & O). cbn [ord] in O. repeat split; try tauto; try lia; try apply V.
  - intros (V & H & M & S & U & ->). exists (to_ordinal (year a) (month a) (day a)). split; [apply day_iff; auto|]. repeat split; try tauto; lia.
Qed.
(** There is one reading of an instant. *)
Theorem reads_unique : forall a b t, reads a t -> reads b t -> a = b.
Proof.
  intros a b t (n & D & H & M & S & U & E) (n' & D' & H' & M' & S' & U' & E'). assert (n = n') by lia. subst n'. assert (hour a = hour b) by lia. assert (minute a = minute b) by lia. assert (second a = second b) by lia. assert (micro a = micro b) by lia.
  apply day_iff in D. apply day_iff in D'. destruct D as (V & O), D' as (V' & O'). assert (Q := ord_inj _ _ V V' (eq_trans O (eq_sym O'))). destruct a, b. cbn in *. injection Q as -> -> ->. congruence.
Qed.
Lemma reads_one : forall a t t', reads a t -> reads a t' -> t = t'.
Proof. intros a t t' H H'. apply reads_stamp in H. apply reads_stamp in H'. intuition congruence. Qed.
Lemma last_ordinal : to_ordinal 9999 12 31 = 3652059.
Proof. reflexivity. Qed.
Lemma year_bound : forall p, valid p -> (ord p <= 3652059 <-> fst (fst p) <= 9999).
Proof.
  intros ((y, m), d) V. cbn [ord fst]. assert (W := within_year _ _ _ V). split; intros L.
  - destruct (Z_le_gt_dec y 9999) as [?|G]; [assumption|]. assert (X := year_grow 10000 y ltac:(lia)). replace (before_year 10000) with 3652059 in X by reflexivity. lia.
  - assert (X := year_grow (y + 1) 10000 ltac:(lia)). replace (before_year 10000) with 3652059 in X by reflexivity. lia.
Qed.
Lemma representable_iff : forall t, representable t <-> 1 <= t / 86400000000 <= 3652059.
Proof.
  intros t. unfold representable. split.
  - intros (a & (n & D & H & M & S & U & ->) & Y). assert (E : (n * 86400000000 + hour a * 3600000000 + minute a * 60000000 + second a * 1000000 + micro a) / 86400000000 = n) by (symmetry; apply (Z.div_unique _ _ _ (hour a * 3600000000 + minute a * 60000000 + second a * 1000000 + micro a)); lia). rewrite E.
    apply day_iff in D. destruct D as (V & O). assert (B := proj2 (year_bound _ V)). cbn [ord fst] in *. rewrite O in B. split; [|apply B; assumption]. assert (W := within_year _ _ _ V). assert (G := year_grow 1 (year a) ltac:(destruct V; lia)). cbn in G. lia.
  - intros (L & H). set (n := t / 86400000000) in *. set (u := t mod 86400000000). assert (F : t = 86400000000 * n + u) by (apply Z.div_mod; lia). assert (UB : 0 <= u < 86400000000) by (apply Z.mod_pos_bound; lia). clearbody u n.
    destruct (from_ok n L) as (V & O). destruct (from_ordinal n) as ((y, m), d). set (s := u / 1000000). assert (FS : u = 1000000 * s + u mod 1000000) by (apply Z.div_mod; lia). assert (US : 0 <= u mod 1000000 < 1000000) by (apply Z.mod_pos_bound; lia).
    exists (mkmoment y m d (s / 3600) (s mod 3600 / 60) (s mod 3600 mod 60) (u mod 1000000)). cbn [year]. split; [|apply year_bound in V; apply V; rewrite O; assumption].
    exists n. cbn [year month day hour minute second micro]. split; [apply day_iff; auto|]. clearbody s. set (w := u mod 1000000) in *. clearbody w. assert (0 <= s < 86400) by lia. Z.to_euclidean_division_equations. lia.
Qed.
Lemma plus_ok : forall a t delta b, reads a t -> (plus a delta = Ok b <-> reads b (t + delta) /\ year b <= 9999).
Proof.
  intros a t delta b R. apply reads_stamp in R. destruct R as (_ & _ & _ & _ & _ & ->). unfold plus. cbv zeta. set (T := stamp_of a + delta). set (n := T / 86400000000). destruct ((0 <? n) && (n <=? 3652059)) eqn:E.
  - apply andb_true_iff in E. rewrite Z.ltb_lt, Z.leb_le in E. destruct E as (L & H). set (u := T mod 86400000000). assert (F : T = 86400000000 * n + u) by (apply Z.div_mod; lia). assert (UB : 0 <= u < 86400000000) by (apply Z.mod_pos_bound; lia). clearbody u n.
    destruct (from_ok n ltac:(lia)) as (V & O). destruct (from_ordinal n) as ((y, m), d). set (s := u / 1000000). assert (FS : u = 1000000 * s + u mod 1000000) by (apply Z.div_mod; lia). assert (US : 0 <= u mod 1000000 < 1000000) by (apply Z.mod_pos_bound; lia).
    set (c := mkmoment y m d (s / 3600) (s mod 3600 / 60) (s mod 3600 mod 60) (u mod 1000000)).
    assert (RC : reads c T). { exists n. unfold c. cbn [year month day hour minute second micro]. split; [apply day_iff; auto|]. rewrite F. clear F. clearbody s. set (w := u mod 1000000) in *. clearbody w. assert (0 <= s < 86400) by lia. clear c. Z.to_euclidean_division_equations. lia. }
    assert (YC : year c <= 9999) by (apply (proj1 (year_bound _ V)); rewrite O; assumption). split.
    + intros Q. injection Q as <-. auto.
    + intros (RB & _). f_equal. apply (reads_unique c b T); assumption.
  - split; [discriminate|]. intros (RB & Y). assert (P : representable T) by (exists b; auto). apply representable_iff in P. fold n in P. rewrite andb_false_iff, Z.ltb_ge, Z.leb_gt in E. lia.
Qed.
Lemma plus_raise : forall a t delta e, reads a t -> (plus a delta = Raise e <-> ~ representable (t + delta) /\ e = PyException).
Proof.
  intros a t delta e R. assert (P := fun b => plus_ok a t delta b R). destruct (plus a delta) as [b|e'] eqn:E.
  - split; [discriminate|]. intros (N & _). exfalso. apply N. exists b. apply P. reflexivity.
  - assert (X : e' = PyException). { unfold plus in E. cbv zeta in E. destruct (_ && _) in E; [|injection E as <-; reflexivity]. destruct (from_ordinal _) as ((? & ?) & ?) in E. discriminate. } subst e'. split.
    + intros Q. injection Q as <-. split; [|reflexivity]. intros (b & B). apply P in B. discriminate.
    + intros (_ & ->). reflexivity.
Qed.
(** ** Texts *)
Lemma digit_iff : forall c d, is_number c d <-> 0 <= d <= 9 /\ c = digit_char d.
Proof.
  intros c d. unfold is_number, digit_char. split; intros (D & E); (split; [assumption|]).
  - rewrite <- E, Nat2Z.id. symmetry. apply ascii_nat_embedding.
  - subst c. rewrite nat_ascii_embedding by lia. lia.
Qed.
Lemma number_iff : forall w s n, number s w n <-> 0 <= n < 10 ^ Z.of_nat w /\ s = put w n.
Proof.
  intros w. induction w as [|w IH]; intros s n.
  - split; [intros H; inversion H; subst; split; [cbn; lia|reflexivity]|]. intros (B & ->). cbn in B. assert (n = 0) by lia. subst. constructor.
  - rewrite Nat2Z.inj_succ, Z.pow_succ_r by lia. split.
    + intros H. inversion H as [|s' w' n' c d H' D]; subst. apply IH in H'. destruct H' as (B & ->). apply digit_iff in D. destruct D as (D & ->). split; [lia|]. cbn [put].
      rewrite <- (Z.div_unique (10 * n' + d) 10 n' d) by lia. rewrite <- (Z.mod_unique (10 * n' + d) 10 n' d) by lia. reflexivity.
    + intros (B & ->). cbn [put]. assert (M := Z.mod_pos_bound n 10 ltac:(lia)). assert (F := Z.div_mod n 10 ltac:(lia)). rewrite F at 3. constructor; [apply IH; split; [lia|reflexivity]|apply digit_iff; split; [lia|reflexivity]].
Qed.
Lemma put_length : forall w n, String.length (put w n) = w.
Proof.
  assert (A : forall s t, String.length (s ++ t) = (String.length s + String.length t)%nat) by (intros s; induction s as [|c s IH]; intros t; cbn; [reflexivity|rewrite IH; reflexivity]).
  intros w. induction w as [|w IH]; intros n; [reflexivity|]. cbn [put]. rewrite A, IH. cbn. lia.
Qed.
(** ** Order of texts *)
Lemma app_nil : forall s, (s ++ "")%string = s.
Proof. intros s. induction s as [|c s IH]; [reflexivity|]. cbn. rewrite IH. reflexivity. Qed.
Lemma app_cat : forall s t u, ((s ++ t) ++ u)%string = (s ++ t ++ u)%string.
Proof. intros s t u. induction s as [|c s IH]; [reflexivity|]. cbn. rewrite IH. reflexivity. Qed.
Definition then_ (c d : comparison) : comparison := match c with Eq => d | _ => c end.
Lemma compare_char : forall c d s t, String.compare (String c s) (String d t) = then_ (Ascii.compare c d) (String.compare s t).
Proof. intros c d s t. cbn [String.compare]. destruct (Ascii.compare c d); reflexivity. Qed.
Lemma compare_digit : forall d e, 0 <= d <= 9 -> 0 <= e <= 9 -> Ascii.compare (digit_char d) (digit_char e) = (d ?= e).
Proof.
  assert (T : forall n, 0 <= n <= 9 -> n = 0 \/ n = 1 \/ n = 2 \/ n = 3 \/ n = 4 \/ n = 5 \/ n = 6 \/ n = 7 \/ n = 8 \/ n = 9) by lia.
  intros d e D E. destruct (T d D) as [->|[->|[->|[->|[->|[->|[->|[->|[->| ->]]]]]]]]]; destruct (T e E) as [->|[->|[->|[->|[->|[->|[->|[->|[->| ->]]]]]]]]]; reflexivity.
Qed.
Lemma compare_put : forall w a b s t, 0 <= a < 10 ^ Z.of_nat w -> 0 <= b < 10 ^ Z.of_nat w -> String.compare (put w a ++ s) (put w b ++ t) = then_ (a ?= b) (String.compare s t).
Proof.
  intros w. induction w as [|w IH]; intros a b s t A B.
  - cbn in A, B. assert (a = 0) by lia. assert (b = 0) by lia. subst. reflexivity.
  - rewrite Nat2Z.inj_succ, Z.pow_succ_r in A, B by lia. cbn [put]. rewrite !app_cat. assert (MA := Z.mod_pos_bound a 10 ltac:(lia)). assert (FA := Z.div_mod a 10 ltac:(lia)). assert (MB := Z.mod_pos_bound b 10 ltac:(lia)). assert (FB := Z.div_mod b 10 ltac:(lia)).
    rewrite IH by lia. cbn [append]. rewrite compare_char, compare_digit by lia. destruct (Z.compare_spec (a / 10) (b / 10)) as [E|L|L]; cbn [then_].
    + destruct (Z.compare_spec (a mod 10) (b mod 10)) as [E'|L|L]; destruct (Z.compare_spec a b) as [E2|L2|L2]; cbn [then_]; try reflexivity; lia.
    + destruct (Z.compare_spec a b) as [E2|L2|L2]; cbn [then_]; try reflexivity; lia.
    + destruct (Z.compare_spec a b) as [E2|L2|L2]; cbn [then_]; try reflexivity; lia.
Qed.
Definition text_of (a : moment) : string := (put 4 (year a) ++ put 2 (month a) ++ put 2 (day a) ++ "T" ++ put 2 (hour a) ++ put 2 (minute a) ++ put 2 (second a) ++ put 1 (micro a / 100000))%string.
Lemma written_iff : forall a t text, reads a t -> year a <= 9999 -> (exists k, t = k * 100000) -> (written a text <-> text = text_of a).
Proof.
  intros a t text R Y (k & K). destruct R as (n & D & H & M & S & U & E). apply day_iff in D. destruct D as ((Y1 & MM & DD) & _). assert (DM : dim (year a) (month a) <= 31) by (unfold dim, one_if; months MM; destruct (is_leap (year a)); cbn; lia).
  assert (KM : micro a = micro a / 100000 * 100000). { assert (X : micro a mod 100000 = 0) by (rewrite <- (Z.mod_unique (micro a) 100000 (k - n * 864000 - hour a * 36000 - minute a * 600 - second a * 10) 0); lia). assert (F := Z.div_mod (micro a) 100000 ltac:(lia)). lia. }
  unfold written, text_of. split.
  - intros (y & m & d & h & i & s & x & -> & A1 & A2 & A3 & A4 & A5 & A6 & q & A7 & Q). rewrite number_iff in *. destruct A1 as (_ & ->), A2 as (_ & ->), A3 as (_ & ->), A4 as (_ & ->), A5 as (_ & ->), A6 as (_ & ->), A7 as (_ & ->). assert (q = micro a / 100000) by lia. subst q. reflexivity.
  - intros ->. exists (put 4 (year a)), (put 2 (month a)), (put 2 (day a)), (put 2 (hour a)), (put 2 (minute a)), (put 2 (second a)), (put 1 (micro a / 100000)). split; [reflexivity|]. rewrite !number_iff. cbn [Z.of_nat Pos.of_succ_nat]. change (10 ^ 4) with 10000. change (10 ^ 2) with 100. repeat (split; [split; [lia|reflexivity]|]). exists (micro a / 100000). rewrite number_iff. split; [|assumption]. split; [|reflexivity]. change (10 ^ Z.of_nat 1) with 10. lia.
Qed.
Lemma text_order : forall a b t u, reads a t -> reads b u -> year a <= 9999 -> year b <= 9999 -> (exists k, t = k * 100000) -> (exists k, u = k * 100000) -> String.compare (text_of a) (text_of b) = (t ?= u).
Proof.
  intros a b t u RA RB YA YB (k & K) (l & L). destruct RA as (n & D & H & M & S & U & E), RB as (n' & D' & H' & M' & S' & U' & E'). apply day_iff in D. apply day_iff in D'. destruct D as (V & O), D' as (V' & O'). assert (C1 := ord_earlier _ _ V V'). assert (C2 := ord_earlier _ _ V' V). rewrite O, O' in C1, C2. assert (C3 := fun q => ord_inj _ _ V V' (eq_trans (eq_trans O q) (eq_sym O'))).
  assert (C4 : (year a, month a, day a) = (year b, month b, day b) -> n = n') by (intros Q; rewrite <- O, <- O', Q; reflexivity).
  assert (X : forall c, valid (year c, month c, day c) -> year c <= 9999 -> 0 <= year c < 10 ^ Z.of_nat 4 /\ 0 <= month c < 10 ^ Z.of_nat 2 /\ 0 <= day c < 10 ^ Z.of_nat 2).
  { intros c (Y1 & MM & DD) Y. assert (DM : dim (year c) (month c) <= 31) by (unfold dim, one_if; months MM; destruct (is_leap (year c)); cbn; lia). change (10 ^ Z.of_nat 4) with 10000. change (10 ^ Z.of_nat 2) with 100. lia. }
  destruct (X a V YA) as (B1 & B2 & B3), (X b V' YB) as (B1' & B2' & B3'). clear X.
  unfold text_of. rewrite !compare_put by (change (10 ^ Z.of_nat 2) with 100; lia || assumption).
  cbn [append]. rewrite compare_char. change (Ascii.compare "T" "T") with Eq. cbn [then_]. rewrite !compare_put by (change (10 ^ Z.of_nat 2) with 100; lia).
  assert (KA : micro a = micro a / 100000 * 100000). { assert (X : micro a mod 100000 = 0) by (rewrite <- (Z.mod_unique (micro a) 100000 (k - n * 864000 - hour a * 36000 - minute a * 600 - second a * 10) 0); lia). assert (F := Z.div_mod (micro a) 100000 ltac:(lia)). lia. }
  assert (KB : micro b = micro b / 100000 * 100000). { assert (X : micro b mod 100000 = 0) by (rewrite <- (Z.mod_unique (micro b) 100000 (l - n' * 864000 - hour b * 36000 - minute b * 600 - second b * 10) 0); lia). assert (F := Z.div_mod (micro b) 100000 ltac:(lia)). lia. }
  rewrite <- (app_nil (put 1 (micro a / 100000))), <- (app_nil (put 1 (micro b / 100000))). rewrite compare_put by (change (10 ^ Z.of_nat 1) with 10; lia). cbn [String.compare].
  cbn [earlier] in C1, C2. assert (C5 : n = n' -> year a = year b /\ month a = month b /\ day a = day b) by (intros Q; specialize (C3 Q); injection C3; auto). assert (C6 : year a = year b -> month a = month b -> day a = day b -> n = n') by (intros Q1 Q2 Q3; apply C4; congruence). clear C3 C4 V V' O O' K L.
  set (ka := micro a / 100000) in *. set (kb := micro b / 100000) in *. clearbody ka kb.
  destruct (Z.compare_spec (year a) (year b)) as [E1|L1|L1]; cbn [then_]; [|symmetry; apply Z.compare_lt_iff; lia|symmetry; apply Z.compare_gt_iff; lia].
  destruct (Z.compare_spec (month a) (month b)) as [E2|L2|L2]; cbn [then_]; [|symmetry; apply Z.compare_lt_iff; lia|symmetry; apply Z.compare_gt_iff; lia].
  destruct (Z.compare_spec (day a) (day b)) as [E3|L3|L3]; cbn [then_]; [|symmetry; apply Z.compare_lt_iff; lia|symmetry; apply Z.compare_gt_iff; lia].
  specialize (C6 E1 E2 E3). clear C1 C2 C5.
  destruct (Z.compare_spec (hour a) (hour b)) as [E4|L4|L4]; cbn [then_]; [|symmetry; apply Z.compare_lt_iff; lia|symmetry; apply Z.compare_gt_iff; lia].
  destruct (Z.compare_spec (minute a) (minute b)) as [E5|L5|L5]; cbn [then_]; [|symmetry; apply Z.compare_lt_iff; lia|symmetry; apply Z.compare_gt_iff; lia].
  destruct (Z.compare_spec (second a) (second b)) as [E6|L6|L6]; cbn [then_]; [|symmetry; apply Z.compare_lt_iff; lia|symmetry; apply Z.compare_gt_iff; lia].
  destruct (Z.compare_spec ka kb) as [E7|L7|L7]; cbn [then_]; symmetry; [apply Z.compare_eq_iff; lia|apply Z.compare_lt_iff; lia|apply Z.compare_gt_iff; lia].
Qed.
