From Coq Require Import List ZArith NArith Nnat Bool String Ascii Lia.
From Verif Require Import Base TimeModel TimeSpec TimeProofs.
Import ListNotations.
Local Open Scope Z_scope.

Lemma digit_dig : forall n, digit (n mod 10) (dig n).
Proof. intros n. assert (A := Z.mod_pos_bound n 10 ltac:(lia)). split; [lia|]. unfold dig. rewrite nat_ascii_embedding; [reflexivity|]. set (z := n mod 10) in *. clearbody z. lia. Qed.
Lemma digit_fun : forall n c c', digit n c -> digit n c' -> c = c'.
Proof. intros n c c' [_ A] [_ B]. rewrite <- (ascii_nat_embedding c), <- (ascii_nat_embedding c'). congruence. Qed.
Lemma digit_range : forall n c, digit n c -> 0 <= n <= 9.
Proof. intros n c [H _]. exact H. Qed.
Lemma app_len : forall a b, String.length (a ++ b) = (String.length a + String.length b)%nat.
Proof. induction a as [|c a IH]; intros b; cbn [append String.length]; [reflexivity|rewrite IH; lia]. Qed.
Lemma app_assoc_s : forall a b c, ((a ++ b) ++ c)%string = (a ++ (b ++ c))%string.
Proof. induction a as [|x a IH]; intros b c; cbn [append]; [reflexivity|rewrite IH; reflexivity]. Qed.
Lemma numeral_len : forall n s, numeral n s -> (1 <= String.length s)%nat.
Proof. intros n s H. destruct H as [n c H|n s k c H D]; [cbn; lia|rewrite app_len; cbn; lia]. Qed.
Lemma numeral_bound : forall n s, numeral n s -> 0 <= n < 10 ^ Z.of_nat (String.length s).
Proof.
  intros n s H. induction H as [n c D|n s k c H IH D]; apply digit_range in D; [cbn; lia|]. rewrite app_len. cbn [String.length]. replace (Z.of_nat (String.length s + 1)) with (Z.succ (Z.of_nat (String.length s))) by lia. rewrite Z.pow_succ_r by lia. lia.
Qed.
Lemma field_one : forall n s, field n 1 s <-> exists c, s = String c EmptyString /\ digit n c.
Proof.
  intros n s. split.
  - intros [H L]. inversion H as [n0 c D|n0 s0 k c H0 D]; subst; [exists c; split; [reflexivity|exact D]|]. rewrite app_len in L. cbn in L. assert (X := numeral_len _ _ H0). lia.
  - intros (c & -> & D). split; [constructor; exact D|reflexivity].
Qed.
Lemma field_more : forall n w s, field n (Datatypes.S (Datatypes.S w)) s <-> exists a s' k c, n = 10 * a + k /\ s = (s' ++ String c EmptyString)%string /\ field a (Datatypes.S w) s' /\ digit k c.
Proof.
  intros n w s. split.
  - intros [H L]. inversion H as [n0 c D|n0 s0 k c H0 D]; subst; [cbn in L; lia|]. rewrite app_len in L. cbn in L. exists n0, s0, k, c. split; [reflexivity|]. split; [reflexivity|]. split; [split; [exact H0|lia]|exact D].
  - intros (a & s' & k & c & -> & -> & [H L] & D). split; [constructor; assumption|]. rewrite app_len, L. cbn. lia.
Qed.
Lemma field_fun : forall w n s s', field n w s -> field n w s' -> s = s'.
Proof.
  induction w as [|[|w] IH]; intros n s s' H H'.
  - destruct H as [H L]. apply numeral_len in H. lia.
  - apply field_one in H as (c & -> & D). apply field_one in H' as (c' & -> & D'). rewrite (digit_fun _ _ _ D D'). reflexivity.
  - apply field_more in H as (a & u & k & c & E & -> & F & D). apply field_more in H' as (a' & u' & k' & c' & E' & -> & F' & D'). assert (X := digit_range _ _ D). assert (X' := digit_range _ _ D').
    assert (a = a') by lia. assert (k = k') by lia. subst a' k'. rewrite (IH _ _ _ F F'), (digit_fun _ _ _ D D'). reflexivity.
Qed.
Lemma digit_zero : forall k, digit k "0" <-> k = 0.
Proof. intros k. unfold digit. change (nat_of_ascii "0") with 48%nat. split; [lia|intros ->; split; [lia|reflexivity]]. Qed.
Lemma nozero_bound : forall n s, numeral n s -> (forall u, s <> String "0" u) -> 10 ^ (Z.of_nat (String.length s) - 1) <= n.
Proof.
  intros n s H. induction H as [n c D|n s k c H IH D]; intros NZ.
  - cbn. destruct (Z.eq_dec n 0) as [->|N]; [|apply digit_range in D; lia]. exfalso. apply (NZ EmptyString). rewrite (digit_fun 0 c "0" D); [reflexivity|]. apply digit_zero. reflexivity.
  - assert (NZ' : forall u, s <> String "0" u) by (intros u ->; apply (NZ (u ++ String c EmptyString)%string); reflexivity). specialize (IH NZ'). rewrite app_len. cbn [String.length]. assert (L := numeral_len _ _ H). apply digit_range in D.
    replace (Z.of_nat (String.length s + 1) - 1) with (Z.succ (Z.of_nat (String.length s) - 1)) by lia. rewrite Z.pow_succ_r by lia. lia.
Qed.
Lemma year_fun : forall pad y s s', year_digits pad y s -> year_digits pad y s' -> s = s'.
Proof.
  intros pad y s s' [H L] [H' L']. destruct pad; [apply (field_fun 4 y); split; assumption|].
  assert (A := nozero_bound _ _ H L). assert (A' := nozero_bound _ _ H' L'). assert (B := numeral_bound _ _ H). assert (B' := numeral_bound _ _ H').
  assert (E : String.length s = String.length s'). { assert (G : forall a b : nat, (1 <= a)%nat -> 10 ^ (Z.of_nat b - 1) <= y -> y < 10 ^ Z.of_nat a -> (b <= a)%nat).
    { intros a b Ha P1 P2. destruct (le_lt_dec b a) as [C|C]; [exact C|]. assert (P := Z.pow_le_mono_r 10 (Z.of_nat a) (Z.of_nat b - 1) ltac:(lia) ltac:(lia)). lia. }
    assert (L1 := numeral_len _ _ H). assert (L2 := numeral_len _ _ H'). assert (G1 := G _ _ L2 A ltac:(lia)). assert (G2 := G _ _ L1 A' ltac:(lia)). lia. }
  apply (field_fun (String.length s') y); split; try assumption. reflexivity.
Qed.
Lemma year_four : forall pad y s, pad = true \/ 1000 <= y -> y <= 9999 -> year_digits pad y s -> field y 4 s.
Proof.
  intros pad y s P Y [H L]. destruct pad; [split; assumption|]. destruct P as [P|P]; [discriminate|]. split; [exact H|].
  assert (A := nozero_bound _ _ H L). assert (B := numeral_bound _ _ H). assert (N := numeral_len _ _ H).
  destruct (le_lt_dec (String.length s) 3) as [C|C].
  - assert (Q1 := Z.pow_le_mono_r 10 (Z.of_nat (String.length s)) 3 ltac:(lia) ltac:(lia)). change (10 ^ 3) with 1000 in Q1. lia.
  - destruct (le_lt_dec 5 (String.length s)) as [C2|C2]; [|lia]. assert (Q1 := Z.pow_le_mono_r 10 4 (Z.of_nat (String.length s) - 1) ltac:(lia) ltac:(lia)). change (10 ^ 4) with 10000 in Q1. lia.
Qed.

(** * The text made *)
Lemma dig_small : forall n, 0 <= n <= 9 -> digit n (dig n).
Proof. intros n H. assert (D := digit_dig n). rewrite Z.mod_small in D by lia. exact D. Qed.
Lemma pad2_field : forall n, 0 <= n <= 99 -> field n 2 (pad2 n).
Proof.
  intros n H. apply field_more. assert (A := Z.div_mod n 10 ltac:(lia)). assert (B := Z.mod_pos_bound n 10 ltac:(lia)). exists (n / 10), (String (dig (n / 10)) EmptyString), (n mod 10), (dig n). split; [lia|]. split; [reflexivity|]. split; [|apply digit_dig].
  apply field_one. exists (dig (n / 10)). split; [reflexivity|]. apply dig_small. set (q := n / 10) in *. clearbody q. lia.
Qed.
Lemma dig_mod : forall n m, n mod 10 = m mod 10 -> dig n = dig m.
Proof. intros n m H. unfold dig. rewrite H. reflexivity. Qed.
Lemma snoc_field : forall n w s, 0 <= n -> field (n / 10) (Datatypes.S w) s -> field n (Datatypes.S (Datatypes.S w)) (s ++ String (dig n) EmptyString).
Proof. intros n w s H F. apply field_more. exists (n / 10), s, (n mod 10), (dig n). split; [apply Z.div_mod; lia|]. split; [reflexivity|]. split; [exact F|apply digit_dig]. Qed.
Lemma div_div10 : forall n k, 0 < k -> n / k / 10 = n / (k * 10).
Proof. intros n k K. apply Z.div_div; lia. Qed.
Lemma four_field : forall y, 0 <= y <= 9999 -> field y 4 (String (dig (y / 1000)) (String (dig (y / 100)) (pad2 y))).
Proof.
  intros y H. unfold pad2. change (String (dig (y / 1000)) (String (dig (y / 100)) (String (dig (y / 10)) (String (dig y) EmptyString)))) with ((((String (dig (y / 1000)) EmptyString) ++ String (dig (y / 100)) EmptyString) ++ String (dig (y / 10)) EmptyString) ++ String (dig y) EmptyString)%string.
  apply snoc_field; [lia|]. apply snoc_field; [apply Z.div_pos; lia|]. rewrite (div_div10 y 10) by lia. change (10 * 10) with 100. apply snoc_field; [apply Z.div_pos; lia|]. rewrite (div_div10 y 100) by lia. change (100 * 10) with 1000.
  apply field_one. eexists. split; [reflexivity|]. apply dig_small. assert (A := Z.div_mod y 1000 ltac:(lia)). assert (B := Z.mod_pos_bound y 1000 ltac:(lia)). lia.
Qed.
Lemma three_field : forall y, 0 <= y <= 999 -> field y 3 (String (dig (y / 100)) (pad2 y)).
Proof.
  intros y H. unfold pad2. change (String (dig (y / 100)) (String (dig (y / 10)) (String (dig y) EmptyString))) with ((String (dig (y / 100)) EmptyString ++ String (dig (y / 10)) EmptyString) ++ String (dig y) EmptyString)%string.
  apply snoc_field; [lia|]. apply snoc_field; [apply Z.div_pos; lia|]. rewrite (div_div10 y 10) by lia. change (10 * 10) with 100.
  apply field_one. eexists. split; [reflexivity|]. apply dig_small. assert (A := Z.div_mod y 100 ltac:(lia)). assert (B := Z.mod_pos_bound y 100 ltac:(lia)). lia.
Qed.
Lemma dig_nz : forall n, 1 <= n <= 9 -> dig n <> "0"%char.
Proof. intros n H E. assert (D := dig_small n ltac:(lia)). rewrite E in D. apply digit_zero in D. lia. Qed.
Lemma year_text_ok : forall pad y, 1 <= y <= 9999 -> year_digits pad y (year_text pad y).
Proof.
  intros pad y H. unfold year_text. destruct (1000 <=? y) eqn:E1; [apply Z.leb_le in E1 | apply Z.leb_gt in E1].
  - rewrite orb_true_r. assert (F := four_field y ltac:(lia)). split; [exact (proj1 F)|]. destruct pad; [exact (proj2 F)|]. intros u E. injection E as E _. revert E. apply dig_nz. assert (A := Z.div_mod y 1000 ltac:(lia)). assert (B := Z.mod_pos_bound y 1000 ltac:(lia)). lia.
  - rewrite orb_false_r. destruct pad; [exact (four_field y ltac:(lia))|].
    destruct (100 <=? y) eqn:E2; [apply Z.leb_le in E2 | apply Z.leb_gt in E2].
    + split; [exact (proj1 (three_field y ltac:(lia)))|]. intros u E. injection E as E _. revert E. apply dig_nz. assert (A := Z.div_mod y 100 ltac:(lia)). assert (B := Z.mod_pos_bound y 100 ltac:(lia)). lia.
    + destruct (10 <=? y) eqn:E3; [apply Z.leb_le in E3 | apply Z.leb_gt in E3].
      * split; [exact (proj1 (pad2_field y ltac:(lia)))|]. intros u E. injection E as E _. revert E. apply dig_nz. assert (A := Z.div_mod y 10 ltac:(lia)). assert (B := Z.mod_pos_bound y 10 ltac:(lia)). lia.
      * split; [constructor; apply dig_small; lia|]. intros u E. injection E as E _. revert E. apply dig_nz. lia.
Qed.
Lemma valid_ranges : forall t, valid t -> 1 <= d_y t <= 9999 /\ 1 <= d_mo t <= 12 /\ 1 <= d_d t <= 31 /\ 0 <= d_h t < 24 /\ 0 <= d_mi t < 60 /\ 0 <= d_s t < 60 /\ 0 <= d_us t < 1000000.
Proof. intros t V. apply valid_iff in V as ((Y & M & D) & Y2 & R). assert (X := mlen_pos (is_leap (d_y t)) (d_mo t)). lia. Qed.
Lemma stamp_text : forall pad t, valid t -> text_of pad t (stamp pad t).
Proof.
  intros pad t V. apply valid_ranges in V. unfold text_of, stamp. do 7 eexists. split; [reflexivity|]. split; [apply year_text_ok; lia|].
  split; [apply pad2_field; lia|]. split; [apply pad2_field; lia|]. split; [apply pad2_field; lia|]. split; [apply pad2_field; lia|]. split; [apply pad2_field; lia|].
  apply field_one. eexists. split; [reflexivity|]. apply dig_small. assert (A := Z.div_mod (d_us t) 100000 ltac:(lia)). assert (B := Z.mod_pos_bound (d_us t) 100000 ltac:(lia)). lia.
Qed.
Lemma text_fun : forall pad t s s', text_of pad t s -> text_of pad t s' -> s = s'.
Proof.
  intros pad t s s' (y & mo & d & h & mi & sec & z & -> & Y & MO & D & H & MI & SE & Z0) (y' & mo' & d' & h' & mi' & sec' & z' & -> & Y' & MO' & D' & H' & MI' & SE' & Z0').
  rewrite (year_fun _ _ _ _ Y Y'), (field_fun _ _ _ _ MO MO'), (field_fun _ _ _ _ D D'), (field_fun _ _ _ _ H H'), (field_fun _ _ _ _ MI MI'), (field_fun _ _ _ _ SE SE'), (field_fun _ _ _ _ Z0 Z0'). reflexivity.
Qed.

(** * Order of texts *)
Lemma ascii_cmp : forall a b c c', digit a c -> digit b c' -> Ascii.compare c c' = Z.compare a b.
Proof.
  intros a b c c' [A EA] [B EB]. unfold Ascii.compare. rewrite <- (N2Nat.id (N_of_ascii c)), <- (N2Nat.id (N_of_ascii c')). change (N.to_nat (N_of_ascii c)) with (nat_of_ascii c). change (N.to_nat (N_of_ascii c')) with (nat_of_ascii c'). rewrite EA, EB.
  destruct (Z.compare_spec a b) as [E|E|E]; [apply N.compare_eq_iff|apply N.compare_lt_iff|apply N.compare_gt_iff]; lia.
Qed.
Lemma ascii_refl : forall c, Ascii.compare c c = Eq.
Proof. intros c. unfold Ascii.compare. apply N.compare_refl. Qed.
Lemma cmp_prefix : forall p u u', String.compare (p ++ u) (p ++ u') = String.compare u u'.
Proof. induction p as [|c p IH]; intros u u'; cbn [append String.compare]; [reflexivity|]. rewrite ascii_refl. apply IH. Qed.
Lemma field_cmp : forall w n n' s s', field n w s -> field n' w s' -> n < n' -> forall u u', String.compare (s ++ u) (s' ++ u') = Lt.
Proof.
  induction w as [|[|w] IH]; intros n n' s s' H H' L u u'.
  - destruct H as [H X]. apply numeral_len in H. lia.
  - apply field_one in H as (c & -> & D). apply field_one in H' as (c' & -> & D'). cbn [append String.compare]. rewrite (ascii_cmp _ _ _ _ D D'). rewrite (proj2 (Z.compare_lt_iff n n') L). reflexivity.
  - apply field_more in H as (a & v & k & c & E & -> & F & D). apply field_more in H' as (a' & v' & k' & c' & E' & -> & F' & D'). assert (X := digit_range _ _ D). assert (X' := digit_range _ _ D').
    rewrite !app_assoc_s. destruct (Z_lt_le_dec a a') as [C|C]; [apply (IH _ _ _ _ F F' C)|]. assert (a = a') by lia. subst a'. rewrite (field_fun _ _ _ _ F F'), cmp_prefix. cbn [append String.compare]. rewrite (ascii_cmp _ _ _ _ D D'). rewrite (proj2 (Z.compare_lt_iff k k') ltac:(lia)). reflexivity.
Qed.
Lemma text_order : forall pad t t' s s', valid t -> valid t' -> pad = true \/ (1000 <= d_y t /\ 1000 <= d_y t') -> (100000 | inst t) -> (100000 | inst t') ->
  text_of pad t s -> text_of pad t' s' -> inst t < inst t' -> String.compare s s' = Lt.
Proof.
  intros pad t t' s s' V V' P G G' (y & mo & d & h & mi & sec & z & -> & Y & MO & D & H & MI & SE & Z0) (y' & mo' & d' & h' & mi' & sec' & z' & -> & Y' & MO' & D' & H' & MI' & SE' & Z0') L.
  assert (R := valid_ranges _ V). assert (R' := valid_ranges _ V'). apply year_four in Y; [|destruct P as [->|[P _]]; [left; reflexivity|right; exact P]|lia]. apply year_four in Y'; [|destruct P as [->|[_ P]]; [left; reflexivity|right; exact P]|lia].
  assert (N := inst_lex t' t V' V).
  destruct (Z.lt_trichotomy (d_y t) (d_y t')) as [C|[C|C]]; [exact (field_cmp _ _ _ _ _ Y Y' C _ _)| |exfalso; lia]. rewrite C in Y. rewrite (field_fun _ _ _ _ Y Y'), cmp_prefix.
  destruct (Z.lt_trichotomy (d_mo t) (d_mo t')) as [C1|[C1|C1]]; [exact (field_cmp _ _ _ _ _ MO MO' C1 _ _)| |exfalso; lia]. rewrite C1 in MO. rewrite (field_fun _ _ _ _ MO MO'), cmp_prefix.
  destruct (Z.lt_trichotomy (d_d t) (d_d t')) as [C2|[C2|C2]]; [exact (field_cmp _ _ _ _ _ D D' C2 _ _)| |exfalso; lia]. rewrite C2 in D. rewrite (field_fun _ _ _ _ D D'), cmp_prefix. rewrite cmp_prefix.
  destruct (Z.lt_trichotomy (d_h t) (d_h t')) as [C3|[C3|C3]]; [exact (field_cmp _ _ _ _ _ H H' C3 _ _)| |exfalso; lia]. rewrite C3 in H. rewrite (field_fun _ _ _ _ H H'), cmp_prefix.
  destruct (Z.lt_trichotomy (d_mi t) (d_mi t')) as [C4|[C4|C4]]; [exact (field_cmp _ _ _ _ _ MI MI' C4 _ _)| |exfalso; lia]. rewrite C4 in MI. rewrite (field_fun _ _ _ _ MI MI'), cmp_prefix.
  destruct (Z.lt_trichotomy (d_s t) (d_s t')) as [C5|[C5|C5]]; [exact (field_cmp _ _ _ _ _ SE SE' C5 _ _)| |exfalso; lia]. rewrite C5 in SE. rewrite (field_fun _ _ _ _ SE SE'), cmp_prefix.
  assert (C6 : d_us t < d_us t'). { unfold inst in L. rewrite C, C1, C2, C3, C4, C5 in L. lia. }
  assert (Q1 : d_us t / 100000 < d_us t' / 100000).
  { destruct G as (k & G). destruct G' as (k' & G'). unfold inst in G, G'. assert (A := Z.div_mod (d_us t) 100000 ltac:(lia)). assert (A1 := Z.mod_pos_bound (d_us t) 100000 ltac:(lia)). assert (B := Z.div_mod (d_us t') 100000 ltac:(lia)). assert (B1 := Z.mod_pos_bound (d_us t') 100000 ltac:(lia)).
    set (q := d_us t / 100000) in *. set (r := d_us t mod 100000) in *. set (q' := d_us t' / 100000) in *. set (r' := d_us t' mod 100000) in *. clearbody q r q' r'. lia. }
  assert (X := field_cmp _ _ _ _ _ Z0 Z0' Q1 EmptyString EmptyString). assert (AE : forall x, (x ++ EmptyString)%string = x) by (clear; induction x as [|c x IH]; cbn [append]; [reflexivity|rewrite IH; reflexivity]). rewrite !AE in X. exact X.
Qed.

(** * format_ftimeutc *)
Section Format.
Variables (pad : bool) (parse : string -> option (dt * option Z)).
Notation format := (format_ftimeutc pad parse).
Lemma format_cases : forall s t off us, parse s = Some (t, off) -> valid t -> instant t us ->
  (format s = Raise PyException /\ (shift off us < 0 \/ end_of_time - 50000 <= shift off us))
  \/ exists r t', 0 <= shift off us /\ format s = Ok (stamp pad t') /\ nearest_tenth (shift off us) r /\ valid t' /\ inst t' = r.
Proof.
  intros s t off us P V I. apply (instant_iff _ _ V) in I. subst us. unfold format_ftimeutc. rewrite P.
  assert (K : forall u, valid u -> (do r <- round_tenth u; Ok (stamp pad r)) = Raise PyException /\ (inst u < 0 \/ end_of_time - 50000 <= inst u) \/ exists r t', 0 <= inst u /\ (do r <- round_tenth u; Ok (stamp pad r)) = Ok (stamp pad t') /\ nearest_tenth (inst u) r /\ valid t' /\ inst t' = r).
  { intros u Vu. assert (R := inst_range u Vu). destruct (round_ok u Vu) as [(F & L)|(t' & r & F & V' & I & N)]; rewrite F; cbn [bind].
    - left. split; [reflexivity|right; exact L].
    - right. exists r, t'. split; [lia|]. split; [reflexivity|]. split; [exact N|]. split; [exact V'|exact I]. }
  destruct off as [o|]; cbn [shift]; [|cbn [bind]; exact (K t V)].
  destruct (add_us_ok t (- o)) as [(F & N)|(u & F & Vu & I)]; rewrite F; cbn [bind].
  - left. split; [reflexivity|]. lia.
  - specialize (K u Vu). rewrite I in K. replace (inst t + - o) with (inst t - o) in K by lia. exact K.
Qed.
Lemma format_iff : forall s t off us x, parse s = Some (t, off) -> valid t -> instant t us ->
  (format s = Ok x <-> 0 <= shift off us /\ exists r t', nearest_tenth (shift off us) r /\ valid t' /\ instant t' r /\ text_of pad t' x).
Proof.
  intros s t off us x P V I. destruct (format_cases _ _ _ _ P V I) as [(F & B)|(r & t' & B & F & N & V' & I')]; rewrite F.
  - split; [discriminate|]. intros (Z0 & r & t' & (G & N) & V' & I' & _). destruct B as [B|B]; [lia|]. apply (instant_iff _ _ V') in I'. assert (R := inst_range t' V'). destruct G as (k & ->). rewrite <- I' in R. unfold end_of_time in *. lia.
  - split.
    + intros [= <-]. split; [exact B|]. exists r, t'. split; [exact N|]. split; [exact V'|]. split; [apply (instant_iff _ _ V'); symmetry; exact I'|]. apply stamp_text. exact V'.
    + intros (_ & r2 & t2 & N2 & V2 & I2 & T). apply (instant_iff _ _ V2) in I2. assert (r2 = r) by exact (nearest_unique _ _ _ N2 N). assert (t2 = t') by (apply inst_inj; [exact V2|exact V'|congruence]). subst t2.
      f_equal. exact (text_fun _ _ _ _ (stamp_text pad t' V') T).
Qed.
Lemma format_raise : forall s t off us e, parse s = Some (t, off) -> valid t -> instant t us ->
  (format s = Raise e <-> e = PyException /\ (shift off us < 0 \/ end_of_time - 50000 <= shift off us)).
Proof.
  intros s t off us e P V I. destruct (format_cases _ _ _ _ P V I) as [(F & B)|(r & t' & B & F & N & V' & I')]; rewrite F.
  - split; [intros [= <-]; split; [reflexivity|exact B] | intros [-> _]; reflexivity].
  - split; [discriminate|]. intros (_ & [X|X]); [lia|]. assert (R := inst_range t' V'). destruct N as ((k & K) & N). unfold end_of_time in *. lia.
Qed.
Lemma format_bad : forall s, parse s = None -> format s = Raise ValueError.
Proof. intros s P. unfold format_ftimeutc. rewrite P. reflexivity. Qed.
Lemma format_order : forall s1 t1 off1 us1 x1 s2 t2 off2 us2 x2, parse s1 = Some (t1, off1) -> valid t1 -> instant t1 us1 -> format s1 = Ok x1 ->
  parse s2 = Some (t2, off2) -> valid t2 -> instant t2 us2 -> format s2 = Ok x2 -> pad = true \/ (thousand <= shift off1 us1 /\ thousand <= shift off2 us2) ->
  forall r1 r2, nearest_tenth (shift off1 us1) r1 -> nearest_tenth (shift off2 us2) r2 -> String.compare x1 x2 = Z.compare r1 r2.
Proof.
  intros s1 t1 off1 us1 x1 s2 t2 off2 us2 x2 P1 V1 I1 F1 P2 V2 I2 F2 PD r1 r2 N1 N2.
  apply (proj1 (format_iff _ _ _ _ _ P1 V1 I1)) in F1 as (_ & r1' & u1 & N1' & W1 & J1 & T1). apply (proj1 (format_iff _ _ _ _ _ P2 V2 I2)) in F2 as (_ & r2' & u2 & N2' & W2 & J2 & T2).
  rewrite <- (nearest_unique _ _ _ N1 N1') in *. rewrite <- (nearest_unique _ _ _ N2 N2') in *. clear r1' r2' N1' N2'. apply (instant_iff _ _ W1) in J1. apply (instant_iff _ _ W2) in J2.
  assert (YR : forall u, valid u -> forall us r, thousand <= us -> nearest_tenth us r -> r = inst u -> 1000 <= d_y u).
  { intros u W us r TH ((k & K) & N) E. destruct (Z_lt_le_dec (d_y u) 1000) as [C|C]; [|exact C]. assert (M : valid (mkdt 1000 1 1 0 0 0 0)) by (apply valid_iff; cbn [d_y d_mo d_d d_h d_mi d_s d_us]; split; [split; [lia|]; split; [lia|]; vm_compute; split; discriminate|lia]).
    assert (X := inst_lex u _ W M ltac:(left; cbn [d_y]; exact C)). change (inst (mkdt 1000 1 1 0 0 0 0)) with thousand in X. unfold thousand in *. lia. }
  assert (PD' : pad = true \/ (1000 <= d_y u1 /\ 1000 <= d_y u2)). { destruct PD as [PD|[A B]]; [left; exact PD|right; split; [exact (YR u1 W1 _ _ A N1 J1)|exact (YR u2 W2 _ _ B N2 J2)]]. }
  assert (G1 : (100000 | inst u1)) by (rewrite <- J1; exact (proj1 N1)). assert (G2 : (100000 | inst u2)) by (rewrite <- J2; exact (proj1 N2)).
  destruct (Z.compare_spec r1 r2) as [E|E|E].
  - assert (u1 = u2) by (apply inst_inj; [exact W1|exact W2|congruence]). subst u2. rewrite (text_fun _ _ _ _ T1 T2). clear. induction x2 as [|c x IH]; cbn [String.compare]; [reflexivity|]. rewrite ascii_refl. exact IH.
  - apply (text_order pad u1 u2); try assumption. lia.
  - assert (X : String.compare x2 x1 = Lt) by (apply (text_order pad u2 u1); try assumption; [destruct PD' as [H|[H H']]; [left; exact H|right; split; assumption]|lia]).
    rewrite String.compare_antisym. rewrite X. reflexivity.
Qed.
Lemma format_grid : forall s t off us x, parse s = Some (t, off) -> valid t -> instant t us -> (100000 | shift off us) -> format s = Ok x -> exists t', valid t' /\ instant t' (shift off us) /\ text_of pad t' x.
Proof.
  intros s t off us x P V I G F. apply (proj1 (format_iff _ _ _ _ _ P V I)) in F as (_ & r & t' & N & V' & I' & T). exists t'. split; [exact V'|]. split; [|exact T].
  rewrite <- (nearest_unique (shift off us) r (shift off us) N); [exact I'|]. split; [exact G|lia].
Qed.
End Format.
Lemma nearest_total : forall us, exists r, nearest_tenth us r.
Proof. intros us. exists ((us + 50000) / 100000 * 100000). split; [eexists; reflexivity|]. assert (A := Z.div_mod (us + 50000) 100000 ltac:(lia)). assert (B := Z.mod_pos_bound (us + 50000) 100000 ltac:(lia)). lia. Qed.
Lemma text_length : forall pad t s, valid t -> pad = true \/ 1000 <= d_y t -> text_of pad t s -> String.length s = 16%nat.
Proof.
  intros pad t s V P (y & mo & d & h & mi & sec & z & -> & Y & [_ MO] & [_ D] & [_ H] & [_ MI] & [_ SE] & [_ Z0]). apply valid_ranges in V. apply year_four in Y as [_ Y]; [|exact P|lia]. rewrite !app_len, Y, MO, D, H, MI, SE, Z0. reflexivity.
Qed.
Lemma format_monotone : forall pad parse s1 t1 off1 us1 x1 s2 t2 off2 us2 x2, parse s1 = Some (t1, off1) -> valid t1 -> instant t1 us1 -> format_ftimeutc pad parse s1 = Ok x1 ->
  parse s2 = Some (t2, off2) -> valid t2 -> instant t2 us2 -> format_ftimeutc pad parse s2 = Ok x2 -> pad = true \/ (thousand <= shift off1 us1 /\ thousand <= shift off2 us2) ->
  shift off1 us1 <= shift off2 us2 -> String.compare x1 x2 <> Gt.
Proof.
  intros pad parse s1 t1 off1 us1 x1 s2 t2 off2 us2 x2 P1 V1 I1 F1 P2 V2 I2 F2 PD L. destruct (nearest_total (shift off1 us1)) as (r1 & N1). destruct (nearest_total (shift off2 us2)) as (r2 & N2).
  rewrite (format_order pad parse _ _ _ _ _ _ _ _ _ _ P1 V1 I1 F1 P2 V2 I2 F2 PD _ _ N1 N2). destruct N1 as ((k & ->) & A). destruct N2 as ((k' & ->) & B). rewrite Z.compare_gt_iff. lia.
Qed.
Lemma instant_total : forall t, valid t -> exists us, instant t us /\ 0 <= us < end_of_time /\ forall us', instant t us' -> us' = us.
Proof. intros t V. exists (inst t). split; [apply (instant_iff _ _ V); reflexivity|]. split; [exact (inst_range t V)|]. intros us' H. exact (instant_inst _ _ H). Qed.
