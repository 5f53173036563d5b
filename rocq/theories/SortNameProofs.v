(** Lemmas on file names, calibration types and sorting. *)
From Coq Require Import List Arith Bool QArith ZArith String Ascii Sorted Permutation Lia.
From Verif Require Import Base DqModel SortModel SortSpec.
Import ListNotations.
Local Open Scope Z_scope.
Local Open Scope list_scope.

(** ** Numerals *)
Lemma digit_figure : forall c d, digit c = Some d <-> figure c d.
Proof.
  intros c d. unfold digit, figure.
  destruct ((48 <=? Z.of_nat (nat_of_ascii c)) && (Z.of_nat (nat_of_ascii c) <=? 57)) eqn:E.
  - apply andb_true_iff in E. destruct E as [E1 E2]. apply Z.leb_le in E1, E2.
    split; [intros H; injection H as <-; lia|intros [H1 H2]; f_equal; lia].
  - apply andb_false_iff in E. split; [discriminate|]. intros [H1 H2]. destruct E as [E|E]; apply Z.leb_gt in E; lia.
Qed.

Lemma digits_app : forall l acc c, digits acc (l ++ [c]) = match digits acc l with Some z => match digit c with Some d => Some (10 * z + d) | None => None end | None => None end.
Proof.
  induction l as [|x l IH]; intros acc c; cbn [app digits].
  - destruct (digit c); reflexivity.
  - destruct (digit x); [apply IH|reflexivity].
Qed.

Lemma int_of_numeral : forall l z, int_of l = Ok z <-> numeral l z.
Proof.
  intros l z. split.
  - revert z. induction l as [|c l IH] using rev_ind; intros z H; [discriminate H|].
    assert (H' : match digits 0 (l ++ [c]) with Some z => Ok z | None => Raise ValueError end = Ok z) by (destruct l; exact H).
    clear H. rename H' into H.
    rewrite digits_app in H. destruct (digits 0 l) as [w|] eqn:W; [|discriminate H].
    destruct (digit c) as [d|] eqn:D; [|discriminate H]. injection H as <-.
    apply digit_figure in D. destruct l as [|y t].
    + cbn in W. injection W as <-. cbn [app]. replace (10 * 0 + d) with d by lia. constructor. exact D.
    + constructor; [|exact D]. apply IH. unfold int_of. rewrite W. reflexivity.
  - intros H. induction H as [c d D|ds z c d N IH D].
    + unfold int_of. cbn [digits]. rewrite (proj2 (digit_figure _ _) D). f_equal.
    + unfold int_of in *. destruct ds as [|y t]; [discriminate IH|]. cbn [app].
      change (y :: t ++ [c]) with ((y :: t) ++ [c]). rewrite digits_app.
      destruct (digits 0 (y :: t)) as [w|]; [|discriminate IH]. injection IH as ->.
      rewrite (proj2 (digit_figure _ _) D). reflexivity.
Qed.

Lemma numeral_chars : forall ds z c, numeral ds z -> In c ds -> exists d, figure c d.
Proof.
  intros ds z c N. induction N as [x d D|ds z x d N IH D]; intros I.
  - destruct I as [<-|[]]. exists d. exact D.
  - apply in_app_iff in I. destruct I as [I|[<-|[]]]; [exact (IH I)|exists d; exact D].
Qed.
Lemma numeral_nil : forall z, ~ numeral [] z.
Proof. intros z H. apply int_of_numeral in H. discriminate H. Qed.
Lemma numeral_dot : forall ds z, numeral ds z -> ~ In "."%char ds.
Proof. intros ds z N I. destruct (numeral_chars _ _ _ N I) as (d & A & B). change (46 = 48 + d) in B. lia. Qed.
Lemma numeral_und : forall ds z, numeral ds z -> ~ In "_"%char ds.
Proof. intros ds z N I. destruct (numeral_chars _ _ _ N I) as (d & A & B). change (95 = 48 + d) in B. lia. Qed.
Lemma numeral_fun : forall ds z z', numeral ds z -> numeral ds z' -> z = z'.
Proof. intros ds z z' A B. apply int_of_numeral in A, B. congruence. Qed.

Lemma find_char_no : forall c l, ~ In c l -> find_char c l = -1.
Proof.
  intros c l. induction l as [|x l IH]; intros H; [reflexivity|]. cbn [find_char].
  destruct (Ascii.eqb x c) eqn:E; [apply Ascii.eqb_eq in E; subst; exfalso; apply H; left; reflexivity|].
  rewrite IH; [reflexivity|]. intros I. apply H. right. exact I.
Qed.
Lemma find_char_yes : forall c p s, ~ In c p -> find_char c (p ++ c :: s) = Z.of_nat (List.length p).
Proof.
  intros c p s. induction p as [|x p IH]; intros H; cbn [app find_char List.length].
  - rewrite Ascii.eqb_refl. reflexivity.
  - destruct (Ascii.eqb x c) eqn:E; [apply Ascii.eqb_eq in E; subst; exfalso; apply H; left; reflexivity|].
    rewrite IH; [|intros I; apply H; right; exact I].
    replace (Z.of_nat (List.length p) <? 0) with false by (symmetry; apply Z.ltb_ge; lia). lia.
Qed.
Lemma find_char_cases : forall c l, (~ In c l /\ find_char c l = -1) \/ exists p s, l = p ++ c :: s /\ ~ In c p /\ find_char c l = Z.of_nat (List.length p).
Proof.
  intros c l. destruct (in_dec ascii_dec c l) as [I|I].
  - right. apply in_split in I. destruct I as (p & s & E).
    revert s E. assert (G : forall n p s, (List.length p <= n)%nat -> l = p ++ c :: s -> exists p s, l = p ++ c :: s /\ ~ In c p /\ find_char c l = Z.of_nat (List.length p)).
    { induction n as [|n IH]; intros q s L E.
      - destruct q; [|cbn in L; lia]. exists [], s. split; [exact E|]. split; [intros []|]. rewrite E. apply (find_char_yes c []). intros [].
      - destruct (in_dec ascii_dec c q) as [J|J].
        + apply in_split in J. destruct J as (q1 & q2 & ->). apply (IH q1 (q2 ++ c :: s)).
          * rewrite app_length in L. cbn in L. lia.
          * rewrite E. rewrite <- app_assoc. reflexivity.
        + exists q, s. split; [exact E|]. split; [exact J|]. rewrite E. apply find_char_yes. exact J. }
    intros s E. exact (G _ _ _ (le_n _) E).
  - left. split; [exact I|]. apply find_char_no. exact I.
Qed.

Lemma pyslice_nat : forall A (l : list A) i j, pyslice l (Z.of_nat i) (Z.of_nat j) = firstn (j - i) (skipn i l).
Proof. intros A l i j. unfold pyslice. f_equal; [|f_equal]; lia. Qed.
Lemma pyslice_mid : forall A (a b c : list A), pyslice (a ++ b ++ c) (Z.of_nat (List.length a)) (Z.of_nat (List.length a + List.length b)) = b.
Proof.
  intros A a b c. rewrite pyslice_nat. rewrite skipn_app, skipn_all, Nat.sub_diag. cbn [app skipn].
  replace (List.length a + List.length b - List.length a)%nat with (List.length b) by lia.
  rewrite firstn_app, firstn_all, Nat.sub_diag. cbn [firstn]. apply app_nil_r.
Qed.

Lemma frame_id_spec : forall name z, extract_frame_id name = Ok z <-> frame_number name z.
Proof.
  intros name z. unfold extract_frame_id, frame_number. set (l := list_ascii_of_string name). clearbody l. clear name.
  destruct (find_char_cases "_" (rev l)) as [[U FU]|(p & s & E & NU & FU)]; rewrite FU.
  { split.
    - intros H. exfalso. cbv zeta in H.
      assert (X : pyslice l (Z.of_nat (List.length l) - -1) (Z.of_nat (List.length l) - find_char "." (rev l) - 1) = []).
      { unfold pyslice. rewrite skipn_all2 by lia. apply firstn_nil. }
      rewrite X in H. discriminate H.
    - intros (pre & ds & post & E & _). exfalso. apply U. apply in_rev. rewrite rev_involutive, E. apply in_or_app. right. left. reflexivity. }
  assert (EL : l = rev s ++ "_"%char :: rev p).
  { rewrite <- (rev_involutive l), E, rev_app_distr. cbn [rev]. rewrite <- app_assoc. reflexivity. }
  assert (NU' : ~ In "_"%char (rev p)) by (intros I; apply NU; apply in_rev; exact I).
  remember (rev s) as pre eqn:Epre. remember (rev p) as tl eqn:Etl.
  assert (Lp : List.length p = List.length tl) by (subst tl; rewrite rev_length; reflexivity).
  clear Epre Etl E s NU FU. rewrite Lp. clear p Lp.
  assert (I0 : Z.of_nat (List.length l) - Z.of_nat (List.length tl) = Z.of_nat (List.length pre + 1)).
  { rewrite EL, app_length. cbn [List.length]. lia. }
  cbv zeta. rewrite I0.
  (* uniqueness of the split at the last underscore *)
  assert (UN : forall pre' tl', l = pre' ++ "_"%char :: tl' -> ~ In "_"%char tl' -> pre' = pre /\ tl' = tl).
  { clear I0. intros pre' tl' E' N'. rewrite EL in E'. clear EL. revert pre' E'. induction pre as [|x pre IH]; intros [|y pre'] E'; cbn [app] in E'.
    - injection E' as ->. split; reflexivity.
    - injection E' as <- E'. exfalso. apply NU'. rewrite E'. apply in_or_app. right. left. reflexivity.
    - injection E' as -> E'. exfalso. apply N'. rewrite <- E'. apply in_or_app. right. left. reflexivity.
    - injection E' as <- E'. destruct (IH _ E') as [-> ->]. split; reflexivity. }
  destruct (find_char_cases "." (rev l)) as [[D FD]|(p & s & E & ND & FD)]; rewrite FD.
  - assert (ND : ~ In "."%char l) by (intros I; apply D; apply -> in_rev; exact I).
    assert (X : pyslice l (Z.of_nat (List.length pre + 1)) (Z.of_nat (List.length l) - -1 - 1) = tl).
    { replace (Z.of_nat (List.length l) - -1 - 1) with (Z.of_nat (List.length (pre ++ ["_"%char]) + List.length tl)) by (rewrite EL, !app_length; cbn [List.length]; lia).
      replace (List.length pre + 1)%nat with (List.length (pre ++ ["_"%char])) by (rewrite app_length; reflexivity).
      replace l with ((pre ++ ["_"%char]) ++ tl ++ []) by (rewrite EL, app_nil_r, <- app_assoc; reflexivity). apply pyslice_mid. }
    rewrite X. rewrite int_of_numeral. split.
    + intros N. exists pre, tl, []. split; [rewrite app_nil_r; exact EL|]. split; [exact N|]. left. split; [reflexivity|].
      intros I. apply ND. rewrite EL. apply in_or_app. left. exact I.
    + intros (pre' & ds & post & E & N & [[-> _]|(e & -> & _)]).
      * rewrite app_nil_r in E. destruct (UN pre' ds E (numeral_und _ _ N)) as [_ <-]. exact N.
      * exfalso. apply ND. rewrite E. apply in_or_app. right. right. apply in_or_app. right. left. reflexivity.
  - assert (EL2 : l = rev s ++ "."%char :: rev p).
    { rewrite <- (rev_involutive l), E, rev_app_distr. cbn [rev]. rewrite <- app_assoc. reflexivity. }
    assert (ND' : ~ In "."%char (rev p)) by (intros I; apply ND; apply in_rev; exact I).
    remember (rev s) as pre2 eqn:Epre2. remember (rev p) as tl2 eqn:Etl2.
    assert (Lp : List.length p = List.length tl2) by (subst tl2; rewrite rev_length; reflexivity).
    clear Epre2 Etl2 E s ND FD. rewrite Lp. clear p Lp.
    assert (I1 : Z.of_nat (List.length l) - Z.of_nat (List.length tl2) - 1 = Z.of_nat (List.length pre2)).
    { rewrite EL2 at 1. rewrite app_length. cbn [List.length]. lia. }
    rewrite I1. rewrite int_of_numeral, pyslice_nat.
    assert (SK : skipn (List.length pre + 1) l = tl).
    { replace l with ((pre ++ ["_"%char]) ++ tl) by (rewrite EL, <- app_assoc; reflexivity).
      replace (List.length pre + 1)%nat with (List.length (pre ++ ["_"%char])) by (rewrite app_length; reflexivity).
      rewrite skipn_app, skipn_all, Nat.sub_diag. reflexivity. }
    rewrite SK. split.
    + intros N.
      assert (LT : (List.length pre + 1 < List.length pre2)%nat).
      { destruct (le_lt_dec (List.length pre2) (List.length pre + 1)) as [G|G]; [|exact G]. exfalso.
        replace (List.length pre2 - (List.length pre + 1))%nat with 0%nat in N by lia. cbn in N. exact (numeral_nil _ N). }
      (* the period lies after the underscore *)
      assert (SP : exists ds, pre2 = pre ++ "_"%char :: ds /\ tl = ds ++ "."%char :: tl2).
      { rewrite EL in EL2. clear - EL2 LT. revert pre2 EL2 LT. induction pre as [|x pre IH]; intros [|y pre2] E L; cbn [List.length] in L; try lia; cbn [app] in E.
        - injection E as <- E. exists pre2. split; [reflexivity|exact E].
        - injection E as <- E. destruct (IH pre2 E) as (ds & -> & ->); [lia|]. exists ds. split; reflexivity. }
      destruct SP as (ds & -> & Etl). rewrite Etl in N.
      rewrite app_length in N. cbn [List.length] in N.
      replace (List.length pre + S (List.length ds) - (List.length pre + 1))%nat with (List.length ds) in N by lia.
      rewrite firstn_app, firstn_all, Nat.sub_diag in N. cbn [firstn] in N. rewrite app_nil_r in N.
      exists pre, ds, ("."%char :: tl2). split; [rewrite EL, Etl; reflexivity|]. split; [exact N|]. right. exists tl2.
      split; [reflexivity|]. split; [exact ND'|]. intros I. apply NU'. rewrite Etl. apply in_or_app. right. right. exact I.
    + intros (pre' & ds & post & E & N & [[-> Npre]|(e & -> & Ne & Ue)]).
      * exfalso. rewrite app_nil_r in E. assert (I : In "."%char l) by (rewrite EL2; apply in_or_app; right; left; reflexivity).
        rewrite E in I. apply in_app_or in I. destruct I as [I|[I|I]]; [exact (Npre I)|discriminate I|exact (numeral_dot _ _ N I)].
      * assert (UT : ~ In "_"%char (ds ++ "."%char :: e)).
        { intros I. apply in_app_or in I. destruct I as [I|[I|I]]; [exact (numeral_und _ _ N I)|discriminate I|exact (Ue I)]. }
        destruct (UN _ _ E UT) as [-> Et]. 
        assert (P2 : pre2 = pre ++ "_"%char :: ds).
        { assert (Q : forall a a' b b', a ++ "."%char :: b = a' ++ "."%char :: b' -> ~ In "."%char b -> ~ In "."%char b' -> a = a').
          { clear. induction a as [|x a IH]; intros [|y a'] b b' E N N'; cbn [app] in E.
            - reflexivity.
            - injection E as <- E. exfalso. apply N. rewrite E. apply in_or_app. right. left. reflexivity.
            - injection E as -> E. exfalso. apply N'. rewrite <- E. apply in_or_app. right. left. reflexivity.
            - injection E as <- E. f_equal. exact (IH _ _ _ E N N'). }
          apply (Q _ _ tl2 e); [|exact ND'|exact Ne]. rewrite <- EL2, E, <- app_assoc. reflexivity. }
        rewrite P2, <- Et, app_length. cbn [List.length].
        replace (List.length pre + S (List.length ds) - (List.length pre + 1))%nat with (List.length ds) by lia.
        rewrite firstn_app, firstn_all, Nat.sub_diag. cbn [firstn]. rewrite app_nil_r. exact N.
Qed.

(** ** Calibration types *)
Lemma lowers_list : forall s, list_ascii_of_string (lowers s) = map lower (list_ascii_of_string s).
Proof. intros s. unfold lowers. apply list_ascii_of_string_of_list_ascii. Qed.

Definition plain (c : ascii) : Prop := ~ (65 <= nat_of_ascii c <= 90)%nat.
Lemma lower_any : forall x y, plain y -> (lower x = y <-> any_case x y).
Proof.
  intros x y P. unfold lower, any_case, plain in *. cbv zeta.
  destruct ((65 <=? nat_of_ascii x)%nat && (nat_of_ascii x <=? 90)%nat) eqn:E.
  - apply andb_true_iff in E. destruct E as [E1 E2]. apply Nat.leb_le in E1, E2. split.
    + intros <-. right. split; [lia|]. apply nat_ascii_embedding. lia.
    + intros [->|[_ H]]; [exfalso; lia|]. rewrite <- H. apply ascii_nat_embedding.
  - apply andb_false_iff in E. split; [intros ->; left; reflexivity|]. intros [->|[H _]]; [reflexivity|].
    exfalso. destruct E as [E|E]; apply Nat.leb_gt in E; lia.
Qed.
Lemma lower_spells : forall l w, Forall plain w -> (map lower l = w <-> Forall2 any_case l w).
Proof.
  induction l as [|x l IH]; intros w P; cbn [map].
  - split; [intros <-; constructor|intros H; inversion H; reflexivity].
  - destruct w as [|y w]; [split; [discriminate|intros H; inversion H]|]. inversion P as [|? ? P1 P2]; subst. split.
    + intros H. injection H as H1 H2. constructor; [apply lower_any; assumption|apply IH; assumption].
    + intros H. inversion H; subst. f_equal; [apply lower_any; assumption|apply IH; assumption].
Qed.
Lemma eqb_list : forall a b, String.eqb a b = true <-> list_ascii_of_string a = list_ascii_of_string b.
Proof.
  intros a b. rewrite String.eqb_eq. split; [intros ->; reflexivity|]. intros H.
  rewrite <- (string_of_list_ascii_of_string a), H. apply string_of_list_ascii_of_string.
Qed.
Lemma substring_list : forall n s, list_ascii_of_string (substring 0 n s) = firstn n (list_ascii_of_string s).
Proof.
  induction n as [|n IH]; intros s; destruct s as [|c s]; try reflexivity. cbn. f_equal. apply IH.
Qed.

Lemma spells_k : forall ty w, Forall plain (list_ascii_of_string w) -> String.eqb (lowers ty) w = true <-> spells (list_ascii_of_string ty) w.
Proof. intros ty w P. rewrite eqb_list, lowers_list. apply lower_spells. exact P. Qed.
Lemma spells_prefix : forall ty w, Forall plain (list_ascii_of_string w) ->
  String.eqb (substring 0 (String.length w) (lowers ty)) w = true <-> exists a b, list_ascii_of_string ty = a ++ b /\ spells a w.
Proof.
  intros ty w P. rewrite eqb_list, substring_list, lowers_list. set (l := list_ascii_of_string ty). clearbody l.
  assert (LW : String.length w = List.length (list_ascii_of_string w)) by (clear; induction w; cbn; congruence).
  rewrite LW. rewrite firstn_map. split.
  - intros H. exists (firstn (List.length (list_ascii_of_string w)) l), (skipn (List.length (list_ascii_of_string w)) l).
    split; [symmetry; apply firstn_skipn|]. apply lower_spells; assumption.
  - intros (a & b & -> & S). apply lower_spells; [exact P|]. assert (L : List.length a = List.length (list_ascii_of_string w)) by (clear - S; unfold spells in S; induction S; cbn; congruence).
    rewrite <- L. rewrite firstn_app, firstn_all, Nat.sub_diag. cbn [firstn]. rewrite app_nil_r. exact S.
Qed.
Ltac plainw := cbn; repeat constructor; unfold plain; cbn; lia.

Lemma cal_type_spec : forall ty t, cal_type ty = Some t <-> is_type ty t.
Proof.
  intros ty t.
  assert (K : String.eqb (lowers ty) "k-gain" || String.eqb (lowers ty) "kgain" = true <-> is_type ty KGain).
  { rewrite orb_true_iff. cbn [is_type]. rewrite (spells_k ty "k-gain"), (spells_k ty "kgain") by plainw. reflexivity. }
  assert (N : String.eqb (substring 0 7 (lowers ty)) "non-lin" || String.eqb (substring 0 6 (lowers ty)) "nonlin" = true <-> is_type ty NonLin).
  { rewrite orb_true_iff. cbn [is_type]. rewrite (spells_prefix ty "non-lin"), (spells_prefix ty "nonlin") by plainw.
    split; [intros [(a & b & E & H)|(a & b & E & H)]; exists a, b; split; auto|intros (a & b & E & [H|H]); [left|right]; exists a, b; split; auto]. }
  assert (X : is_type ty KGain -> is_type ty NonLin -> False).
  { intros A B. apply K in A. apply N in B. apply orb_true_iff in A, B. rewrite !String.eqb_eq in A, B.
    destruct A as [A|A]; rewrite A in B; cbn in B; destruct B as [B|B]; discriminate B. }
  unfold cal_type. destruct (String.eqb (lowers ty) "k-gain" || String.eqb (lowers ty) "kgain").
  - assert (A : is_type ty KGain) by (apply K; reflexivity). destruct t; [split; auto|]. split; [discriminate|]. intros B. destruct (X A B).
  - destruct (String.eqb (substring 0 7 (lowers ty)) "non-lin" || String.eqb (substring 0 6 (lowers ty)) "nonlin").
    + assert (A : is_type ty NonLin) by (apply N; reflexivity). destruct t; [|split; auto]. split; [discriminate|]. intros B. destruct (X B A).
    + split; [discriminate|]. intros B. destruct t; [apply K in B|apply N in B]; discriminate B.
Qed.
