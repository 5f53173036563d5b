(** Proofs on the table of traps. *)
From Coq Require Import List Arith Bool ZArith String Ascii Lia.
From Verif Require Import Base DqModel DqProofs SortGroupProofs TrapModel TrapSpec.
Import ListNotations.
Local Open Scope Z_scope.

(** ** Numbers *)
Lemma sapp_assoc : forall a b c : string, ((a ++ b) ++ c)%string = (a ++ b ++ c)%string.
Proof. induction a as [|x a IH]; intros b c; cbn; [reflexivity|f_equal; apply IH]. Qed.
Lemma sapp_nil : forall a : string, (a ++ "")%string = a.
Proof. induction a as [|x a IH]; cbn; [reflexivity|f_equal; exact IH]. Qed.
Lemma digit_chr : forall d, 0 <= d <= 9 -> digit (ascii_of_nat (48 + Z.to_nat d)) = Some d.
Proof.
  intros d H. unfold digit. rewrite nat_ascii_embedding by lia. replace (Z.of_nat (48 + Z.to_nat d)) with (48 + d) by lia. replace ((48 <=? 48 + d) && (48 + d <=? 57)) with true by (symmetry; apply andb_true_iff; split; apply Z.leb_le; lia). f_equal. lia.
Qed.
Lemma digit_inv : forall a d, digit a = Some d -> 0 <= d <= 9 /\ a = ascii_of_nat (48 + Z.to_nat d).
Proof.
  intros a d H. unfold digit in H. destruct ((48 <=? Z.of_nat (nat_of_ascii a)) && (Z.of_nat (nat_of_ascii a) <=? 57)) eqn:E; [|discriminate H]. apply andb_true_iff in E. destruct E as (A & B). apply Z.leb_le in A, B. injection H as <-. split; [lia|]. rewrite <- (ascii_nat_embedding a) at 1. f_equal. lia.
Qed.
Lemma digits_app : forall s t acc, digits acc (s ++ t) = match digits acc s with Some n => digits n t | None => None end.
Proof. induction s as [|a s IH]; intros t acc; cbn; [reflexivity|]. destruct (digit a); [apply IH|reflexivity]. Qed.
Lemma numeral_digits : forall s n, numeral s n -> s <> EmptyString /\ digits 0 s = Some n.
Proof.
  intros s n H. induction H as [d H|s n d H (NE & IH) R]; [split; [discriminate|]|split].
  - unfold chr. cbn [digits]. rewrite (digit_chr d H). reflexivity.
  - destruct s; [congruence|discriminate].
  - rewrite digits_app, IH. unfold chr. cbn [digits]. rewrite (digit_chr d R). reflexivity.
Qed.
Lemma digits_more : forall s t acc n, numeral t acc -> digits acc s = Some n -> numeral (t ++ s) n.
Proof.
  induction s as [|a s IH]; intros t acc n N H; [cbn in H; injection H as <-; rewrite sapp_nil; exact N|]. cbn [digits] in H. destruct (digit a) as [d|] eqn:E; [|discriminate H]. apply digit_inv in E. destruct E as (R & ->).
  replace (t ++ String (ascii_of_nat (48 + Z.to_nat d)) s)%string with ((t ++ chr d) ++ s)%string by (rewrite sapp_assoc; reflexivity). apply IH with (10 * acc + d); [constructor; assumption|exact H].
Qed.
Lemma unsigned_iff : forall s n, unsigned s = Some n <-> numeral s n.
Proof.
  intros s n. split.
  - destruct s as [|a s]; [discriminate|]. cbn [unsigned digits]. intros H. destruct (digit a) as [d|] eqn:E; [|discriminate H]. apply digit_inv in E. destruct E as (R & ->). change (String (ascii_of_nat (48 + Z.to_nat d)) s) with (chr d ++ s)%string. apply digits_more with (10 * 0 + d); [rewrite Z.mul_0_r; constructor; exact R|exact H].
  - intros H. apply numeral_digits in H. destruct H as (NE & H). destruct s; [congruence|exact H].
Qed.
Lemma numeral_head : forall s n, numeral s n -> exists d t, 0 <= d <= 9 /\ s = String (ascii_of_nat (48 + Z.to_nat d)) t.
Proof. intros s n H. induction H as [d R|s n d H (d' & t & R' & ->) R]; [exists d, EmptyString; auto|]. exists d', (t ++ chr d)%string. auto. Qed.
Lemma ten : forall d, 0 <= d <= 9 -> d = 0 \/ d = 1 \/ d = 2 \/ d = 3 \/ d = 4 \/ d = 5 \/ d = 6 \/ d = 7 \/ d = 8 \/ d = 9.
Proof. intros. lia. Qed.
Ltac tens R := destruct (ten _ R) as [-> | [-> | [-> | [-> | [-> | [-> | [-> | [-> | [-> | ->]]]]]]]]].
Lemma int_of_iff : forall s n, int_of s = Ok n <-> number s n.
Proof.
  intros s n. unfold int_of. split.
  - intros H. destruct s as [|a s]; [discriminate H|].
    assert (D : a = "-"%char \/ a = "+"%char \/ (a <> "-"%char /\ a <> "+"%char)) by (destruct (ascii_dec a "-"); [auto|destruct (ascii_dec a "+"); auto]).
    destruct D as [-> | [-> | (N1 & N2)]].
    + destruct (unsigned s) as [m|] eqn:E; [|discriminate H]. cbn in H. injection H as <-. apply (num_minus s m). apply unsigned_iff. exact E.
    + destruct (unsigned s) as [m|] eqn:E; [|discriminate H]. injection H as <-. apply (num_plus s m). apply unsigned_iff. exact E.
    + assert (E : unsigned (String a s) = Some n). { destruct a as [[] [] [] [] [] [] [] []]; try (exfalso; apply N1; reflexivity); try (exfalso; apply N2; reflexivity); cbv beta iota in H; destruct (unsigned _) in *; try discriminate H; congruence. }
      apply num_plain, unsigned_iff. exact E.
  - intros H. inversion H as [t m N|t m N|t m N]; subst.
    + destruct (numeral_head _ _ N) as (d & t & R & E). apply unsigned_iff in N. tens R; subst s; cbv beta iota delta [ascii_of_nat] in *; rewrite N; reflexivity.
    + cbn [append]. apply unsigned_iff in N. rewrite N. reflexivity.
    + cbn [append]. apply unsigned_iff in N. rewrite N. reflexivity.
Qed.

(** ** Splitting *)
Fixpoint joined (l : list string) : string := match l with [] => EmptyString | [p] => p | p :: t => (p ++ "el" ++ joined t)%string end.
Lemma split_cases : forall acc s, split_el acc s = match s with EmptyString => [acc] | String a t => match t with String b u => if Ascii.eqb a "e" && Ascii.eqb b "l" then acc :: split_el EmptyString u else split_el (acc ++ String a EmptyString)%string t | EmptyString => split_el (acc ++ String a EmptyString)%string t end end.
Proof.
  intros acc [|a [|b u]]; [reflexivity| |].
  - destruct a as [[] [] [] [] [] [] [] []]; reflexivity.
  - destruct a as [[] [] [] [] [] [] [] []]; try reflexivity. destruct b as [[] [] [] [] [] [] [] []]; reflexivity.
Qed.
Lemma split_spec : forall n s acc, (String.length s <= n)%nat -> exists h t, split_el acc s = h :: t /\ joined (h :: t) = (acc ++ s)%string.
Proof.
  induction n as [|n IH]; intros s acc L.
  - destruct s; [|cbn in L; lia]. exists acc, []. split; [reflexivity|]. cbn. rewrite sapp_nil. reflexivity.
  - rewrite split_cases. destruct s as [|a t]; [exists acc, []; split; [reflexivity|cbn; rewrite sapp_nil; reflexivity]|]. cbn [String.length] in L.
    assert (SKIP : exists h t', split_el (acc ++ String a EmptyString)%string t = h :: t' /\ joined (h :: t') = (acc ++ String a t)%string) by (destruct (IH t (acc ++ String a EmptyString)%string) as (h & t' & E & J); [lia|]; exists h, t'; split; [exact E|]; rewrite J, sapp_assoc; reflexivity).
    destruct t as [|b u]; [exact SKIP|]. destruct (Ascii.eqb a "e" && Ascii.eqb b "l") eqn:B; [|exact SKIP]. apply andb_true_iff in B. destruct B as (B1 & B2). apply Ascii.eqb_eq in B1, B2. subst a b. cbn [String.length] in L. destruct (IH u EmptyString) as (h & t' & E & J); [lia|]. exists acc, (h :: t'). rewrite E. split; [reflexivity|]. change (joined (acc :: h :: t')) with (acc ++ "el" ++ joined (h :: t'))%string. rewrite J. reflexivity.
Qed.
(** a part without an e *)
Fixpoint no_e (s : string) : Prop := match s with EmptyString => True | String a t => a <> "e"%char /\ no_e t end.
Lemma split_skip : forall p acc s, no_e p -> split_el acc (p ++ s) = split_el (acc ++ p) s.
Proof.
  induction p as [|a p IH]; intros acc s H; [rewrite sapp_nil; reflexivity|]. destruct H as (NE & H). cbn [append]. rewrite split_cases. replace (Ascii.eqb a "e") with false by (symmetry; apply Ascii.eqb_neq; exact NE). cbn [andb].
  transitivity (split_el (acc ++ String a EmptyString) (p ++ s)); [destruct (p ++ s)%string; reflexivity|]. rewrite (IH _ _ H), sapp_assoc. reflexivity.
Qed.
Lemma no_e_app : forall a b, no_e a -> no_e b -> no_e (a ++ b).
Proof. induction a as [|x a IH]; intros b A B; [exact B|]. destruct A as (A1 & A2). split; [exact A1|apply IH; assumption]. Qed.
Lemma chr_no_e : forall d, 0 <= d <= 9 -> no_e (chr d).
Proof. intros d R. tens R; (split; [discriminate|exact I]). Qed.
Lemma numeral_no_e : forall s n, numeral s n -> no_e s.
Proof. intros s n H. induction H; [apply chr_no_e; assumption|apply no_e_app; [assumption|apply chr_no_e; assumption]]. Qed.
Lemma number_no_e : forall s n, number s n -> no_e s.
Proof. intros s n H. destruct H as [s n H|s n H|s n H]; apply numeral_no_e in H; [exact H| |]; (apply no_e_app; [split; [discriminate|exact I]|exact H]). Qed.
Lemma side_no_e : forall s k, side s k -> no_e s.
Proof. intros s k [(-> & _) | [(-> & _) | (-> & _)]]; repeat split; discriminate. Qed.
Lemma electrode_iff : forall s z, electrode s = Ok z <-> exists k, side s k /\ z = 10 * k.
Proof.
  intros s z. unfold electrode, side. split.
  - destruct (String.eqb_spec s "LHS"); [intros H; injection H as <-; exists 1; auto|]. destruct (String.eqb_spec s "CEN"); [intros H; injection H as <-; exists 2; auto|]. destruct (String.eqb_spec s "RHS"); [intros H; injection H as <-; exists 3; auto|discriminate].
  - intros (k & [(-> & ->) | [(-> & ->) | (-> & ->)]] & ->); reflexivity.
Qed.
Lemma split_end : forall acc t, ended t -> exists r, split_el acc t = acc :: r.
Proof. intros acc t [-> | (u & ->)]; [exists []; reflexivity|]. exists (split_el EmptyString u). reflexivity. Qed.
Theorem code_of_iff : forall s z, code_of s = Ok z <-> exists sd k num n t, s = (sd ++ "el" ++ num ++ t)%string /\ side sd k /\ number num n /\ ended t /\ z = 10 * k + n.
Proof.
  intros s z. unfold code_of. cbv zeta. split.
  - intros H. destruct (split_spec (String.length s) s EmptyString (le_n _)) as (h & r & E & J). rewrite E in H. cbn [nth] in H. destruct (electrode h) as [b|] eqn:EH; cbn [bind] in H; [|discriminate H]. apply electrode_iff in EH. destruct EH as (k & SD & ->). cbn [nth_error] in H. destruct r as [|p r]; [discriminate H|]. cbn [nth_error] in H. destruct (int_of p) as [n|] eqn:EP; cbn [bind] in H; [|discriminate H]. injection H as <-. apply int_of_iff in EP.
    exists h, k, p, n, (match r with [] => EmptyString | _ => "el" ++ joined r end)%string. split; [|split; [exact SD|split; [exact EP|split; [|reflexivity]]]].
    + cbn [append] in J. rewrite <- J. change (joined (h :: p :: r)) with (h ++ "el" ++ joined (p :: r))%string. f_equal. f_equal. destruct r; [cbn; rewrite sapp_nil; reflexivity|reflexivity].
    + destruct r; [left; reflexivity|right; eauto].
  - intros (sd & k & num & n & t & -> & SD & NU & EN & ->). rewrite (split_skip sd EmptyString _ (side_no_e _ _ SD)). cbn [append]. change (split_el sd (String "e" (String "l" (num ++ t)))) with (sd :: split_el EmptyString (num ++ t)). rewrite (split_skip num EmptyString t (number_no_e _ _ NU)). cbn [append]. destruct (split_end num t EN) as (r & ->). cbn [nth nth_error]. rewrite (proj2 (electrode_iff sd (10 * k)) (ex_intro _ k (conj SD eq_refl))). cbn [bind]. rewrite (proj2 (int_of_iff num n) NU). reflexivity.
Qed.
Lemma side_fun : forall s k k', side s k -> side s k' -> k = k'.
Proof. intros s k k' [(-> & ->) | [(-> & ->) | (-> & ->)]] [(E & ->) | [(E & ->) | (E & ->)]]; congruence. Qed.
Lemma side_inj : forall s s' k, side s k -> side s' k -> s = s'.
Proof. intros s s' k [(-> & ->) | [(-> & ->) | (-> & ->)]] [(-> & E) | [(-> & E) | (-> & E)]]; congruence. Qed.
Lemma side_range : forall s k, side s k -> 1 <= k <= 3.
Proof. intros s k [(_ & ->) | [(_ & ->) | (_ & ->)]]; lia. Qed.
Lemma side_exists : forall k, 1 <= k <= 3 -> exists s, side s k.
Proof. intros k H. assert (C : k = 1 \/ k = 2 \/ k = 3) by lia. destruct C as [-> | [-> | ->]]; [exists "LHS"%string|exists "CEN"%string|exists "RHS"%string]; unfold side; auto. Qed.
Lemma str_chr : forall d, 0 <= d -> str_digit d = chr d.
Proof. intros d H. unfold str_digit, chr. rewrite Z2Nat.inj_add by lia. reflexivity. Qed.
Theorem string_of_iff : forall z s, string_of z = Ok s <-> plain s ((z / 10) mod 10) (z mod 10).
Proof.
  intros z s. unfold string_of, plain. pose proof (Z.mod_pos_bound z 10 ltac:(lia)) as MB. rewrite (str_chr (z mod 10)) by lia. set (k := (z / 10) mod 10). split.
  - intros H. destruct (electrode_inverse (k * 10)) as [sd|] eqn:E; cbn [bind] in H; [|discriminate H]. injection H as <-. exists sd. split; [|split; [lia|reflexivity]]. unfold electrode_inverse in E. unfold side.
    destruct (k * 10 =? 10) eqn:A; [apply Z.eqb_eq in A; injection E as <-; left; split; [reflexivity|lia]|]. destruct (k * 10 =? 20) eqn:B; [apply Z.eqb_eq in B; injection E as <-; right; left; split; [reflexivity|lia]|]. destruct (k * 10 =? 30) eqn:D; [apply Z.eqb_eq in D; injection E as <-; right; right; split; [reflexivity|lia]|discriminate E].
  - intros (sd & SD & _ & ->). destruct SD as [(-> & ->) | [(-> & ->) | (-> & ->)]]; reflexivity.
Qed.
Theorem string_of_error : forall z, string_of z = Raise KeyError <-> ~ (1 <= (z / 10) mod 10 <= 3).
Proof.
  intros z. split.
  - intros H R. destruct (side_exists _ R) as (sd & SD). pose proof (Z.mod_pos_bound z 10 ltac:(lia)). assert (E : string_of z = Ok (sd ++ "el" ++ chr (z mod 10))%string) by (apply string_of_iff; exists sd; split; [exact SD|split; [lia|reflexivity]]). congruence.
  - intros H. unfold string_of, electrode_inverse. set (k := (z / 10) mod 10) in *. replace (k * 10 =? 10) with false by (symmetry; apply Z.eqb_neq; lia). replace (k * 10 =? 20) with false by (symmetry; apply Z.eqb_neq; lia). replace (k * 10 =? 30) with false by (symmetry; apply Z.eqb_neq; lia). reflexivity.
Qed.
Lemma plain_code : forall s k d, plain s k d -> code_of s = Ok (10 * k + d).
Proof. intros s k d (sd & SD & R & ->). apply code_of_iff. exists sd, k, (chr d), d, EmptyString. rewrite sapp_nil. split; [reflexivity|]. split; [exact SD|]. split; [apply num_plain, num_one; exact R|]. split; [left; reflexivity|reflexivity]. Qed.
Lemma plain_digits : forall s k d, plain s k d -> ((10 * k + d) / 10) mod 10 = k /\ (10 * k + d) mod 10 = d.
Proof.
  intros s k d (sd & SD & R & _). pose proof (side_range _ _ SD). assert (E : (10 * k + d) / 10 = k) by (rewrite Z.mul_comm, Z.div_add_l by lia; rewrite Z.div_small by lia; lia). split; [rewrite E; apply Z.mod_small; lia|]. rewrite Z.mul_comm, Z.add_comm, Z.mod_add by lia. apply Z.mod_small. lia.
Qed.
Lemma chr_inj : forall d d', 0 <= d <= 9 -> 0 <= d' <= 9 -> chr d = chr d' -> d = d'.
Proof. intros d d' R R' E. assert (digit (ascii_of_nat (48 + Z.to_nat d)) = digit (ascii_of_nat (48 + Z.to_nat d'))) by (f_equal; unfold chr in E; congruence). rewrite !digit_chr in H by assumption. congruence. Qed.
(** Reading back gives the same string exactly for the plain ones. *)
Theorem code_lossless : forall s z, code_of s = Ok z -> (string_of z = Ok s <-> exists k d, plain s k d).
Proof.
  intros s z H. split; [intros E; apply string_of_iff in E; eauto|]. intros (k & d & P). pose proof (plain_code s k d P) as E. assert (E' : z = 10 * k + d) by congruence. rewrite E'. apply string_of_iff. destruct (plain_digits s k d P) as (-> & ->). exact P.
Qed.

(** ** Tables *)
Lemma key_eqb_eq : forall a b, key_eqb a b = true <-> a = b.
Proof.
  intros (((r & c) & s) & i) (((r' & c') & s') & i'). unfold key_eqb. cbn [fst snd]. rewrite !andb_true_iff, !Z.eqb_eq, String.eqb_eq. split; [intros (((-> & ->) & ->) & ->); reflexivity|]. intros E. assert (r = r' /\ c = c' /\ s = s' /\ i = i') by (repeat split; congruence). tauto.
Qed.
Lemma string_of_ok : forall z, 1 <= (z / 10) mod 10 <= 3 -> exists s, string_of z = Ok s.
Proof. intros z R. destruct (side_exists _ R) as (sd & SD). pose proof (Z.mod_pos_bound z 10 ltac:(lia)). exists (sd ++ "el" ++ chr (z mod 10))%string. apply string_of_iff. exists sd. split; [exact SD|split; [lia|reflexivity]]. Qed.
Lemma string_of_exn : forall z e, string_of z = Raise e -> e = KeyError.
Proof.
  intros z e H. assert (D : 1 <= (z / 10) mod 10 <= 3 \/ ~ (1 <= (z / 10) mod 10 <= 3)) by lia. destruct D as [R|R]; [destruct (string_of_ok z R) as (s & E)|apply string_of_error in R]; congruence.
Qed.
Section Table.
  Variable V : Type.
  Variable zero : V.
  Notation encode_one := (encode_one V). Notation encode := (encode V). Notation decode_one := (decode_one V zero). Notation rebuild := (rebuild V zero). Notation rebuild_dict := (rebuild_dict V zero). Notation assign := (assign V).
  Lemma caps_iff : forall cp c m, cap_at V cp 0 = Ok c /\ cap_at V cp 2 = Ok m <-> exists a b more, cp = Nested ((c :: a :: m :: b) :: more).
  Proof.
    intros cp c m. split.
    - intros (A & B). destruct cp as [[|[|x [|y [|z b]]] more]|]; try discriminate; cbn in A, B; try discriminate. injection A as <-. injection B as <-. eauto.
    - intros (a & b & more & ->). split; reflexivity.
  Qed.
  Theorem encode_one_iff : forall k e t, encode_one (k, e) = Ok t <-> row_of V k e t.
  Proof.
    intros (((r & c) & s) & i) e t. unfold TrapModel.encode_one, row_of, kstr. cbn [fst snd]. split.
    - intros H. destruct (code_of s) as [z|]; cbn [bind] in H; [|discriminate H]. destruct (cap_at V (e_cap V e) 0) as [cp|] eqn:A; cbn [bind] in H; [|discriminate H]. destruct (cap_at V (e_cap V e) 2) as [am|] eqn:B; cbn [bind] in H; [|discriminate H]. injection H as <-. cbn. repeat split. apply caps_iff. auto.
    - intros (A & B & I & CO & CP & E & CS & RS & TA). rewrite CO. cbn [bind]. apply caps_iff in CP. destruct CP as (-> & ->). cbn [bind]. destruct t. cbn in *. congruence.
  Qed.
  Theorem encode_iff : forall d rows, encode d = Ok rows <-> Forall2 (fun p t => row_of V (fst p) (snd p) t) d rows.
  Proof.
    intros d rows. unfold TrapModel.encode. rewrite mapR_iff. split; intros F; refine (Forall2_impl _ _ _ _ _ _ _ F); intros (k & e) t _ H; [apply encode_one_iff; exact H|apply encode_one_iff; exact H].
  Qed.
  Lemma decode_iff : forall t k e, decode_one t = Ok (k, e) <-> says V zero t k e.
  Proof.
    intros t (((r & c) & s) & i) e. unfold TrapModel.decode_one, says, kstr. cbn [fst snd]. split.
    - intros H. destruct (string_of (t_code V t)) as [s'|] eqn:E; cbn [bind] in H; [|discriminate H]. assert (r = t_row V t /\ c = t_col V t /\ s' = s /\ i = t_idx V t /\ e = mkentry (Flat [t_cap V t; zero; t_amp V t]) (t_E V t) (t_cs V t) (t_rsq V t) (t_tau V t)) as (-> & -> & -> & -> & ->) by (repeat split; congruence). repeat split; try reflexivity. apply string_of_iff. exact E.
    - intros (-> & -> & -> & P & ->). apply string_of_iff in P. rewrite P. reflexivity.
  Qed.
  (** assignment *)
  Lemma assign_keys : forall d k e, NoDup (map fst d) -> NoDup (map fst (assign d k e)) /\ (forall k', In k' (map fst (assign d k e)) <-> In k' (map fst d) \/ k' = k).
  Proof.
    induction d as [|(k0 & e0) d IH]; intros k e N; cbn [TrapModel.assign].
    - cbn. split; [constructor; [intros []|constructor]|]. intros k'. intuition.
    - cbn [map fst] in *. inversion N as [|x l NI N']; subst. destruct (key_eqb k k0) eqn:E.
      + apply key_eqb_eq in E. subst k0. cbn [map fst]. split; [exact N|]. intros k'. cbn. intuition.
      + assert (NE : k <> k0) by (intros ->; assert (key_eqb k0 k0 = true) by (apply key_eqb_eq; reflexivity); congruence). destruct (IH k e N') as (N1 & I1). cbn [map fst]. split; [constructor; [rewrite I1; intros [H|H]; [contradiction|congruence]|exact N1]|]. intros k'. cbn. rewrite I1. tauto.
  Qed.
  Lemma assign_in : forall d k e, NoDup (map fst d) -> forall k' e', In (k', e') (assign d k e) <-> (k' = k /\ e' = e) \/ (k' <> k /\ In (k', e') d).
  Proof.
    induction d as [|(k0 & e0) d IH]; intros k e N k' e'; cbn [TrapModel.assign].
    - cbn. split; [intros [E|[]]; left; split; congruence|]. intros [(-> & ->)|(_ & [])]. left. reflexivity.
    - cbn [map fst] in N. inversion N as [|x l NI N']; subst. destruct (key_eqb k k0) eqn:E.
      + apply key_eqb_eq in E. subst k0. cbn. split.
        * intros [H|H]; [left; split; congruence|]. right. split; [|right; exact H]. intros ->. apply NI. change k with (fst (k, e')). apply in_map. exact H.
        * intros [(-> & ->)|(NE & [H|H])]; [left; reflexivity|congruence|right; exact H].
      + assert (NE : k <> k0) by (intros ->; assert (key_eqb k0 k0 = true) by (apply key_eqb_eq; reflexivity); congruence). cbn. rewrite (IH k e N'). split.
        * intros [H|[H|(A & B)]]; [right; split; [congruence|auto]|auto|auto].
        * intros [H|(A & [H|H])]; auto.
  Qed.
  Lemma assign_new : forall d k e, ~ In k (map fst d) -> assign d k e = d ++ [(k, e)].
  Proof.
    induction d as [|(k0 & e0) d IH]; intros k e NI; [reflexivity|]. cbn [TrapModel.assign]. destruct (key_eqb k k0) eqn:E; [apply key_eqb_eq in E; subst; destruct NI; left; reflexivity|]. cbn [app]. f_equal. apply IH. intros I. apply NI. right. exact I.
  Qed.
  (** All rows good, distinct keys: the dictionary in the order of the rows. *)
  Lemma rebuild_fresh : forall rows ps d, Forall2 (fun t p => decode_one t = Ok p) rows ps -> NoDup (map fst (d ++ ps)) -> rebuild d rows = Ok (d ++ ps).
  Proof.
    intros rows ps d F. revert d. induction F as [|t p rows ps E F IH]; intros d N; cbn [TrapModel.rebuild]; [rewrite app_nil_r; reflexivity|]. rewrite E. cbn [bind]. rewrite assign_new.
    - replace (d ++ p :: ps) with ((d ++ [(fst p, snd p)]) ++ ps) by (rewrite <- app_assoc; destruct p; reflexivity). apply IH. rewrite <- app_assoc. cbn [app]. destruct p. exact N.
    - rewrite map_app in N. cbn [map] in N. apply NoDup_remove_2 in N. intros I. apply N. apply in_or_app. auto.
  Qed.
  Theorem round_trip : forall d rows, NoDup (map fst d) -> (forall k e, In (k, e) d -> exists n dg, plain (kstr k) n dg) -> encode d = Ok rows -> exists d', rebuild_dict rows = Ok d' /\ Forall2 (same_trap V zero) d d'.
  Proof.
    intros d rows N P E. apply encode_iff in E.
    assert (R : exists ps, Forall2 (fun t p => decode_one t = Ok p) rows ps /\ Forall2 (same_trap V zero) d ps).
    { clear N. induction E as [|(k & e) t d rows H E IH]; [exists []; split; constructor|]. destruct (IH (fun k' e' I => P k' e' (or_intror I))) as (ps & F1 & F2). destruct (P k e (or_introl eq_refl)) as (n & dg & PL). cbn [fst snd] in H. destruct H as (A & B & I & CO & (a & b & more & CP) & E1 & E2 & E3 & E4).
      pose proof (plain_code _ _ _ PL) as CO'. assert (ZE : t_code V t = 10 * n + dg) by congruence. destruct (plain_digits _ _ _ PL) as (D1 & D2).
      exists ((k, mkentry (Flat [t_cap V t; zero; t_amp V t]) (t_E V t) (t_cs V t) (t_rsq V t) (t_tau V t)) :: ps). split; constructor; try assumption.
      - apply decode_iff. unfold says. rewrite ZE, D1, D2. repeat split; auto.
      - unfold same_trap. cbn [fst snd e_E e_cs e_rsq e_tau e_cap]. repeat split; auto. exists (t_cap V t), a, (t_amp V t), b, more. auto. }
    destruct R as (ps & F1 & F2). exists ps. split; [|exact F2]. apply (rebuild_fresh rows ps [] F1). cbn [app]. replace (map fst ps) with (map fst d); [exact N|]. clear - F2. induction F2 as [|x y l m H F IH]; [reflexivity|]. cbn. rewrite IH. f_equal. exact (proj1 H).
  Qed.
  Lemma same_length : forall d rows, encode d = Ok rows -> List.length rows = List.length d.
  Proof. intros d rows E. exact (proj1 (mapR_ok _ _ _ E)). Qed.
  (** Rows of different traps differ in their first four columns. *)
  Theorem rows_distinct : forall k k' e e' t t', (exists n d, plain (kstr k) n d) -> (exists n d, plain (kstr k') n d) -> row_of V k e t -> row_of V k' e' t' ->
    t_row V t = t_row V t' -> t_col V t = t_col V t' -> t_code V t = t_code V t' -> t_idx V t = t_idx V t' -> k = k'.
  Proof.
    intros (((r & c) & s) & i) (((r' & c') & s') & i') e e' t t' P P' (A & B & I & CO & _) (A' & B' & I' & CO' & _) EA EB EC EI. unfold kstr in *. cbn [fst snd] in *. apply code_lossless in CO. apply code_lossless in CO'. apply CO in P. apply CO' in P'. assert (s = s') by congruence. congruence.
  Qed.
  (** rebuilding any table *)
  Lemma rebuild_errors : forall rows d e, rebuild d rows = Raise e -> e = KeyError /\ exists t, In t rows /\ ~ (1 <= (t_code V t / 10) mod 10 <= 3).
  Proof.
    induction rows as [|t rows IH]; intros d e H; cbn [TrapModel.rebuild] in H; [discriminate H|]. unfold TrapModel.decode_one in H. destruct (string_of (t_code V t)) as [s|e'] eqn:E; cbn [bind] in H.
    - destruct (IH _ _ H) as (-> & t' & I & R). split; [reflexivity|]. exists t'. split; [right; exact I|exact R].
    - injection H as <-. assert (e' = KeyError) by (apply (string_of_exn (t_code V t)); exact E). subst e'. split; [reflexivity|]. exists t. split; [left; reflexivity|]. apply string_of_error. exact E.
  Qed.
  Lemma rebuild_good : forall rows d d', rebuild d rows = Ok d' -> forall t, In t rows -> 1 <= (t_code V t / 10) mod 10 <= 3.
  Proof.
    induction rows as [|t rows IH]; intros d d' H t' I; [destruct I|]. cbn [TrapModel.rebuild] in H. unfold TrapModel.decode_one in H. destruct (string_of (t_code V t)) as [s|e'] eqn:E; cbn [bind] in H; [|discriminate H]. destruct I as [<-|I]; [|exact (IH _ _ H t' I)]. apply string_of_iff in E. destruct E as (sd & SD & _). exact (side_range _ _ SD).
  Qed.
  Theorem rebuild_accepts : forall rows, ((exists d, rebuild_dict rows = Ok d) <-> forall t, In t rows -> 1 <= (t_code V t / 10) mod 10 <= 3) /\ (forall e, rebuild_dict rows = Raise e -> e = KeyError).
  Proof.
    intros rows. split; [split|].
    - intros (d & H). exact (rebuild_good _ _ _ H).
    - intros H. destruct (rebuild_dict rows) as [d|e] eqn:E; [eauto|]. destruct (rebuild_errors _ _ _ E) as (_ & t & I & N). destruct (N (H t I)).
    - intros e H. exact (proj1 (rebuild_errors _ _ _ H)).
  Qed.
  Lemma rebuild_in : forall rows d d', NoDup (map fst d) -> rebuild d rows = Ok d' -> NoDup (map fst d') /\ forall k e, In (k, e) d' <->
    (exists a t b, rows = a ++ t :: b /\ says V zero t k e /\ forall t' e', In t' b -> ~ says V zero t' k e') \/ (In (k, e) d /\ forall t' e', In t' rows -> ~ says V zero t' k e').
  Proof.
    induction rows as [|t rows IH]; intros d d' N H; cbn [TrapModel.rebuild] in H.
    - injection H as <-. split; [exact N|]. intros k e. split; [intros I; right; split; [exact I|intros t' e' []]|]. intros [(a & t & b & E & _)|(I & _)]; [destruct a; discriminate E|exact I].
    - destruct (decode_one t) as [(k0 & e0)|] eqn:E; cbn [bind fst snd] in H; [|discriminate H]. destruct (assign_keys d k0 e0 N) as (N1 & _). destruct (IH _ _ N1 H) as (N2 & I2). split; [exact N2|]. intros k e. rewrite I2, (assign_in d k0 e0 N). apply decode_iff in E.
      assert (SF : forall k e, says V zero t k e -> k = k0 /\ e = e0) by (intros k1 e1 S1; apply decode_iff in S1; apply decode_iff in E; rewrite E in S1; split; congruence). split.
      + intros [(a & t' & b & -> & S1 & L)|([(-> & ->)|(NE & I)] & L)].
        * left. exists (t :: a), t', b. auto.
        * left. exists [], t, rows. auto.
        * right. split; [exact I|]. intros t' e' [<-|I'] S1; [apply SF in S1; destruct S1; congruence|exact (L t' e' I' S1)].
      + intros [(a & t' & b & EQ & S1 & L)|(I & L)].
        * destruct a as [|t0 a]; injection EQ as -> ->; [right; split; [left; exact (SF k e S1)|exact L]|left; exists a, t', b; auto].
        * right. split; [right; split; [|exact I]|intros t' e' I'; apply L; right; exact I']. intros ->. exact (L t e0 (or_introl eq_refl) E).
  Qed.
  (** The dictionary of a table: for each key the last row of it. *)
  Theorem rebuild_contents : forall rows d, rebuild_dict rows = Ok d -> NoDup (map fst d) /\ forall k e, In (k, e) d <-> exists a t b, rows = a ++ t :: b /\ says V zero t k e /\ forall t' e', In t' b -> ~ says V zero t' k e'.
  Proof.
    intros rows d H. destruct (rebuild_in rows [] d (NoDup_nil _) H) as (N & I). split; [exact N|]. intros k e. rewrite I. split; [intros [X|([] & _)]; exact X|auto].
  Qed.
  (** It cannot be made a table again. *)
  Theorem rebuilt_refused : forall rows d, rebuild_dict rows = Ok d -> rows <> [] -> encode d = Raise IndexError.
  Proof.
    intros rows d H NE. destruct (rebuild_contents rows d H) as (_ & I).
    assert (FL : forall p, In p d -> encode_one p = Raise IndexError). { intros (k & e) J. apply I in J. destruct J as (a & t & b & _ & (_ & _ & _ & P & ->) & _). destruct k as (((r & c) & s) & i). unfold TrapModel.encode_one. unfold kstr in P. cbn [fst snd] in P. rewrite (plain_code _ _ _ P). reflexivity. }
    destruct d as [|p d].
    - exfalso. destruct rows as [|t rows] using rev_ind; [congruence|]. destruct (decode_one t) as [(k & e)|e] eqn:E.
      + assert (J : In (k, e) []) by (apply I; exists rows, t, []; split; [reflexivity|]; split; [apply decode_iff; exact E|intros t' e' []]). destruct J.
      + assert (R : 1 <= (t_code V t / 10) mod 10 <= 3) by (apply (proj1 (proj1 (rebuild_accepts _)) (ex_intro _ _ H)); apply in_or_app; right; left; reflexivity). unfold TrapModel.decode_one in E. destruct (string_of (t_code V t)) as [s|e'] eqn:ES; cbn [bind] in E; [discriminate E|]. destruct (string_of_ok _ R) as (s & OK). congruence.
    - unfold TrapModel.encode. cbn [mapR]. rewrite (FL p (or_introl eq_refl)). reflexivity.
  Qed.
End Table.
