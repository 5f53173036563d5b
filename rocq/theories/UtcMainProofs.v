(** The time stamps of files. *)
From Coq Require Import List ZArith Bool String Ascii Lia.
From Verif Require Import Base UtcModel UtcSpec UtcProofs UtcTextProofs.
Import ListNotations.
Local Open Scope Z_scope.

Theorem tenth_unique : forall u k l, nearest_tenth u k -> nearest_tenth u l -> k = l.
Proof. unfold nearest_tenth. lia. Qed.
Lemma tenth_iff : forall u k, nearest_tenth u k <-> k = (u + 50000) / 100000.
Proof. intros u k. unfold nearest_tenth. split; [intros (A & B); apply (Z.div_unique _ _ _ (u + 50000 - 100000 * k)); lia|]. intros ->. Z.to_euclidean_division_equations. lia. Qed.
Lemma tenth_grows : forall u v k l, u <= v -> nearest_tenth u k -> nearest_tenth v l -> k <= l.
Proof. unfold nearest_tenth. lia. Qed.
Lemma reads_replace : forall a u us, reads a u -> 0 <= us < 1000000 -> reads (with_micro a us) (u - micro a + us).
Proof. intros a u us (n & D & H & M & S & U & E) B. exists n. unfold with_micro. cbn [year month day hour minute second micro]. split; [assumption|]. repeat split; try lia. Qed.
(** Rounding. *)
Definition rounded (a : moment) : result moment := let us := (micro a + 50000) / 100000 * 100000 in if 1000000 <=? us then plus (with_micro a 0) 1000000 else Ok (with_micro a us).
Lemma rounded_ok : forall a u b, reads a u -> year a <= 9999 -> (rounded a = Ok b <-> reads b ((u + 50000) / 100000 * 100000) /\ year b <= 9999).
Proof.
  intros a u b R Y. assert (U : 0 <= micro a < 1000000) by (destruct R as (n & D & H & M & S & U & E); assumption). assert (W : exists w, u - micro a = 1000000 * w) by (destruct R as (n & D & H & M & S & _ & E); exists (n * 86400 + hour a * 3600 + minute a * 60 + second a); lia). destruct W as (w & W).
  assert (X : (u + 50000) / 100000 * 100000 = 1000000 * w + (micro a + 50000) / 100000 * 100000) by (replace (u + 50000) with (micro a + 50000 + (10 * w) * 100000) by lia; rewrite Z.div_add by lia; lia). rewrite X.
  unfold rounded. cbv zeta. set (us := (micro a + 50000) / 100000 * 100000). assert (B : 0 <= us <= 1000000) by (unfold us; Z.to_euclidean_division_equations; lia). assert (T : exists k, us = k * 100000) by (eexists; reflexivity). clearbody us. destruct (Z.leb_spec 1000000 us) as [G|L].
  - assert (us = 1000000) by lia. subst us. assert (RZ := reads_replace a u 0 R ltac:(lia)). replace (1000000 * w + 1000000) with (u - micro a + 0 + 1000000) by lia. apply plus_ok. assumption.
  - assert (RU := reads_replace a u us R ltac:(lia)). replace (u - micro a + us) with (1000000 * w + us) in RU by lia. split.
    + intros Q. injection Q as <-. auto.
    + intros (RB & _). f_equal. eapply reads_unique; eassumption.
Qed.
Lemma rounded_raise : forall a u e, reads a u -> year a <= 9999 -> (rounded a = Raise e <-> ~ representable ((u + 50000) / 100000 * 100000) /\ e = PyException).
Proof.
  intros a u e R Y. assert (P := fun b => rounded_ok a u b R Y). destruct (rounded a) as [b|e'] eqn:E.
  - split; [discriminate|]. intros (N & _). exfalso. apply N. exists b. apply P. reflexivity.
  - assert (X : e' = PyException). { unfold rounded, plus in E. cbv zeta in E. destruct (_ <=? _) in E; [|discriminate]. destruct (_ && _) in E; [|injection E as <-; reflexivity]. destruct (from_ordinal _) as ((? & ?) & ?) in E. discriminate. } subst e'. split.
    + intros Q. injection Q as <-. split; [|reflexivity]. intros (b & B). apply P in B. discriminate.
    + intros (_ & ->). reflexivity.
Qed.
Section Utc.
  Variable parse : string -> option (moment * option Z).
  Notation format := (format_ftimeutc parse).

  Lemma universal_ok : forall a zone t u b, reads a t -> year a <= 9999 -> universal t zone u -> (match zone with Some off => plus a (- off) | None => Ok a end = Ok b <-> reads b u /\ year b <= 9999).
  Proof using.
    intros a zone t u b R Y [(-> & ->)|(off & -> & E)].
    - split; [intros Q; injection Q as <-; auto|]. intros (RB & _). f_equal. eapply reads_unique; eassumption.
    - replace u with (t + - off) by lia. apply plus_ok. assumption.
  Qed.
  Lemma universal_raise : forall a zone t u e, reads a t -> year a <= 9999 -> universal t zone u -> (match zone with Some off => plus a (- off) | None => Ok a end = Raise e <-> ~ representable u /\ e = PyException).
  Proof using.
    intros a zone t u e R Y [(-> & ->)|(off & -> & E)].
    - split; [discriminate|]. intros (N & _). exfalso. apply N. exists a. auto.
    - replace u with (t + - off) by lia. apply plus_raise. assumption.
  Qed.
  Theorem format_ok : forall s a zone t u text, parse s = Some (a, zone) -> reads a t -> year a <= 9999 -> universal t zone u ->
    (format s = Ok text <-> representable u /\ exists k b, nearest_tenth u k /\ reads b (k * 100000) /\ year b <= 9999 /\ written b text).
  Proof using.
    intros s a zone t u text P R Y U. unfold format_ftimeutc. rewrite P. assert (UO := fun b => universal_ok a zone t u b R Y U). assert (UR := fun e => universal_raise a zone t u e R Y U).
    destruct (match zone with Some off => plus a (- off) | None => Ok a end) as [c|e] eqn:E; cbn [bind].
    - destruct (proj1 (UO c) eq_refl) as (RC & YC). fold (rounded c). assert (RO := fun b => rounded_ok c u b RC YC). split.
      + intros Q. change (bind (rounded c) (fun a0 => Ok (text_of a0)) = Ok text) in Q. destruct (rounded c) as [b|e'] eqn:RE; cbn [bind] in Q; [|discriminate]. injection Q as <-. destruct (proj1 (RO b) eq_refl) as (RB & YB). split; [exists c; auto|]. exists ((u + 50000) / 100000), b. split; [apply tenth_iff; reflexivity|]. split; [assumption|]. split; [assumption|]. apply (written_iff b _ _ RB YB); [eexists; reflexivity|reflexivity].
      + intros (_ & k & b & K & RB & YB & W). apply tenth_iff in K. subst k. apply (written_iff b _ _ RB YB) in W; [|eexists; reflexivity]. subst text. change (bind (rounded c) (fun a0 => Ok (text_of a0)) = Ok (text_of b)). rewrite (proj2 (RO b)) by auto. reflexivity.
    - destruct (proj1 (UR e) eq_refl) as (N & ->). split; [discriminate|]. intros (X & _). contradiction.
  Qed.
  Theorem format_fails : forall s e, (forall a zone, parse s = Some (a, zone) -> year a <= 9999 /\ exists t, reads a t) ->
    (format s = Raise e <->
     (parse s = None /\ e = ValueError) \/
     (exists a zone t u k, parse s = Some (a, zone) /\ reads a t /\ universal t zone u /\ nearest_tenth u k /\ (~ representable u \/ ~ representable (k * 100000)) /\ e = PyException)).
  Proof using.
    intros s e V. unfold format_ftimeutc. destruct (parse s) as [(a, zone)|] eqn:P.
    2:{ split; [intros Q; injection Q as <-; auto|]. intros [(_ & ->)|(a & zone & t & u & k & Q & _)]; [reflexivity|discriminate]. }
    destruct (V a zone eq_refl) as (Y & t & R). assert (UE : exists u, universal t zone u) by (destruct zone as [off|]; [exists (t - off); right; exists off; split; [reflexivity|lia]|exists t; left; auto]). destruct UE as (u & U).
    assert (UU : forall t' u', reads a t' -> universal t' zone u' -> u' = u). { intros t' u' R' U'. assert (t' = t) by (eapply reads_one; eassumption). subst t'. destruct U as [(E & ->)|(o & E & F)], U' as [(E' & ->)|(o' & E' & F')]; try congruence. assert (o = o') by congruence. lia. }
    assert (UO := fun b => universal_ok a zone t u b R Y U). assert (UR := fun e => universal_raise a zone t u e R Y U).
    destruct (match zone with Some off => plus a (- off) | None => Ok a end) as [c|e'] eqn:E; cbn [bind].
    - destruct (proj1 (UO c) eq_refl) as (RC & YC). change (bind (rounded c) (fun a0 => Ok (text_of a0)) = Raise e <-> ((Some (a, zone) = None /\ e = ValueError) \/ (exists a0 zone0 t0 u0 k, Some (a, zone) = Some (a0, zone0) /\ reads a0 t0 /\ universal t0 zone0 u0 /\ nearest_tenth u0 k /\ (~ representable u0 \/ ~ representable (k * 100000)) /\ e = PyException))).
      assert (RR := fun e => rounded_raise c u e RC YC). destruct (rounded c) as [b|e'] eqn:RE; cbn [bind].
      + split; [discriminate|]. intros [(Q & _)|(a' & z' & t' & u' & k & Q & R' & U' & K & N & ->)]; [discriminate|]. exfalso. injection Q as <- <-. assert (u' = u) by eauto. subst u'. apply tenth_iff in K. subst k. assert (RO := proj1 (rounded_ok c u b RC YC) RE). destruct N as [N|N]; apply N; [exists c; auto|exists b; assumption].
      + destruct (proj1 (RR e') eq_refl) as (N & ->). split.
        * intros Q. injection Q as <-. right. exists a, zone, t, u, ((u + 50000) / 100000). repeat (split; [first [reflexivity|assumption|apply tenth_iff; reflexivity|right; assumption]|]). reflexivity.
        * intros [(Q & _)|(a' & z' & t' & u' & k & Q & R' & U' & K & _ & ->)]; [discriminate|reflexivity].
    - destruct (proj1 (UR e') eq_refl) as (N & ->). split.
      + intros Q. injection Q as <-. right. exists a, zone, t, u, ((u + 50000) / 100000). repeat (split; [first [reflexivity|assumption|apply tenth_iff; reflexivity|left; assumption]|]). reflexivity.
      + intros [(Q & _)|(a' & z' & t' & u' & k & Q & R' & U' & K & _ & ->)]; [discriminate|reflexivity].
  Qed.
  (** The stamp depends on the instant alone. *)
  Theorem format_zone : forall s s' a a' zone zone' t t' u, parse s = Some (a, zone) -> parse s' = Some (a', zone') -> reads a t -> reads a' t' -> year a <= 9999 -> year a' <= 9999 -> universal t zone u -> universal t' zone' u -> format s = format s'.
  Proof using.
    intros s s' a a' zone zone' t t' u P P' R R' Y Y' U U'. assert (O := fun x => format_ok s a zone t u x P R Y U). assert (O' := fun x => format_ok s' a' zone' t' u x P' R' Y' U').
    assert (F := fun e => format_fails s e (fun a0 z0 q => match eq_trans (eq_sym P) q in _ = o return match o with Some (a1, _) => year a1 <= 9999 /\ exists t, reads a1 t | None => True end with eq_refl => conj Y (ex_intro _ t R) end)).
    assert (F' := fun e => format_fails s' e (fun a0 z0 q => match eq_trans (eq_sym P') q in _ = o return match o with Some (a1, _) => year a1 <= 9999 /\ exists t, reads a1 t | None => True end with eq_refl => conj Y' (ex_intro _ t' R') end)).
    destruct (format s) as [x|e] eqn:E.
    - symmetry. apply O'. apply O. reflexivity.
    - destruct (format s') as [x'|e'] eqn:E'; [exfalso; assert (Q := proj2 (O x') (proj1 (O' x') eq_refl)); discriminate|]. destruct (proj1 (F e) eq_refl) as [(Q & _)|(a1 & z1 & t1 & u1 & k1 & _ & _ & _ & _ & _ & ->)]; [congruence|]. destruct (proj1 (F' e') eq_refl) as [(Q & _)|(a2 & z2 & t2 & u2 & k2 & _ & _ & _ & _ & _ & ->)]; [congruence|]. reflexivity.
  Qed.
  (** Texts are in the order of the tenths of seconds. *)
  Theorem format_order : forall s s' a a' zone zone' t t' u u' x x' k k', parse s = Some (a, zone) -> parse s' = Some (a', zone') -> reads a t -> reads a' t' -> year a <= 9999 -> year a' <= 9999 -> universal t zone u -> universal t' zone' u' ->
    format s = Ok x -> format s' = Ok x' -> nearest_tenth u k -> nearest_tenth u' k' -> String.compare x x' = (k ?= k').
  Proof using.
    intros s s' a a' zone zone' t t' u u' x x' k k' P P' R R' Y Y' U U' E E' K K'. apply (format_ok s a zone t u x P R Y U) in E. apply (format_ok s' a' zone' t' u' x' P' R' Y' U') in E'.
    destruct E as (_ & l & b & L & RB & YB & W), E' as (_ & l' & b' & L' & RB' & YB' & W'). assert (l = k) by (eapply tenth_unique; eassumption). assert (l' = k') by (eapply tenth_unique; eassumption). subst l l'.
    apply (written_iff b _ _ RB YB) in W; [|eexists; reflexivity]. apply (written_iff b' _ _ RB' YB') in W'; [|eexists; reflexivity]. subst x x'. rewrite (text_order b b' (k * 100000) (k' * 100000)); try assumption; try (eexists; reflexivity).
    destruct (Z.compare_spec k k') as [Q|Q|Q]; [apply Z.compare_eq_iff; lia|apply Z.compare_lt_iff; lia|apply Z.compare_gt_iff; lia].
  Qed.
  Theorem format_sorts : forall s s' a a' zone zone' t t' u u' x x', parse s = Some (a, zone) -> parse s' = Some (a', zone') -> reads a t -> reads a' t' -> year a <= 9999 -> year a' <= 9999 -> universal t zone u -> universal t' zone' u' ->
    format s = Ok x -> format s' = Ok x' -> u <= u' -> String.leb x x' = true.
  Proof using.
    intros s s' a a' zone zone' t t' u u' x x' P P' R R' Y Y' U U' E E' L. assert (KU : forall v, exists k, nearest_tenth v k) by (intros v; eexists; apply tenth_iff; reflexivity). destruct (KU u) as (k & K), (KU u') as (k' & K').
    assert (O := format_order s s' a a' zone zone' t t' u u' x x' k k' P P' R R' Y Y' U U' E E' K K'). unfold String.leb. rewrite O. assert (G := tenth_grows u u' k k' L K K'). destruct (Z.compare_spec k k'); [reflexivity|reflexivity|lia].
  Qed.
  Theorem format_same : forall s s' a a' zone zone' t t' u u' x x' k k', parse s = Some (a, zone) -> parse s' = Some (a', zone') -> reads a t -> reads a' t' -> year a <= 9999 -> year a' <= 9999 -> universal t zone u -> universal t' zone' u' ->
    format s = Ok x -> format s' = Ok x' -> nearest_tenth u k -> nearest_tenth u' k' -> (x = x' <-> k = k').
  Proof using.
    intros s s' a a' zone zone' t t' u u' x x' k k' P P' R R' Y Y' U U' E E' K K'. assert (O := format_order s s' a a' zone zone' t t' u u' x x' k k' P P' R R' Y Y' U U' E E' K K'). rewrite <- (Z.compare_eq_iff k k'), <- O. split; [intros ->; assert (A := String.compare_antisym x' x'); destruct (String.compare x' x'); [reflexivity|discriminate|discriminate]|apply String.compare_eq_iff].
  Qed.
End Utc.

Theorem written_shape : forall a text, written a text -> String.length text = 16%nat.
Proof.
  assert (A : forall s t, String.length (s ++ t) = (String.length s + String.length t)%nat) by (intros s; induction s as [|c s IH]; intros t; cbn; [reflexivity|rewrite IH; reflexivity]).
  intros a text (y & m & d & h & i & s & t & -> & H1 & H2 & H3 & H4 & H5 & H6 & k & H7 & _). apply number_iff in H1, H2, H3, H4, H5, H6, H7. destruct H1 as (_ & ->), H2 as (_ & ->), H3 as (_ & ->), H4 as (_ & ->), H5 as (_ & ->), H6 as (_ & ->), H7 as (_ & ->). rewrite !A, !put_length. reflexivity.
Qed.
(** Two times that are 80 ms apart. *)
Definition eve : moment := mkmoment 2024 2 29 23 59 59 960000.
Definition midnight : moment := mkmoment 2024 3 1 1 0 0 40000.
Definition two_times (s : string) : option (moment * option Z) := if String.eqb s "2024-02-29T23:59:59.96" then Some (eve, None) else if String.eqb s "2024-03-01T01:00:00.04+01:00" then Some (midnight, Some 3600000000) else None.
Lemma eve_read : reads eve (stamp_of eve).
Proof. apply reads_stamp. cbn. unfold dim. cbn. repeat split; lia. Qed.
Lemma midnight_read : reads midnight (stamp_of midnight).
Proof. apply reads_stamp. cbn. unfold dim. cbn. repeat split; lia. Qed.
Theorem collide : exists parse s s' a a' t t' text, parse s = Some (a, None) /\ parse s' = Some (a', Some 3600000000) /\ reads a t /\ reads a' (t' + 3600000000) /\ t' - t = 80000 /\ format_ftimeutc parse s = Ok text /\ format_ftimeutc parse s' = Ok text.
Proof.
  exists two_times, "2024-02-29T23:59:59.96"%string, "2024-03-01T01:00:00.04+01:00"%string, eve, midnight, (stamp_of eve), (stamp_of midnight - 3600000000), "20240301T0000000"%string. split; [reflexivity|]. split; [reflexivity|]. split; [exact eve_read|]. split; [replace (stamp_of midnight - 3600000000 + 3600000000) with (stamp_of midnight) by lia; exact midnight_read|]. split; [reflexivity|]. split; vm_compute; reflexivity.
Qed.
(** The last tenth of a second of the year 9999. *)
Definition last_moment (s : string) : option (moment * option Z) := Some (mkmoment 9999 12 31 23 59 59 950000, None).
Lemma last_fails : format_ftimeutc last_moment "9999-12-31T23:59:59.95" = Raise PyException.
Proof. vm_compute. reflexivity. Qed.
