From Coq Require Import List Arith Bool QArith Sorted Lia Lqa.
From Verif Require Import Base BaseProofs FloatModel NonlinModel NonlinSpec.
Import ListNotations.
Local Open Scope nat_scope.

Lemma not_increasing_spec l : not_increasing l = false <-> increasing l.
Proof.
  unfold increasing. induction l as [|x t IH]; [split; [constructor|reflexivity]|].
  destruct t as [|y t]; [split; [repeat constructor|reflexivity]|].
  cbn [not_increasing] in *. rewrite orb_false_iff, IH. split.
  - intros [H SI]. apply Qle_bool_false in H. constructor; [exact SI|]. constructor; [exact H|].
    inversion SI as [|a b _ F]; subst. rewrite Forall_forall in *. intros z Hz. apply (Qlt_trans _ y); [exact H|apply F; exact Hz].
  - intro SI. inversion SI as [|a b SI' F]; subst. split; [|exact SI']. inversion F as [|a b H _]; subst. apply Qlt_Qle_bool_false. exact H.
Qed.

Lemma increasing_nth : forall xs i j a b, increasing xs -> i < j -> nth_error xs i = Some a -> nth_error xs j = Some b -> (a < b)%Q.
Proof.
  unfold increasing. induction xs as [|x t IH]; intros i j a b SI L Ha Hb; [destruct i; discriminate|].
  inversion SI as [|u v SI' F]; subst. destruct i as [|i]; destruct j as [|j]; try lia; cbn [nth_error] in *.
  - injection Ha as <-. rewrite Forall_forall in F. apply F. eapply nth_error_In. exact Hb.
  - apply (IH i j); try assumption. lia.
Qed.
Lemma increasing_nth_le xs i j a b : increasing xs -> i <= j -> nth_error xs i = Some a -> nth_error xs j = Some b -> (a <= b)%Q.
Proof.
  intros SI L Ha Hb. destruct (Nat.eq_dec i j) as [->|N].
  - assert (a = b) by congruence. subst. apply Qle_refl.
  - apply Qlt_le_weak. apply (increasing_nth xs i j); try assumption. lia.
Qed.

Lemma searchsorted_spec x : forall xs i a, increasing xs -> nth_error xs i = Some a -> ((a < x)%Q <-> i < searchsorted xs x).
Proof.
  unfold searchsorted. induction xs as [|y t IH]; intros i a SI H; [destruct i; discriminate|].
  inversion SI as [|u v SI' F]; subst. rewrite Forall_forall in F. cbn [filter]. destruct (Qle_bool x y) eqn:E; cbn [negb].
  - assert (All : forall l : list Q, (forall z, In z l -> (y < z)%Q) -> filter (fun a0 => negb (Qle_bool x a0)) l = []).
    { apply Qle_bool_iff in E. induction l as [|z l IHl]; intro Q; [reflexivity|]. cbn [filter].
      rewrite (proj2 (Qle_bool_iff x z)); [cbn [negb]; apply IHl; intros w Hw; apply Q; right; exact Hw|].
      apply Qlt_le_weak. apply (Qle_lt_trans _ y); [exact E|apply Q; left; reflexivity]. }
    rewrite (All t F). cbn [List.length]. split; [|lia]. intro L. exfalso. apply Qle_bool_iff in E.
    destruct i as [|i]; cbn [nth_error] in H.
    + injection H as <-. apply (Qlt_not_le _ _ L). exact E.
    + apply nth_error_In in H. apply F in H. apply (Qlt_not_le _ _ L). apply (Qle_trans _ y); [exact E|apply Qlt_le_weak; exact H].
  - apply Qle_bool_false in E. cbn [List.length]. destruct i as [|i]; cbn [nth_error] in H.
    + injection H as <-. split; [lia|auto].
    + rewrite (IH i a SI' H). lia.
Qed.

Lemma searchsorted_le xs x : searchsorted xs x <= List.length xs.
Proof. unfold searchsorted. induction xs as [|a t IH]; [cbn; lia|]. cbn [filter]. destruct (negb (Qle_bool x a)); cbn [List.length]; lia. Qed.

Lemma nth_get {A} (l : list A) i : i < List.length l -> exists a, nth_error l i = Some a.
Proof. intro H. destruct (nth_error l i) as [a|] eqn:E; [exists a; reflexivity|]. apply nth_error_None in E. lia. Qed.

Lemma line_eq x0 y0 x1 y1 x : (x0 < x1)%Q -> (line x0 y0 x1 y1 x * (x1 - x0) == y0 * (x1 - x) + y1 * (x - x0))%Q.
Proof. intro H. unfold line. field. lra. Qed.

Lemma interp_spec xs ys x : increasing xs -> 2 <= List.length xs -> List.length ys = List.length xs ->
  exists v, interp xs ys x = Some v /\ on_line xs ys x v.
Proof.
  intros SI L LY. unfold interp. destruct (Nat.ltb_spec (List.length xs) 2); [lia|].
  set (n := List.length xs) in *. set (k := searchsorted xs x). set (hi := clip 1 (n - 1) k).
  assert (Hhi : 1 <= hi <= n - 1) by (unfold hi, clip; lia).
  destruct (nth_get xs (hi - 1)) as [xlo E1]; [unfold n in *; lia|]. destruct (nth_get ys (hi - 1)) as [ylo E2]; [unfold n in *; lia|].
  destruct (nth_get xs hi) as [xhi E3]; [unfold n in *; lia|]. destruct (nth_get ys hi) as [yhi E4]; [unfold n in *; lia|].
  destruct (nth_get xs 0) as [xf E5]; [unfold n in *; lia|]. destruct (nth_get ys 0) as [yf E6]; [unfold n in *; lia|].
  destruct (nth_get xs (n - 1)) as [xl E7]; [unfold n in *; lia|]. destruct (nth_get ys (n - 1)) as [yl E8]; [unfold n in *; lia|].
  rewrite E1, E2, E3, E4, E5, E6, E7, E8. eexists. split; [reflexivity|].
  destruct (Qle_bool xf x) eqn:Q1; cbn [negb].
  2:{ apply Qle_bool_false in Q1. left. exists xf, yf. split; [exact E5|]. split; [exact E6|]. split; [apply Qlt_le_weak; exact Q1|reflexivity]. }
  destruct (Qle_bool x xl) eqn:Q2; cbn [negb].
  2:{ apply Qle_bool_false in Q2. right. left. exists xl, yl. fold n. split; [exact E7|]. split; [exact E8|]. split; [apply Qlt_le_weak; exact Q2|reflexivity]. }
  apply Qle_bool_iff in Q1, Q2. right. right. exists (hi - 1), xlo, xhi, ylo, yhi. replace (S (hi - 1)) with hi by lia.
  split; [exact E1|]. split; [exact E3|]. split; [exact E2|]. split; [exact E4|].
  assert (LT : (xlo < xhi)%Q) by (apply (increasing_nth xs (hi - 1) hi); [exact SI|lia|exact E1|exact E3]).
  split; [|apply line_eq; exact LT].
  pose proof (searchsorted_spec x xs (hi - 1) xlo SI E1) as S1. pose proof (searchsorted_spec x xs hi xhi SI E3) as S2. fold k in S1, S2.
  assert (Kn : k <> n).
  { intro E. pose proof (proj2 (searchsorted_spec x xs (n - 1) xl SI E7)) as S3. fold k in S3. apply (Qlt_not_le xl x); [apply S3; lia|exact Q2]. }
  assert (Kle : k <= n) by apply searchsorted_le.
  destruct (Nat.eq_dec k 0) as [K0|K0].
  - assert (Eh : hi = 1) by (unfold hi, clip; lia). rewrite Eh in *. cbn [Nat.sub] in E1. rewrite E5 in E1. injection E1 as <-.
    split; [exact Q1|]. destruct (Qlt_le_dec xf x) as [C|C].
    + apply S1 in C. lia.
    + apply (Qle_trans _ xf); [exact C|apply Qlt_le_weak; exact LT].
  - assert (Eh : hi = k) by (unfold hi, clip; lia). rewrite Eh in *. split.
    + apply Qlt_le_weak. apply S1. lia.
    + destruct (Qlt_le_dec xhi x) as [C|C]; [|exact C]. apply S2 in C. lia.
Qed.

(** The broken line has one value everywhere. *)
Lemma on_line_unique xs ys x v w : increasing xs -> 2 <= List.length xs -> on_line xs ys x v -> on_line xs ys x w -> (v == w)%Q.
Proof.
  intros SI L.
  assert (Ends : forall v, on_line xs ys x v -> exists i a b, nth_error xs i = Some a /\ nth_error ys i = Some b
     /\ (((v == b)%Q /\ ((i = 0 /\ (x <= a)%Q) \/ (i = List.length xs - 1 /\ (a <= x)%Q)))
         \/ exists a' b', nth_error xs (S i) = Some a' /\ nth_error ys (S i) = Some b' /\ (a <= x <= a')%Q /\ (v * (a' - a) == b * (a' - x) + b' * (x - a))%Q)).
  { intros u [(xf & yf & A & B & C & D)|[(xl & yl & A & B & C & D)|(i & x0 & x1 & y0 & y1 & A & B & C & D & E & F)]].
    - exists 0, xf, yf. split; [exact A|]. split; [exact B|]. left. auto.
    - exists (List.length xs - 1), xl, yl. split; [exact A|]. split; [exact B|]. left. auto.
    - exists i, x0, y0. split; [exact A|]. split; [exact C|]. right. exists x1, y1. auto. }
  (* value at a node and value on an interval *)
  assert (Mix : forall u b i a, nth_error xs i = Some a -> nth_error ys i = Some b ->
      ((i = 0 /\ (x <= a)%Q) \/ (i = List.length xs - 1 /\ (a <= x)%Q)) ->
      forall j c d c' d', nth_error xs j = Some c -> nth_error ys j = Some d -> nth_error xs (S j) = Some c' -> nth_error ys (S j) = Some d' ->
      (c <= x <= c')%Q -> (u * (c' - c) == d * (c' - x) + d' * (x - c))%Q -> (u == b)%Q).
  { intros u b i a A B Cs j c d c' d' C1 C2 C3 C4 [C5 C6] C7.
    assert (LT : (c < c')%Q) by (apply (increasing_nth xs j (S j)); [exact SI|lia|exact C1|exact C3]).
    destruct Cs as [[-> Hx]|[-> Hx]].
    - assert (G : (a <= c)%Q) by (apply (increasing_nth_le xs 0 j); [exact SI|lia|exact A|exact C1]).
      assert (j = 0).
      { destruct j as [|j]; [reflexivity|]. assert ((a < c)%Q) by (apply (increasing_nth xs 0 (S j)); [exact SI|lia|exact A|exact C1]). lra. }
      subst j. assert (b = d) by congruence. assert (a = c) by congruence. subst.
      assert (x == c)%Q by lra. assert ((u - d) * (c' - c) == 0)%Q by (ring_simplify; rewrite H in C7; lra).
      apply Qmult_integral in H0. destruct H0; lra.
    - assert (Jl : S j <= List.length xs - 1) by (assert (S j < List.length xs) by (apply nth_error_Some; congruence); lia).
      assert (G : (c' <= a)%Q) by (apply (increasing_nth_le xs (S j) (List.length xs - 1)); [exact SI|lia|exact C3|exact A]).
      assert (Ej : S j = List.length xs - 1).
      { destruct (Nat.eq_dec (S j) (List.length xs - 1)) as [E|E]; [exact E|]. assert ((c' < a)%Q) by (apply (increasing_nth xs (S j) (List.length xs - 1)); [exact SI|lia|exact C3|exact A]). lra. }
      rewrite Ej in *. assert (b = d') by congruence. assert (a = c') by congruence. subst.
      assert (x == c')%Q by lra. assert ((u - d') * (c' - c) == 0)%Q by (rewrite H in C7; lra).
      apply Qmult_integral in H0. destruct H0; lra. }
  intros Hv Hw. apply Ends in Hv. apply Ends in Hw.
  destruct Hv as (i & a & b & A & B & [[Ev Cv]|(a' & b' & A' & B' & Iv & Fv)]);
  destruct Hw as (j & c & d & C & D & [[Ew Cw]|(c' & d' & C' & D' & Iw & Fw)]).
  - destruct Cv as [[-> Hx]|[-> Hx]]; destruct Cw as [[-> Hy]|[-> Hy]]; try (assert (b = d) by congruence; subst; lra).
    + assert ((a < c)%Q) by (apply (increasing_nth xs 0 (List.length xs - 1)); [exact SI|lia|exact A|exact C]). lra.
    + assert ((c < a)%Q) by (apply (increasing_nth xs 0 (List.length xs - 1)); [exact SI|lia|exact C|exact A]). lra.
  - rewrite Ev. symmetry. apply (Mix w b i a A B Cv j c d c' d'); assumption.
  - rewrite Ew. apply (Mix v d j c C D Cw i a b a' b'); assumption.
  - destruct (Nat.lt_trichotomy i j) as [T|[T|T]].
    + assert ((a' <= c)%Q) by (apply (increasing_nth_le xs (S i) j); [exact SI|lia|exact A'|exact C]).
      assert (j = S i).
      { destruct (Nat.eq_dec j (S i)) as [E|E]; [exact E|]. assert ((a' < c)%Q) by (apply (increasing_nth xs (S i) j); [exact SI|lia|exact A'|exact C]). lra. }
      subst j. assert (c = a') by congruence. assert (d = b') by congruence. subst.
      assert ((a < a')%Q) by (apply (increasing_nth xs i (S i)); [exact SI|lia|exact A|exact A']).
      assert ((a' < c')%Q) by (apply (increasing_nth xs (S i) (S (S i))); [exact SI|lia|exact C|exact C']).
      assert (X : (x == a')%Q) by lra. rewrite X in Fv, Fw.
      assert (Z1 : ((v - b') * (a' - a) == 0)%Q) by lra. assert (Z2 : ((w - b') * (c' - a') == 0)%Q) by lra.
      apply Qmult_integral in Z1, Z2. destruct Z1, Z2; lra.
    + subst j. assert (c = a) by congruence. assert (d = b) by congruence. assert (c' = a') by congruence. assert (d' = b') by congruence. subst.
      assert ((a < a')%Q) by (apply (increasing_nth xs i (S i)); [exact SI|lia|exact A|exact A']).
      assert (Z1 : ((v - w) * (a' - a) == 0)%Q) by lra. apply Qmult_integral in Z1. destruct Z1; lra.
    + assert ((c' <= a)%Q) by (apply (increasing_nth_le xs (S j) i); [exact SI|lia|exact C'|exact A]).
      assert (i = S j).
      { destruct (Nat.eq_dec i (S j)) as [E|E]; [exact E|]. assert ((c' < a)%Q) by (apply (increasing_nth xs (S j) i); [exact SI|lia|exact C'|exact A]). lra. }
      subst i. assert (c' = a) by congruence. assert (d' = b) by congruence. subst.
      assert ((a < a')%Q) by (apply (increasing_nth xs (S j) (S (S j))); [exact SI|lia|exact A|exact A']).
      assert ((c < a)%Q) by (apply (increasing_nth xs j (S j)); [exact SI|lia|exact C|exact C']).
      assert (X : (x == a)%Q) by lra. rewrite X in Fv, Fw.
      assert (Z1 : ((v - b) * (a' - a) == 0)%Q) by lra. assert (Z2 : ((w - b) * (a - c) == 0)%Q) by lra.
      apply Qmult_integral in Z1, Z2. destruct Z1, Z2; lra.
Qed.

(** Values of the broken line stay between any bounds of its points. *)
Lemma on_line_bounds xs ys x v lo hi : increasing xs -> on_line xs ys x v -> (forall y, In y ys -> (lo <= y <= hi)%Q) -> (lo <= v <= hi)%Q.
Proof.
  intros SI H B. destruct H as [(xf & yf & _ & Hy & _ & E)|[(xl & yl & _ & Hy & _ & E)|(i & x0 & x1 & y0 & y1 & A & A' & H0 & H1 & [I1 I2] & E)]].
  - apply nth_error_In in Hy. rewrite E. apply B. exact Hy.
  - apply nth_error_In in Hy. rewrite E. apply B. exact Hy.
  - assert (LT : (x0 < x1)%Q) by (apply (increasing_nth xs i (S i)); [exact SI|lia|exact A|exact A']).
    apply nth_error_In in H0, H1. apply B in H0, H1. split.
    + apply (Qmult_le_r _ _ (x1 - x0)); [lra|]. rewrite E.
      assert ((0 <= (y0 - lo) * (x1 - x))%Q) by (apply Qmult_le_0_compat; lra). assert ((0 <= (y1 - lo) * (x - x0))%Q) by (apply Qmult_le_0_compat; lra). lra.
    + apply (Qmult_le_r _ _ (x1 - x0)); [lra|]. rewrite E.
      assert ((0 <= (hi - y0) * (x1 - x))%Q) by (apply Qmult_le_0_compat; lra). assert ((0 <= (hi - y1) * (x - x0))%Q) by (apply Qmult_le_0_compat; lra). lra.
Qed.

(** At a node the tabulated value is a value of the line. *)
Lemma on_line_node xs ys i x y : increasing xs -> List.length ys = List.length xs -> nth_error xs i = Some x -> nth_error ys i = Some y -> on_line xs ys x y.
Proof.
  intros SI L Hx Hy. assert (i < List.length xs) by (apply nth_error_Some; congruence).
  destruct (Nat.eq_dec i (List.length xs - 1)) as [->|N].
  - right. left. exists x, y. split; [exact Hx|]. split; [exact Hy|]. split; [apply Qle_refl|reflexivity].
  - destruct (nth_get xs (S i)) as [x2 E2]; [lia|]. destruct (nth_get ys (S i)) as [y2 F2]; [lia|].
    assert ((x < x2)%Q) by (apply (increasing_nth xs i (S i)); [exact SI|lia|exact Hx|exact E2]).
    right. right. exists i, x, x2, y, y2. split; [exact Hx|]. split; [exact E2|]. split; [exact Hy|]. split; [exact F2|]. split; [lra|ring].
Qed.

(** ** get_relgains *)
Lemma mapM_spec {A B} (f : A -> option B) : forall l r, mapM f l = Some r ->
  List.length r = List.length l /\ forall i x, nth_error l i = Some x -> exists y, f x = Some y /\ nth_error r i = Some y.
Proof.
  induction l as [|a t IH]; intros r H; cbn [mapM] in H.
  - injection H as <-. split; [reflexivity|]. intros [|i] x Hx; discriminate.
  - destruct (f a) as [b|] eqn:E; [|discriminate]. destruct (mapM f t) as [r'|]; [|discriminate]. injection H as <-.
    destruct (IH r' eq_refl) as [L F]. split; [cbn; lia|]. intros [|i] x Hx; cbn [nth_error] in *; [injection Hx as <-; exists b; auto|exact (F i x Hx)].
Qed.
Lemma mapM_total {A B} (f : A -> option B) : forall l, (forall x, In x l -> exists y, f x = Some y) -> exists r, mapM f l = Some r.
Proof.
  induction l as [|a t IH]; intro H; [exists []; reflexivity|]. destruct (H a (or_introl eq_refl)) as [b E].
  destruct (IH (fun x Hx => H x (or_intror Hx))) as [r R]. exists (b :: r). cbn [mapM]. rewrite E, R. reflexivity.
Qed.

Lemma column_above t j : (forall row, In row t -> exists y, nth_error row j = Some y) ->
  (all_above1 (column t j) = false <-> exists row y, In row t /\ nth_error row j = Some y /\ (y <= 1)%Q).
Proof.
  intro T. unfold all_above1, column. induction t as [|r t IH]; cbn [map forallb].
  - split; [discriminate|]. intros (row & y & [] & _).
  - destruct (T r (or_introl eq_refl)) as [y Hy]. rewrite Hy. rewrite andb_false_iff, (IH (fun x Hx => T x (or_intror Hx))).
    rewrite negb_false_iff, Qle_bool_iff. split.
    + intros [H|(row & y' & Hr & H)]; [exists r, y; split; [left; reflexivity|auto]|exists row, y'; split; [right; exact Hr|exact H]].
    + intros (row & y' & [<-|Hr] & H & H'); [left; assert (y' = y) by congruence; subst; exact H'|right; exists row, y'; auto].
Qed.
Lemma column_below t j : (forall row, In row t -> exists y, nth_error row j = Some y) ->
  (all_below1 (column t j) = false <-> exists row y, In row t /\ nth_error row j = Some y /\ (1 <= y)%Q).
Proof.
  intro T. unfold all_below1, column. induction t as [|r t IH]; cbn [map forallb].
  - split; [discriminate|]. intros (row & y & [] & _).
  - destruct (T r (or_introl eq_refl)) as [y Hy]. rewrite Hy. rewrite andb_false_iff, (IH (fun x Hx => T x (or_intror Hx))).
    rewrite negb_false_iff, Qle_bool_iff. split.
    + intros [H|(row & y' & Hr & H)]; [exists r, y; split; [left; reflexivity|auto]|exists row, y'; split; [right; exact Hr|exact H]].
    + intros (row & y' & [<-|Hr] & H & H'); [left; assert (y' = y) by congruence; subst; exact H'|right; exists row, y'; auto].
Qed.

Lemma straddles_spec c : well_shaped c ->
  (existsb (fun j => all_above1 (column (rc_table c) j) || all_below1 (column (rc_table c) j)) (seq 0 (List.length (rc_gains c))) = false <-> straddles c).
Proof.
  intros [_ W]. unfold straddles. set (f := fun j => _).
  assert (T : forall j, j < List.length (rc_gains c) -> forall row, In row (rc_table c) -> exists y, nth_error row j = Some y).
  { intros j Hj row Hr. apply nth_get. rewrite (W row Hr). exact Hj. }
  split.
  - intros E j Hj. assert (Q : f j = false).
    { destruct (f j) eqn:Q; [|reflexivity]. assert (existsb f (seq 0 (List.length (rc_gains c))) = true) by (apply existsb_exists; exists j; split; [apply in_seq; lia|exact Q]). congruence. }
    unfold f in Q. apply orb_false_iff in Q. destruct Q as [Q1 Q2].
    split; [apply (proj1 (column_above _ j (T j Hj))); exact Q1|apply (proj1 (column_below _ j (T j Hj))); exact Q2].
  - intro H. destruct (existsb f (seq 0 (List.length (rc_gains c)))) eqn:E; [|reflexivity].
    apply existsb_exists in E. destruct E as (j & Hj & Q). apply in_seq in Hj. unfold f in Q.
    destruct (H j) as [H1 H2]; [lia|]. assert (Hj' : j < List.length (rc_gains c)) by lia.
    apply (proj2 (column_above _ j (T j Hj'))) in H1. apply (proj2 (column_below _ j (T j Hj'))) in H2. rewrite H1, H2 in Q. discriminate.
Qed.

Lemma get_relgains_spec c g frame : well_shaped c ->
  match get_relgains (Some c) g frame with
  | Ok l => usable c /\ List.length l = List.length frame
            /\ forall i p w, nth_error frame i = Some p -> nth_error l i = Some w -> pixel_gain c g p w
  | Raise _ => ~ usable c
  end.
Proof.
  intro W. unfold get_relgains. destruct (not_increasing (rc_gains c)) eqn:N1.
  { intros (I & _). apply not_increasing_spec in I. congruence. }
  destruct (not_increasing (rc_counts c)) eqn:N2.
  { intros (_ & I & _). apply not_increasing_spec in I. congruence. }
  destruct (Nat.eqb_spec (List.length (rc_counts c)) 0) as [Z|Z]; [intros (_ & _ & _ & _ & H); lia|].
  match goal with |- context [existsb ?f ?l] => destruct (existsb f l) eqn:N3 end.
  { intros (_ & _ & H & _). apply (proj2 (straddles_spec c W)) in H. congruence. }
  apply (proj1 (straddles_spec c W)) in N3.
  destruct (Nat.ltb_spec (List.length (rc_gains c)) 2) as [L1|L1]; cbn [orb]; [intros (_ & _ & _ & H & _); lia|].
  destruct (Nat.ltb_spec (List.length (rc_counts c)) 2) as [L2|L2]; [intros (_ & _ & _ & _ & H); lia|].
  apply not_increasing_spec in N1, N2. destruct W as [W1 W2].
  destruct (mapM_total (fun row => interp (rc_gains c) row g) (rc_table c)) as [curve EC].
  { intros row Hr. destruct (interp_spec (rc_gains c) row g N1 L1 (W2 row Hr)) as (v & Hv & _). exists v. exact Hv. }
  rewrite EC. destruct (mapM_spec _ _ _ EC) as [LC FC].
  assert (LC' : List.length curve = List.length (rc_counts c)) by congruence.
  destruct (mapM_total (interp_fl (rc_counts c) curve) frame) as [l El].
  { intros p _. destruct p as [x|[|]|]; cbn [interp_fl].
    - destruct (interp_spec (rc_counts c) curve x N2 L2 LC') as (v & Hv & _). rewrite Hv. eexists. reflexivity.
    - destruct (nth_get curve 0) as [v Hv]; [lia|]. rewrite Hv. eexists. reflexivity.
    - destruct (nth_get curve (List.length (rc_counts c) - 1)) as [v Hv]; [lia|]. rewrite Hv. eexists. reflexivity.
    - eexists. reflexivity. }
  rewrite El. destruct (mapM_spec _ _ _ El) as [LL FL].
  split; [exact (conj N1 (conj N2 (conj N3 (conj L1 L2))))|]. split; [exact LL|].
  assert (CV : forall k row y, nth_error (rc_table c) k = Some row -> nth_error curve k = Some y -> on_line (rc_gains c) row g y).
  { intros k row y Hk Hy. destruct (FC k row Hk) as (y' & E & E'). assert (y' = y) by congruence. subst y'.
    destruct (interp_spec (rc_gains c) row g N1 L1) as (v & Hv & O); [apply W2; eapply nth_error_In; exact Hk|]. rewrite Hv in E. injection E as <-. exact O. }
  intros i p w Hp Hw. destruct (FL i p Hp) as (w' & E & E'). assert (w' = w) by congruence. subst w'.
  destruct p as [x|[|]|]; cbn [interp_fl pixel_gain] in *.
  - destruct (interp_spec (rc_counts c) curve x N2 L2 LC') as (v & Hv & O). rewrite Hv in E. injection E as <-. exists v. split; [reflexivity|]. exists curve. auto.
  - destruct (nth_get curve 0) as [v Hv]; [lia|]. rewrite Hv in E. injection E as <-. destruct (nth_get (rc_counts c) 0) as [x Hx]; [lia|].
    exists v, x. split; [reflexivity|]. split; [exact Hx|]. exists curve. split; [exact LC'|]. split; [exact CV|]. eapply on_line_node; eassumption.
  - destruct (nth_get curve (List.length (rc_counts c) - 1)) as [v Hv]; [lia|]. rewrite Hv in E. injection E as <-. destruct (nth_get (rc_counts c) (List.length (rc_counts c) - 1)) as [x Hx]; [lia|].
    exists v, x. split; [reflexivity|]. split; [exact Hx|]. exists curve. split; [exact LC'|]. split; [exact CV|]. eapply on_line_node; eassumption.
  - injection E as <-. reflexivity.
Qed.

Lemma on_line_ext xs ys ys' x v : List.length ys = List.length ys' ->
  (forall i a b, nth_error ys i = Some a -> nth_error ys' i = Some b -> (a == b)%Q) -> on_line xs ys x v -> on_line xs ys' x v.
Proof.
  intros L E.
  assert (G : forall i a, nth_error ys i = Some a -> exists b, nth_error ys' i = Some b /\ (a == b)%Q).
  { intros i a Ha. destruct (nth_get ys' i) as [b Hb]; [rewrite <- L; apply nth_error_Some; congruence|]. exists b. split; [exact Hb|apply (E i); assumption]. }
  intros [(xf & yf & A & B & C & D)|[(xl & yl & A & B & C & D)|(i & x0 & x1 & y0 & y1 & A & A' & B & B' & C & D)]].
  - destruct (G _ _ B) as (b & Hb & Eb). left. exists xf, b. split; [exact A|]. split; [exact Hb|]. split; [exact C|]. lra.
  - destruct (G _ _ B) as (b & Hb & Eb). right. left. exists xl, b. split; [exact A|]. split; [exact Hb|]. split; [exact C|]. lra.
  - destruct (G _ _ B) as (b & Hb & Eb). destruct (G _ _ B') as (b' & Hb' & Eb'). right. right. exists i, x0, x1, b, b'. split; [exact A|]. split; [exact A'|]. split; [exact Hb|]. split; [exact Hb'|]. split; [exact C|]. setoid_rewrite <- Eb. setoid_rewrite <- Eb'. exact D.
Qed.

Lemma relgain_unique c g x v w : well_shaped c -> usable c -> relgain_at c g x v -> relgain_at c g x w -> (v == w)%Q.
Proof.
  intros [W1 W2] (I1 & I2 & _ & L1 & L2) (cv & Lv & Cv & Ov) (cw & Lw & Cw & Ow).
  apply (on_line_unique (rc_counts c) cw x v w I2 L2); [|exact Ow]. apply (on_line_ext _ cv cw); [congruence| |exact Ov].
  intros i a b Ha Hb. assert (i < List.length cv) by (apply nth_error_Some; congruence).
  destruct (nth_get (rc_table c) i) as [row Hr]; [lia|].
  apply (on_line_unique (rc_gains c) row g a b I1 L1); [exact (Cv i row a Hr Ha)|exact (Cw i row b Hr Hb)].
Qed.

Lemma relgain_bounds c g x v lo hi : well_shaped c -> usable c -> relgain_at c g x v ->
  (forall row y, In row (rc_table c) -> In y row -> (lo <= y <= hi)%Q) -> (lo <= v <= hi)%Q.
Proof.
  intros [W1 W2] (I1 & I2 & _ & L1 & L2) (cv & Lv & Cv & Ov) B.
  apply (on_line_bounds (rc_counts c) cv x v lo hi I2 Ov). intros y Hy. apply In_nth_error in Hy. destruct Hy as [i Hi].
  assert (i < List.length cv) by (apply nth_error_Some; congruence). destruct (nth_get (rc_table c) i) as [row Hr]; [lia|].
  apply (on_line_bounds (rc_gains c) row g y lo hi I1 (Cv i row y Hr Hi)). intros z Hz. apply (B row); [eapply nth_error_In; exact Hr|exact Hz].
Qed.

Lemma relgain_node c j k g x row y : well_shaped c -> usable c ->
  nth_error (rc_gains c) j = Some g -> nth_error (rc_counts c) k = Some x -> nth_error (rc_table c) k = Some row -> nth_error row j = Some y ->
  relgain_at c g x y.
Proof.
  intros [W1 W2] (I1 & I2 & _ & L1 & L2) Hg Hx Hr Hy.
  assert (T : forall row', In row' (rc_table c) -> exists z, nth_error row' j = Some z).
  { intros row' H. apply nth_get. rewrite (W2 row' H). apply nth_error_Some. congruence. }
  destruct (mapM_total (fun row' : list Q => nth_error row' j) (rc_table c) T) as [curve EC]. destruct (mapM_spec _ _ _ EC) as [LC FC].
  exists curve. split; [congruence|]. split.
  - intros i row' z Hi Hz. destruct (FC i row' Hi) as (z' & E & E'). assert (z' = z) by congruence. subst z'.
    apply (on_line_node (rc_gains c) row' j g z I1); [apply W2; eapply nth_error_In; exact Hi|exact Hg|exact E].
  - destruct (FC k row Hr) as (z & E & E'). assert (z = y) by congruence. subst z.
    apply (on_line_node (rc_counts c) curve k x y I2); [congruence|exact Hx|exact E'].
Qed.
