(** Proofs: Simpson's rule and interpolation. *)
From Coq Require Import List Arith Bool Reals String Ascii Sorting Lia Lra.
From Verif Require Import Base ComboSpec ComboProofs UnitsModel UnitsSpec FluxModel FluxSpec.
Import ListNotations.
Local Open Scope R_scope.

Notation inc l := (increasing (map fst l)).
Lemma inc_tail : forall (p : R * R) l, inc (p :: l) -> inc l.
Proof. intros p l H. inversion H. assumption. Qed.
Lemma inc_lt : forall (p q : R * R) l, inc (p :: l) -> In q l -> fst p < fst q.
Proof. intros p q l H I. inversion H as [|? ? _ F]; subst. rewrite Forall_forall in F. apply F. apply in_map. exact I. Qed.
Lemma inc_app_r : forall (l r : list (R * R)), inc (l ++ r) -> inc r.
Proof. induction l as [|p l IH]; intros r H; [exact H|]. apply IH. exact (inc_tail p _ H). Qed.
Lemma inc_app_l : forall (l r : list (R * R)), inc (l ++ r) -> inc l.
Proof.
  induction l as [|p l IH]; intros r H; [constructor|]. cbn [app map] in H. inversion H as [|? ? T F]; subst. cbn [map]. constructor; [exact (IH r T)|].
  rewrite map_app in F. apply Forall_app in F. exact (proj1 F).
Qed.
Lemma inc_cross : forall (l r : list (R * R)) p q, inc (l ++ r) -> In p l -> In q r -> fst p < fst q.
Proof.
  induction l as [|a l IH]; intros r p q H I J; [destruct I|]. destruct I as [-> | I]; [apply (inc_lt p q (l ++ r) H); apply in_or_app; right; exact J|].
  exact (IH r p q (inc_tail a _ H) I J).
Qed.

Lemma over_nz : forall a b, b <> 0 -> FluxModel.over a b = a / b.
Proof. intros a b H. unfold FluxModel.over. destruct (Req_EM_T b 0); [contradiction|reflexivity]. Qed.

Lemma parabola : forall p0 p1 p2 : R * R, fst p0 < fst p1 -> fst p1 < fst p2 -> exists a b c, on_parabola a b c p0 /\ on_parabola a b c p1 /\ on_parabola a b c p2.
Proof.
  intros (x0, y0) (x1, y1) (x2, y2). cbn [fst]. intros H1 H2. unfold on_parabola, value. cbn [fst snd].
  set (d0 := y0 / ((x0 - x1) * (x0 - x2))). set (d1 := y1 / ((x1 - x0) * (x1 - x2))). set (d2 := y2 / ((x2 - x0) * (x2 - x1))).
  exists (d0 + d1 + d2), (- (d0 * (x1 + x2) + d1 * (x0 + x2) + d2 * (x0 + x1))), (d0 * x1 * x2 + d1 * x0 * x2 + d2 * x0 * x1).
  unfold d0, d1, d2. repeat split; field; repeat split; lra.
Qed.
Lemma panel_area : forall (p0 p1 p2 : R * R) a b c, fst p0 < fst p1 -> fst p1 < fst p2 -> on_parabola a b c p0 -> on_parabola a b c p1 -> on_parabola a b c p2 ->
  panel p0 p1 p2 = primitive a b c (fst p2) - primitive a b c (fst p0).
Proof.
  intros (x0, y0) (x1, y1) (x2, y2) a b c. unfold on_parabola, value, panel, primitive. cbn [fst snd]. intros H1 H2 -> -> ->.
  rewrite (over_nz (x1 - x0) (x2 - x1)) by lra. rewrite over_nz. 2: { apply Rgt_not_eq. apply Rdiv_lt_0_compat; lra. }
  rewrite over_nz by (apply Rgt_not_eq; apply Rmult_gt_0_compat; lra). field. repeat split; lra.
Qed.
Lemma last_area : forall (p0 p1 p2 : R * R) a b c, fst p0 < fst p1 -> fst p1 < fst p2 -> on_parabola a b c p0 -> on_parabola a b c p1 -> on_parabola a b c p2 ->
  last_term p0 p1 p2 = primitive a b c (fst p2) - primitive a b c (fst p1).
Proof.
  intros (x0, y0) (x1, y1) (x2, y2) a b c. unfold on_parabola, value, last_term, primitive. cbn [fst snd]. intros H1 H2 -> -> ->.
  rewrite !over_nz; [field; repeat split; lra| |lra|lra]. apply Rgt_not_eq. apply Rmult_gt_0_compat; lra.
Qed.

Lemma arcs_odd : forall l v, arcs l v -> Nat.odd (List.length l) = true.
Proof. intros l v H. induction H as [p|p0 p1 p2 r a b c v _ _ _ _ IH]; [reflexivity|exact IH]. Qed.
Lemma arcs_panels : forall l v, inc l -> arcs l v -> v = panels l.
Proof.
  intros l v I H. induction H as [p|p0 p1 p2 r a b c v P0 P1 P2 _ IH]; [reflexivity|].
  change (panels (p0 :: p1 :: p2 :: r)) with (panel p0 p1 p2 + panels (p2 :: r)). rewrite <- (IH (inc_tail p1 _ (inc_tail p0 _ I))).
  rewrite (panel_area p0 p1 p2 a b c); [reflexivity|apply (inc_lt p0 p1 _ I); left; reflexivity|apply (inc_lt p1 p2 _ (inc_tail p0 _ I)); left; reflexivity|assumption..].
Qed.
Lemma two_step : forall A (P : list A -> Prop), P [] -> (forall x, P [x]) -> (forall x y l, P l -> P (y :: l) -> P (x :: y :: l)) -> forall l, P l.
Proof.
  intros A P H0 H1 H2. assert (K : forall l, P l /\ forall x, P (x :: l)).
  { induction l as [|y l (IA & IB)]; [split; [exact H0|exact H1]|]. split; [exact (IB y)|]. intros x. apply H2; [exact IA|exact (IB y)]. }
  intros l. exact (proj1 (K l)).
Qed.
Lemma panels_arcs : forall n l, List.length l = (2 * n + 1)%nat -> inc l -> arcs l (panels l).
Proof.
  induction n as [|n IH]; intros l L I.
  - destruct l as [|p [|? ?]]; cbn in L; try lia. apply arcs_one.
  - destruct l as [|p0 [|p1 [|p2 r]]]; cbn [List.length] in L; try lia.
    assert (H1 : fst p0 < fst p1) by (apply (inc_lt p0 p1 _ I); left; reflexivity). assert (H2 : fst p1 < fst p2) by (apply (inc_lt p1 p2 _ (inc_tail p0 _ I)); left; reflexivity).
    destruct (parabola p0 p1 p2 H1 H2) as (a & b & c & P0 & P1 & P2). change (panels (p0 :: p1 :: p2 :: r)) with (panel p0 p1 p2 + panels (p2 :: r)). rewrite (panel_area p0 p1 p2 a b c) by assumption.
    apply arcs_more; [assumption..|]. apply IH; [cbn [List.length]; lia|exact (inc_tail p1 _ (inc_tail p0 _ I))].
Qed.
Lemma odd_form : forall n, Nat.odd n = true -> exists k, n = (2 * k + 1)%nat.
Proof. intros n H. apply Nat.odd_spec in H. destruct H as (k & ->). exists k. reflexivity. Qed.
Lemma last_three : forall A (l : list A), (3 <= List.length l)%nat -> exists r a b c, l = r ++ [a; b; c].
Proof.
  intros A l H. destruct (rev l) as [|c [|b [|a r]]] eqn:E; apply (f_equal (@List.length A)) in E as L; rewrite rev_length in L; cbn in L; try lia.
  exists (rev r), a, b, c. rewrite <- (rev_involutive l), E. cbn [rev]. rewrite <- !app_assoc. reflexivity.
Qed.
Lemma simpson_three : forall l p0 p1 p2, Nat.even (List.length (l ++ [p0; p1; p2])) = true -> simpson (l ++ [p0; p1; p2]) = panels (l ++ [p0; p1]) + last_term p0 p1 p2.
Proof.
  intros l p0 p1 p2 H. unfold simpson. rewrite H. rewrite rev_app_distr. cbn [rev app]. replace (l ++ [p0; p1; p2]) with ((l ++ [p0; p1]) ++ [p2]) by (rewrite <- app_assoc; reflexivity). rewrite removelast_last. reflexivity.
Qed.
Lemma inc_last : forall (l : list (R * R)) p0 p1 p2, inc (l ++ [p0; p1; p2]) -> fst p0 < fst p1 /\ fst p1 < fst p2 /\ inc (l ++ [p0; p1]).
Proof.
  intros l p0 p1 p2 I. pose proof (inc_app_r l _ I) as J. repeat split; [apply (inc_lt p0 p1 _ J); left; reflexivity|apply (inc_lt p1 p2 _ (inc_tail p0 _ J)); left; reflexivity|].
  apply (inc_app_l (l ++ [p0; p1]) [p2]). rewrite <- app_assoc. exact I.
Qed.
Lemma area_simpson : forall l v, inc l -> area_under l v -> v = simpson l.
Proof.
  intros l v I H. destruct H as [l v A|p0 p1|l p0 p1 p2 a b c v P0 P1 P2 A].
  - pose proof (arcs_odd _ _ A) as O. unfold simpson. rewrite <- Nat.negb_odd, O. apply arcs_panels; assumption.
  - unfold simpson. cbn. field.
  - pose proof (arcs_odd _ _ A) as O. destruct (inc_last _ _ _ _ I) as (H1 & H2 & J). rewrite simpson_three.
    + rewrite (last_area p0 p1 p2 a b c), <- (arcs_panels _ _ J A) by assumption. reflexivity.
    + rewrite app_length in *. cbn [List.length] in *. rewrite <- O. replace (List.length l + 3)%nat with (S (List.length l + 2)) by lia. apply Nat.even_succ.
Qed.
Lemma simpson_area : forall l, inc l -> l <> [] -> area_under l (simpson l).
Proof.
  intros l I N. destruct (Nat.odd (List.length l)) eqn:O.
  - destruct (odd_form _ O) as (k & L). unfold simpson. rewrite <- Nat.negb_odd, O. cbn [negb]. apply au_odd. exact (panels_arcs k l L I).
  - assert (V : Nat.even (List.length l) = true) by (rewrite <- Nat.negb_odd, O; reflexivity). destruct (le_lt_dec 3 (List.length l)) as [G|G].
    + destruct (last_three _ _ G) as (r & p0 & p1 & p2 & ->). destruct (inc_last _ _ _ _ I) as (H1 & H2 & J). rewrite (simpson_three _ _ _ _ V).
      destruct (parabola p0 p1 p2 H1 H2) as (a & b & c & P0 & P1 & P2). rewrite (last_area p0 p1 p2 a b c) by assumption. apply au_even; [assumption..|].
      assert (O' : Nat.odd (List.length (r ++ [p0; p1])) = true). { rewrite app_length in *. cbn [List.length] in *. rewrite <- V. replace (List.length r + 3)%nat with (S (List.length r + 2)) by lia. rewrite Nat.even_succ. reflexivity. }
      destruct (odd_form _ O') as (k & L). exact (panels_arcs k _ L J).
    + destruct l as [|p0 [|p1 [|? ?]]]; cbn in G, V; try lia; try congruence. replace (simpson [p0; p1]) with ((fst p1 - fst p0) * (snd p0 + snd p1) / 2) by (unfold simpson; cbn; field). apply au_two.
Qed.
Lemma area_iff : forall l v, inc l -> l <> [] -> (area_under l v <-> v = simpson l).
Proof. intros l v I N. split; [exact (area_simpson l v I)|intros ->; exact (simpson_area l I N)]. Qed.

Lemma fst_combine : forall (x y : list R), List.length x = List.length y -> map fst (combine x y) = x.
Proof. induction x as [|a x IH]; intros [|b y] H; cbn in *; try lia; try reflexivity. f_equal. apply IH. lia. Qed.
Lemma snd_combine : forall (x y : list R), List.length x = List.length y -> map snd (combine x y) = y.
Proof. induction x as [|a x IH]; intros [|b y] H; cbn in *; try lia; try reflexivity. f_equal. apply IH. lia. Qed.
Lemma combine_ne : forall (x y : list R), List.length x = List.length y -> x <> [] -> combine x y <> [].
Proof. intros [|a x] [|b y] H N; cbn in *; try lia; congruence. Qed.
(** On an increasing grid, [integral] is the area. *)
Lemma integral_iff : forall x y v, increasing x -> x <> [] -> List.length y = List.length x -> (area x y v <-> v = integral y x).
Proof. intros x y v I N L. unfold area, integral. apply area_iff; [rewrite fst_combine by (symmetry; exact L); exact I|apply combine_ne; [symmetry; exact L|exact N]]. Qed.
Lemma area_one : forall x y v v', increasing x -> x <> [] -> List.length y = List.length x -> area x y v -> area x y v' -> v = v'.
Proof. intros x y v v' I N L H H'. apply (integral_iff x y v I N L) in H. apply (integral_iff x y v' I N L) in H'. congruence. Qed.

(** ** The rule as a weighted sum *)
Fixpoint dot (k y : list R) : R := match k, y with a :: k', b :: y' => a * b + dot k' y' | _, _ => 0 end.
Definition p0w (x0 x1 x2 : R) : R := (x1 - x0 + (x2 - x1)) / 6 * (2 - FluxModel.over 1 (FluxModel.over (x1 - x0) (x2 - x1))).
Definition p1w (x0 x1 x2 : R) : R := (x1 - x0 + (x2 - x1)) / 6 * ((x1 - x0 + (x2 - x1)) * FluxModel.over (x1 - x0 + (x2 - x1)) ((x1 - x0) * (x2 - x1))).
Definition p2w (x0 x1 x2 : R) : R := (x1 - x0 + (x2 - x1)) / 6 * (2 - FluxModel.over (x1 - x0) (x2 - x1)).
Fixpoint pweights (x : list R) : list R :=
  match x with
  | x0 :: (x1 :: ((x2 :: _) as r)) => match pweights r with c :: cs => p0w x0 x1 x2 :: p1w x0 x1 x2 :: (p2w x0 x1 x2 + c) :: cs | [] => [] end
  | _ => map (fun _ => 0) x
  end.
Lemma pweights_length : forall x, List.length (pweights x) = List.length x.
Proof.
  assert (K : forall n x, (List.length x <= n)%nat -> List.length (pweights x) = List.length x).
  { induction n as [|n IH]; intros x L; [destruct x; [reflexivity|cbn in L; lia]|].
    destruct x as [|x0 [|x1 [|x2 r]]]; try reflexivity.
    assert (L2 : List.length (pweights (x2 :: r)) = List.length (x2 :: r)) by (apply IH; cbn [List.length] in *; lia).
    change (pweights (x0 :: x1 :: x2 :: r)) with (match pweights (x2 :: r) with c :: cs => p0w x0 x1 x2 :: p1w x0 x1 x2 :: (p2w x0 x1 x2 + c) :: cs | [] => [] end).
    destruct (pweights (x2 :: r)) as [|c cs]; cbn [List.length] in *; lia. }
  intros x. exact (K _ x (le_n _)).
Qed.
Lemma panels_dot : forall x y, List.length x = List.length y -> panels (combine x y) = dot (pweights x) y.
Proof.
  assert (K : forall n x y, (List.length x <= n)%nat -> List.length x = List.length y -> panels (combine x y) = dot (pweights x) y).
  { induction n as [|n IH]; intros x y L E; [destruct x, y; cbn in *; try lia; reflexivity|].
    destruct x as [|x0 [|x1 [|x2 r]]]; destruct y as [|y0 [|y1 [|y2 s]]]; cbn [List.length] in *; try lia; try (cbn; lra).
    change (panels (combine (x0 :: x1 :: x2 :: r) (y0 :: y1 :: y2 :: s))) with (panel (x0, y0) (x1, y1) (x2, y2) + panels (combine (x2 :: r) (y2 :: s))).
    rewrite (IH (x2 :: r) (y2 :: s)) by (cbn [List.length]; lia). pose proof (pweights_length (x2 :: r)) as PL.
    change (pweights (x0 :: x1 :: x2 :: r)) with (match pweights (x2 :: r) with c :: cs => p0w x0 x1 x2 :: p1w x0 x1 x2 :: (p2w x0 x1 x2 + c) :: cs | [] => [] end).
    destruct (pweights (x2 :: r)) as [|c cs]; [cbn in PL; lia|]. cbn [dot]. unfold panel, p0w, p1w, p2w. cbn [fst snd]. ring. }
  intros x y. exact (K _ x y (le_n _)).
Qed.
Lemma dot_app : forall k k' y y', List.length k = List.length y -> dot (k ++ k') (y ++ y') = dot k y + dot k' y'.
Proof. induction k as [|a k IH]; intros k' [|b y] y' H; cbn in *; try lia; [lra|]. rewrite IH by lia. ring. Qed.
(** The weights of the whole rule. *)
Definition weights (x : list R) : list R :=
  if Nat.even (List.length x) then
    match rev x with
    | x2 :: x1 :: x0 :: _ =>
      match rev (pweights (removelast x)) with
      | v :: u :: r => rev r ++ [u - FluxModel.over ((x2 - x1) ^ 3) (6 * (x1 - x0) * (x1 - x0 + (x2 - x1)));
                                 v + FluxModel.over ((x2 - x1) ^ 2 + 3 * (x1 - x0) * (x2 - x1)) (6 * (x1 - x0));
                                 FluxModel.over (2 * (x2 - x1) ^ 2 + 3 * (x1 - x0) * (x2 - x1)) (6 * (x2 - x1 + (x1 - x0)))]
      | _ => []
      end
    | [x1; x0] => [1 / 2 * (x1 - x0); 1 / 2 * (x1 - x0)]
    | _ => []
    end
  else pweights x.
Lemma last_three_eq : forall A (l : list A) n, List.length l = (n + 3)%nat -> exists r a b c, l = r ++ [a; b; c] /\ List.length r = n.
Proof. intros A l n L. destruct (last_three A l) as (r & a & b & c & ->); [lia|]. exists r, a, b, c. split; [reflexivity|]. rewrite app_length in L. cbn in L. lia. Qed.
Lemma last_two_eq : forall A (l : list A) n, List.length l = (n + 2)%nat -> exists r a b, l = r ++ [a; b] /\ List.length r = n.
Proof.
  intros A l n L. destruct (rev l) as [|b [|a r]] eqn:E; apply (f_equal (@List.length A)) in E as L'; rewrite rev_length in L'; cbn in L'; try lia.
  exists (rev r), a, b. rewrite rev_length. split; [|lia]. rewrite <- (rev_involutive l), E. cbn [rev]. rewrite <- !app_assoc. reflexivity.
Qed.
Lemma combine_app : forall (a b c d : list R), List.length a = List.length c -> combine (a ++ b) (c ++ d) = combine a c ++ combine b d.
Proof. induction a as [|x a IH]; intros b [|z c] d H; cbn in *; try lia; [reflexivity|]. rewrite IH by lia. reflexivity. Qed.
Lemma weights_three : forall r x0 x1 x2 m u v, Nat.even (List.length (r ++ [x0; x1; x2])) = true -> pweights (r ++ [x0; x1]) = m ++ [u; v] ->
  weights (r ++ [x0; x1; x2]) = m ++ [u - FluxModel.over ((x2 - x1) ^ 3) (6 * (x1 - x0) * (x1 - x0 + (x2 - x1)));
                                 v + FluxModel.over ((x2 - x1) ^ 2 + 3 * (x1 - x0) * (x2 - x1)) (6 * (x1 - x0));
                                 FluxModel.over (2 * (x2 - x1) ^ 2 + 3 * (x1 - x0) * (x2 - x1)) (6 * (x2 - x1 + (x1 - x0)))].
Proof.
  intros r x0 x1 x2 m u v V P. unfold weights. rewrite V, rev_app_distr. cbn [rev app].
  replace (r ++ [x0; x1; x2]) with ((r ++ [x0; x1]) ++ [x2]) by (rewrite <- app_assoc; reflexivity). rewrite removelast_last, P, rev_app_distr. cbn [rev app]. rewrite rev_involutive. reflexivity.
Qed.
Lemma weights_length : forall x, List.length (weights x) = List.length x.
Proof.
  intros x. destruct (Nat.even (List.length x)) eqn:V; [|unfold weights; rewrite V; apply pweights_length].
  destruct (le_lt_dec 3 (List.length x)) as [G|G].
  - destruct (last_three_eq _ x (List.length x - 3) ltac:(lia)) as (r & x0 & x1 & x2 & -> & L).
    destruct (last_two_eq _ (pweights (r ++ [x0; x1])) (List.length r)) as (m & u & v & P & LM); [rewrite pweights_length, app_length; reflexivity|].
    rewrite (weights_three r x0 x1 x2 m u v V P), !app_length. cbn [List.length]. lia.
  - destruct x as [|x0 [|x1 [|? ?]]]; cbn in *; try lia; try discriminate; reflexivity.
Qed.
Lemma integral_dot : forall x y, List.length x = List.length y -> integral y x = dot (weights x) y.
Proof.
  intros x y E. unfold integral, simpson. rewrite combine_length, <- E, Nat.min_id. destruct (Nat.even (List.length x)) eqn:V.
  - destruct (le_lt_dec 3 (List.length x)) as [G|G].
    + destruct (last_three_eq _ x (List.length x - 3) ltac:(lia)) as (r & x0 & x1 & x2 & -> & L). destruct (last_three_eq _ y (List.length r)) as (s & y0 & y1 & y2 & -> & L2); [rewrite <- E, app_length; reflexivity|].
      destruct (last_two_eq _ (pweights (r ++ [x0; x1])) (List.length r)) as (m & u & v & P & LM); [rewrite pweights_length, app_length; reflexivity|].
      rewrite (weights_three r x0 x1 x2 m u v V P). rewrite combine_app by lia. cbn [combine]. rewrite rev_app_distr. cbn [rev app].
      replace (combine r s ++ [(x0, y0); (x1, y1); (x2, y2)]) with ((combine r s ++ combine [x0; x1] [y0; y1]) ++ [(x2, y2)]) by (cbn [combine]; rewrite <- app_assoc; reflexivity). rewrite removelast_last, <- combine_app by lia.
      rewrite panels_dot by (rewrite !app_length; cbn [List.length]; lia). rewrite P, !dot_app by lia. cbn [dot]. unfold last_term. cbn [fst snd]. ring.
    + destruct x as [|x0 [|x1 [|? ?]]]; destruct y as [|y0 [|y1 [|? ?]]]; cbn in *; try lia; try discriminate; lra.
  - unfold weights. rewrite V. apply panels_dot. exact E.
Qed.
