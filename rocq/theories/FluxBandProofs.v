(** Proofs: laws of the integrals, interpolation, band quantities. *)
From Coq Require Import List Arith Bool Reals String Ascii Sorting Lia Lra.
From Verif Require Import Base ComboSpec ComboProofs UnitsModel UnitsSpec FluxModel FluxSpec FluxProofs.
Import ListNotations.
Local Open Scope R_scope.

(** ** Exactness *)
Lemma last_cons : forall A (l : list A) x d, last (x :: l) d = last l x.
Proof.
  assert (K : forall A (l : list A) y d d', last (y :: l) d = last (y :: l) d') by (intros A; induction l as [|z l IH]; intros y d d'; [reflexivity|exact (IH z d d')]).
  intros A [|y l] x d; [reflexivity|]. exact (K A l y d x).
Qed.
Lemma arcs_exact : forall a b c n l p, List.length l = (2 * n)%nat -> Forall (on_parabola a b c) (p :: l) -> arcs (p :: l) (primitive a b c (fst (last l p)) - primitive a b c (fst p)).
Proof.
  intros a b c. induction n as [|n IH]; intros l p L F.
  - destruct l; [|cbn in L; lia]. cbn [last]. replace (primitive a b c (fst p) - primitive a b c (fst p)) with 0 by ring. apply arcs_one.
  - destruct l as [|p1 [|p2 r]]; cbn [List.length] in L; try lia. inversion F as [|? ? P0 F1]; subst. inversion F1 as [|? ? P1 F2]; subst. inversion F2 as [|? ? P2 F3]; subst.
    assert (LE : last (p1 :: p2 :: r) p = last r p2) by (rewrite !last_cons; reflexivity).
    rewrite LE. replace (primitive a b c (fst (last r p2)) - primitive a b c (fst p)) with (primitive a b c (fst p2) - primitive a b c (fst p) + (primitive a b c (fst (last r p2)) - primitive a b c (fst p2))) by ring.
    apply arcs_more; [assumption..|]. apply IH; [lia|exact F2].
Qed.
Lemma last_snoc : forall A (l : list A) x d, last (l ++ [x]) d = x.
Proof. induction l as [|a l IH]; intros x d; [reflexivity|]. cbn [app last]. destruct (l ++ [x]) eqn:E; [destruct l; discriminate|]. rewrite <- E. apply IH. Qed.
Lemma area_exact : forall a b c l p, (2 <= List.length l)%nat -> Forall (on_parabola a b c) (p :: l) -> area_under (p :: l) (primitive a b c (fst (last l p)) - primitive a b c (fst p)).
Proof.
  intros a b c l p G F. destruct (Nat.even (List.length l)) eqn:V.
  - apply Nat.even_spec in V. destruct V as (n & L). apply au_odd. exact (arcs_exact a b c n l p L F).
  - assert (O : Nat.odd (List.length l) = true) by (rewrite <- Nat.negb_even, V; reflexivity). apply odd_form in O. destruct O as (n & L).
    destruct (last_two_eq _ l (2 * n - 1)) as (r & p1 & p2 & -> & LR); [lia|]. destruct n as [|n]; [lia|].
    destruct (last_two_eq _ (p :: r) (2 * n)) as (s & p' & p0 & E & LS); [cbn [List.length]; lia|].
    assert (EQ : p :: r ++ [p1; p2] = (s ++ [p']) ++ [p0; p1; p2]). { change (p :: r ++ [p1; p2]) with ((p :: r) ++ [p1; p2]). rewrite E, <- !app_assoc. reflexivity. }
    rewrite EQ in F. assert (EA : p :: r ++ [p1] = (s ++ [p']) ++ [p0; p1]). { change (p :: r ++ [p1]) with ((p :: r) ++ [p1]). rewrite E, <- !app_assoc. reflexivity. }
    apply Forall_app in F as F'. destruct F' as (F1 & F2). inversion F2 as [|? ? Q0 F3]; subst. inversion F3 as [|? ? Q1 F4]; subst. inversion F4 as [|? ? Q2 _]; subst.
    replace (r ++ [p1; p2]) with ((r ++ [p1]) ++ [p2]) at 2 by (rewrite <- app_assoc; reflexivity). rewrite last_snoc.
    pose proof (arcs_exact a b c (S n) (r ++ [p1]) p) as AX. rewrite last_snoc in AX.
    replace (primitive a b c (fst p2) - primitive a b c (fst p)) with (primitive a b c (fst p1) - primitive a b c (fst p) + (primitive a b c (fst p2) - primitive a b c (fst p1))) by ring.
    rewrite EQ. apply au_even; [assumption..|]. rewrite <- EA. apply AX; [rewrite app_length; cbn [List.length]; lia|]. rewrite EA. apply Forall_app. split; [exact F1|constructor; [exact Q0|constructor; [exact Q1|constructor]]].
Qed.
Lemma exact_quadratic : forall a b c x0 x, (2 <= List.length x)%nat -> area (x0 :: x) (map (value a b c) (x0 :: x)) (primitive a b c (last x x0) - primitive a b c x0).
Proof.
  intros a b c x0 x G. unfold area. assert (K : forall l, combine l (map (value a b c) l) = map (fun u => (u, value a b c u)) l) by (induction l as [|u l IH]; [reflexivity|cbn; rewrite IH; reflexivity]).
  rewrite K. cbn [map]. pose proof (area_exact a b c (map (fun u => (u, value a b c u)) x) (x0, value a b c x0)) as A.
  assert (LL : last (map (fun u => (u, value a b c u)) x) (x0, value a b c x0) = (last x x0, value a b c (last x x0))). { clear. revert x0. induction x as [|u x IH]; intros x0; [reflexivity|]. cbn [map]. destruct x as [|w x]; [reflexivity|]. exact (IH x0). }
  rewrite LL in A. cbn [fst] in A. apply A; [rewrite map_length; exact G|]. constructor; [reflexivity|]. apply Forall_forall. intros p I. apply in_map_iff in I. destruct I as (u & <- & _). reflexivity.
Qed.

(** ** Linearity *)
Lemma dot_lin : forall s t k f g, List.length f = List.length g -> dot k (lin s t f g) = s * dot k f + t * dot k g.
Proof. induction k as [|a k IH]; intros [|b f] [|c g] H; cbn in *; try lia; try ring. fold (lin s t f g). rewrite IH by lia. ring. Qed.
Lemma lin_length : forall s t f g, List.length f = List.length g -> List.length (lin s t f g) = List.length f.
Proof. intros s t f g H. unfold lin. rewrite map_length, combine_length. lia. Qed.
Lemma area_lin : forall s t x f g u v, increasing x -> x <> [] -> List.length f = List.length x -> List.length g = List.length x ->
  area x f u -> area x g v -> area x (lin s t f g) (s * u + t * v).
Proof.
  intros s t x f g u v I N LF LG AF AG. apply (integral_iff x f u I N LF) in AF. apply (integral_iff x g v I N LG) in AG. apply integral_iff; [assumption|assumption|rewrite lin_length; congruence|].
  subst u v. rewrite !integral_dot by (rewrite ?lin_length; congruence). rewrite dot_lin by congruence. reflexivity.
Qed.
Lemma dot_scale : forall c k f, dot k (map (fun x => x * c) f) = dot k f * c.
Proof. induction k as [|a k IH]; intros [|b f]; cbn; try ring. rewrite IH. ring. Qed.
Lemma integral_scale : forall c f x, List.length f = List.length x -> integral (map (fun y => y * c) f) x = integral f x * c.
Proof. intros c f x L. rewrite !integral_dot by (rewrite ?map_length; congruence). apply dot_scale. Qed.

(** ** Equally spaced grids *)
Lemma eg_tail : forall g h a x, even_grid g h (a :: x) -> a = g /\ even_grid (g + h) h x.
Proof.
  intros g h a x H. split; [specialize (H O a eq_refl); cbn in H; lra|]. intros i y E. specialize (H (S i) y E). rewrite S_INR in H. lra.
Qed.
Lemma eg_app : forall g h a x, even_grid g h (a ++ x) -> even_grid g h a /\ even_grid (g + INR (List.length a) * h) h x.
Proof.
  intros g h a x H. split; intros i y E.
  - apply H. rewrite nth_error_app1; [exact E|]. apply nth_error_Some. congruence.
  - specialize (H (List.length a + i)%nat y). rewrite nth_error_app2 in H by lia. replace (List.length a + i - List.length a)%nat with i in H by lia. specialize (H E). rewrite plus_INR in H. lra.
Qed.
Lemma eg_inc : forall h x g, 0 < h -> even_grid g h x -> increasing x.
Proof.
  intros h x g H. revert g. induction x as [|a x IH]; intros g E; [constructor|]. destruct (eg_tail _ _ _ _ E) as (-> & T). constructor; [exact (IH _ T)|].
  apply Forall_forall. intros y I. apply In_nth_error in I. destruct I as (i & I). specialize (T i y I). pose proof (pos_INR i). pose proof (Rmult_le_pos _ _ H0 (Rlt_le _ _ H)). lra.
Qed.
Lemma even_weights3 : forall g h, 0 < h -> p0w g (g + h) (g + h + h) = h / 3 /\ p1w g (g + h) (g + h + h) = 4 / 3 * h /\ p2w g (g + h) (g + h + h) = h / 3.
Proof.
  intros g h H. unfold p0w, p1w, p2w. replace (g + h - g) with h by ring. replace (g + h + h - (g + h)) with h by ring. rewrite (over_nz h h) by lra. replace (h / h) with 1 by (field; lra). rewrite (over_nz 1 1) by lra. rewrite over_nz by (apply Rgt_not_eq; apply Rmult_gt_0_compat; lra).
  repeat split; field; lra.
Qed.
Definition fair (h k : R) : Prop := h / 3 <= k <= 4 / 3 * h.
Lemma pw_even : forall h, 0 < h -> forall n g x, List.length x = (2 * n + 3)%nat -> even_grid g h x -> exists m, pweights x = (h / 3 :: m) ++ [4 / 3 * h; h / 3] /\ Forall (fair h) m.
Proof.
  intros h H. induction n as [|n IH]; intros g x L E.
  - destruct x as [|x0 [|x1 [|x2 [|? ?]]]]; cbn [List.length] in L; try lia. destruct (eg_tail _ _ _ _ E) as (-> & E1). destruct (eg_tail _ _ _ _ E1) as (-> & E2). destruct (eg_tail _ _ _ _ E2) as (-> & _).
    destruct (even_weights3 g h H) as (W0 & W1 & W2). exists []. cbn [pweights map app]. rewrite W0, W1, W2. split; [rewrite Rplus_0_r; reflexivity|constructor].
  - destruct x as [|x0 [|x1 [|x2 r]]]; cbn [List.length] in L; try lia. destruct (eg_tail _ _ _ _ E) as (-> & E1). destruct (eg_tail _ _ _ _ E1) as (-> & E2). destruct (eg_tail _ _ _ _ E2) as (-> & _).
    destruct (IH _ (g + h + h :: r) ltac:(cbn [List.length]; lia) E2) as (m & P & F). destruct (even_weights3 g h H) as (W0 & W1 & W2).
    exists (4 / 3 * h :: 2 / 3 * h :: m).
    change (pweights (g :: g + h :: g + h + h :: r)) with (match pweights (g + h + h :: r) with c :: cs => p0w g (g + h) (g + h + h) :: p1w g (g + h) (g + h + h) :: (p2w g (g + h) (g + h + h) + c) :: cs | [] => [] end).
    rewrite P, W0, W1, W2. cbn [app]. split; [replace (h / 3 + h / 3) with (2 / 3 * h) by field; reflexivity|]. constructor; [unfold fair; lra|]. constructor; [unfold fair; lra|exact F].
Qed.
Lemma weights_fair : forall h g x, 0 < h -> even_grid g h x -> (2 <= List.length x)%nat -> Forall (fair h) (weights x).
Proof.
  intros h g x H E G. destruct (Nat.even (List.length x)) eqn:V.
  - destruct (le_lt_dec 3 (List.length x)) as [G3|G3].
    + apply Nat.even_spec in V as V'. destruct V' as (k & LK). destruct (last_three_eq _ x (List.length x - 3) ltac:(lia)) as (r & x0 & x1 & x2 & -> & L).
      destruct (eg_app _ _ _ _ E) as (_ & E0). destruct (eg_tail _ _ _ _ E0) as (-> & E1). destruct (eg_tail _ _ _ _ E1) as (-> & E2). destruct (eg_tail _ _ _ _ E2) as (-> & _). set (s := g + INR (List.length r) * h) in *.
      rewrite app_length in *. cbn [List.length] in *. destruct (pw_even h H (k - 2) g (r ++ [s; s + h])) as (m & P & F).
      { rewrite app_length. cbn [List.length]. lia. }
      { apply (eg_app g h (r ++ [s; s + h]) [s + h + h]). rewrite <- app_assoc. exact E. }
      rewrite (weights_three r s (s + h) (s + h + h) (h / 3 :: m) (4 / 3 * h) (h / 3)); [|rewrite app_length; exact V|exact P].
      replace (s + h - s) with h by ring. replace (s + h + h - (s + h)) with h by ring.
      rewrite (over_nz (h ^ 3)). 2: { apply Rgt_not_eq. apply Rmult_gt_0_compat; lra. } rewrite !over_nz by lra.
      apply Forall_app. split; [constructor; [unfold fair; lra|exact F]|].
      replace (h ^ 3 / (6 * h * (h + h))) with (h / 12) by (field; lra). replace ((h ^ 2 + 3 * h * h) / (6 * h)) with (2 / 3 * h) by (field; lra). replace ((2 * h ^ 2 + 3 * h * h) / (6 * (h + h))) with (5 / 12 * h) by (field; lra).
      repeat constructor; unfold fair; lra.
    + destruct x as [|x0 [|x1 [|? ?]]]; cbn [List.length] in *; try lia. destruct (eg_tail _ _ _ _ E) as (-> & E1). destruct (eg_tail _ _ _ _ E1) as (-> & _). cbn. repeat constructor; unfold fair; lra.
  - assert (O : Nat.odd (List.length x) = true) by (rewrite <- Nat.negb_even, V; reflexivity). apply odd_form in O. destruct O as (n & L). destruct (pw_even h H (n - 1) g x) as (m & P & F); [lia|exact E|].
    unfold weights. rewrite V, P. apply Forall_app. split; [constructor; [unfold fair; lra|exact F]|]. repeat constructor; unfold fair; lra.
Qed.
Lemma dot_fair : forall h k y, 0 < h -> List.length k = List.length y -> Forall (fair h) k -> Forall (fun v => 0 <= v) y -> h / 3 * fold_right Rplus 0 y <= dot k y <= 4 / 3 * h * fold_right Rplus 0 y.
Proof.
  intros h k y H. revert y. induction k as [|a k IH]; intros [|b y] L FK FY; cbn in *; try lia; [lra|]. inversion FK as [|? ? A FK']; subst. inversion FY as [|? ? B FY']; subst. specialize (IH y ltac:(lia) FK' FY'). unfold fair in A.
  assert (h / 3 * b <= a * b) by (apply Rmult_le_compat_r; lra). assert (a * b <= 4 / 3 * h * b) by (apply Rmult_le_compat_r; lra). lra.
Qed.
Lemma area_fair : forall h g x y v, 0 < h -> even_grid g h x -> (2 <= List.length x)%nat -> List.length y = List.length x -> Forall (fun u => 0 <= u) y -> area x y v ->
  h / 3 * fold_right Rplus 0 y <= v <= 4 / 3 * h * fold_right Rplus 0 y.
Proof.
  intros h g x y v H E G L F A. apply integral_iff in A; [|exact (eg_inc h x g H E)|destruct x; [cbn in G; lia|discriminate]|exact L]. subst v. rewrite integral_dot by congruence.
  apply dot_fair; [exact H|rewrite weights_length; congruence|exact (weights_fair h g x H E G)|exact F].
Qed.
Lemma dot_le : forall h k a b, 0 < h -> Forall (fair h) k -> Forall2 (fun x y => x <= y) a b -> dot k a <= dot k b.
Proof.
  intros h k a b H F. revert a b. induction F as [|c k C F IH]; intros a b T; [cbn; lra|]. destruct T as [|x y a b X T]; cbn [dot]; [lra|]. specialize (IH a b T). unfold fair in C. assert (c * x <= c * y) by (apply Rmult_le_compat_l; lra). lra.
Qed.
(** All of a kind: at least two points, or one. *)
Lemma integral_le : forall h g x a b, 0 < h -> even_grid g h x -> List.length a = List.length x -> Forall2 (fun u v => u <= v) a b -> integral a x <= integral b x.
Proof.
  intros h g x a b H E L F. assert (LB : List.length b = List.length x) by (rewrite <- L; clear -F; induction F; cbn; congruence).
  destruct (le_lt_dec 2 (List.length x)) as [G|G]; [rewrite !integral_dot by congruence; exact (dot_le h _ _ _ H (weights_fair h g x H E G) F)|].
  destruct x as [|x0 [|? ?]]; cbn in G; try lia; destruct a as [|? [|? ?]], b as [|? [|? ?]]; cbn in L, LB; try lia; cbn; lra.
Qed.

(** ** Interpolation *)
Lemma interp_at : forall l p x, inc (p :: l) -> x <= fst p -> interp p l x = snd p.
Proof.
  intros [|q t] p x I H; [reflexivity|]. cbn [interp]. assert (fst p < fst q) by (apply (inc_lt p q _ I); left; reflexivity). destruct (Rlt_dec x (fst q)); [|lra]. destruct (Rle_dec x (fst p)); [reflexivity|lra].
Qed.
Lemma interp_one : forall l p x y, inc (p :: l) -> interpolated (p :: l) x y -> y = interp p l x.
Proof.
  induction l as [|q t IH]; intros p x y I H.
  - cbn [interp]. destruct H as [(p' & r & E & _ & ->) | [(p' & r & E & _ & ->) | (u & p' & q' & v & E & _)]].
    + injection E as -> _. reflexivity.
    + destruct r as [|? [|? ?]]; try discriminate. injection E as ->. reflexivity.
    + destruct u as [|? [|? ?]]; discriminate.
  - assert (PQ : fst p < fst q) by (apply (inc_lt p q _ I); left; reflexivity). pose proof (inc_tail p _ I) as I'.
    assert (IQ : forall z, In z (q :: t) -> fst q <= fst z) by (intros z [-> | J]; [lra|apply Rlt_le; exact (inc_lt q z t I' J)]).
    destruct H as [(p' & r & E & HX & ->) | [(p' & r & E & HX & ->) | (u & p' & q' & v & E & HX & HY)]].
    + injection E as <- _. symmetry. apply interp_at; assumption.
    + destruct r as [|p2 r]; [discriminate|]. cbn [app] in E. assert (E' : q :: t = r ++ [p']) by congruence. assert (In p' (q :: t)) by (rewrite E'; apply in_or_app; right; left; reflexivity). specialize (IQ p' H).
      cbn [interp]. destruct (Rlt_dec x (fst q)); [lra|]. apply IH; [exact I'|]. right. left. exists p', r. auto.
    + destruct u as [|p2 u].
      * cbn [app] in E. injection E as <- <- _. cbn [interp]. destruct (Rlt_dec x (fst q)).
        -- destruct (Rle_dec x (fst p)).
           ++ assert (x = fst p) by lra. subst x. replace (fst p - fst p) with 0 in HY by ring. rewrite Rmult_0_r in HY. apply Rmult_integral in HY. lra.
           ++ apply (Rmult_eq_reg_r (fst q - fst p)); [|lra]. transitivity ((snd q - snd p) * (x - fst p) + snd p * (fst q - fst p)); [lra|]. field. lra.
        -- assert (x = fst q) by lra. subst x. rewrite (interp_at t q) by (assumption || lra). apply Rmult_eq_reg_r in HY; lra.
      * cbn [app] in E. assert (E' : q :: t = u ++ p' :: q' :: v) by congruence. assert (In p' (q :: t)) by (rewrite E'; apply in_or_app; right; left; reflexivity). specialize (IQ p' H).
        cbn [interp]. destruct (Rlt_dec x (fst q)); [lra|]. apply IH; [exact I'|]. right. right. exists u, p', q', v. auto.
Qed.
Lemma interp_ok : forall l p x, inc (p :: l) -> interpolated (p :: l) x (interp p l x).
Proof.
  induction l as [|q t IH]; intros p x I.
  - cbn [interp]. destruct (Rle_dec x (fst p)); [left; exists p, []; auto|right; left; exists p, []; repeat split; lra].
  - assert (PQ : fst p < fst q) by (apply (inc_lt p q _ I); left; reflexivity). cbn [interp]. destruct (Rlt_dec x (fst q)).
    + destruct (Rle_dec x (fst p)); [left; exists p, (q :: t); auto|]. right. right. exists [], p, q, t. repeat split; try lra. field. lra.
    + destruct (IH q x (inc_tail p _ I)) as [(p' & r & E & HX & HY) | [(p' & r & E & HX & HY) | (u & p' & q' & v & E & HX & HY)]].
      * injection E as <- <-. right. right. exists [], p, q, t. repeat split; try lra. rewrite HY. assert (x = fst q) by lra. subst x. ring.
      * right. left. exists p', (p :: r). rewrite E. auto.
      * right. right. exists (p :: u), p', q', v. rewrite E. auto.
Qed.
Lemma interp_iff : forall l p x y, inc (p :: l) -> (interpolated (p :: l) x y <-> y = interp p l x).
Proof. intros l p x y I. split; [apply interp_one; exact I|intros ->; apply interp_ok; exact I]. Qed.
Lemma interpolated_none : forall x y, ~ interpolated [] x y.
Proof. intros x y [(p & r & E & _) | [(p & r & E & _) | (u & p & q & v & E & _)]]; [discriminate|destruct r; discriminate|destruct u; discriminate]. Qed.
Lemma interpolated_one : forall l x y y', inc l -> interpolated l x y -> interpolated l x y' -> y = y'.
Proof. intros [|p l] x y y' I H H'; [exfalso; exact (interpolated_none x y H)|]. rewrite (interp_one l p x y I H). symmetry. exact (interp_one l p x y' I H'). Qed.
Lemma filter_inc : forall f (l : list (R * R)), inc l -> inc (filter f l).
Proof.
  intros f l. induction l as [|p l IH]; intros H; [constructor|]. cbn [filter]. inversion H as [|? ? T F]; subst. destruct (f p); [|exact (IH T)]. cbn [map]. constructor; [exact (IH T)|].
  rewrite Forall_forall in F. apply Forall_forall. intros y I. apply in_map_iff in I. destruct I as (q & <- & I). apply filter_In in I. apply F. apply in_map. exact (proj1 I).
Qed.
Lemma in_band_iff : forall lo hi p, in_band lo hi p = true <-> lo <= fst p <= hi.
Proof. intros lo hi p. unfold in_band. destruct (Rle_dec (fst p) hi), (Rle_dec lo (fst p)); split; intros H; try discriminate; try reflexivity; try lra. Qed.
Lemma f2_map : forall A B (P : A -> B -> Prop) (f : A -> B), (forall x y, P x y <-> y = f x) -> forall l m, Forall2 P l m <-> m = map f l.
Proof.
  intros A B P f H. induction l as [|x l IH]; intros m; split; intros F.
  - inversion F. reflexivity.
  - subst. constructor.
  - inversion F as [|? ? ? ? X T]; subst. apply H in X. apply IH in T. subst. reflexivity.
  - subst. constructor; [apply H; reflexivity|apply IH; reflexivity].
Qed.
Lemma read_iff : forall spec grid out, increasing (map fst spec) -> (read_cal_spec spec grid = Ok out <-> sampled spec grid out).
Proof.
  intros spec grid out I. unfold sampled, read_cal_spec. destruct grid as [|g l]; [split; [discriminate|intros (? & ? & ? & E & _); discriminate]|].
  set (b := filter (in_band g (last (g :: l) g)) spec). assert (SV : forall m, sieve (fun p => g <= fst p <= last (g :: l) g) spec m <-> m = b) by (intros m; apply sieve_filter; intros p; apply in_band_iff).
  assert (IB : inc b) by (apply filter_inc; exact I). split.
  - intros H. exists g, l, b. split; [reflexivity|]. split; [apply SV; reflexivity|]. destruct b as [|p r]; [discriminate|]. split; [discriminate|]. injection H as <-. apply (f2_map _ _ _ (interp p r)); [|reflexivity]. intros x y. apply interp_iff. exact IB.
  - intros (g' & l' & b' & E & S & N & F). injection E as <- <-. apply SV in S. subst b'. destruct b as [|p r]; [congruence|]. apply (f2_map _ _ _ (interp p r)) in F; [subst; reflexivity|]. intros x y. apply interp_iff. exact IB.
Qed.
Lemma sampled_one : forall spec grid o o', increasing (map fst spec) -> sampled spec grid o -> sampled spec grid o' -> o = o'.
Proof. intros spec grid o o' I H H'. apply read_iff in H; [|exact I]. apply read_iff in H'; [|exact I]. congruence. Qed.
Lemma sampled_length : forall spec grid o, sampled spec grid o -> List.length o = List.length grid /\ grid <> [].
Proof. intros spec grid o (g & l & b & E & _ & _ & F). split; [|rewrite E; discriminate]. symmetry. clear -F. induction F; cbn; congruence. Qed.
Lemma read_fails : forall spec grid e, read_cal_spec spec grid = Raise e <->
  grid = [] /\ e = IndexError \/ (exists g l, grid = g :: l /\ Forall (fun p => ~ (g <= fst p <= last grid g)) spec) /\ e = ValueError.
Proof.
  intros spec grid e. unfold read_cal_spec. destruct grid as [|g l].
  - split; [intros H; injection H as <-; left; auto|intros [(_ & ->) | ((g & l & E & _) & _)]; [reflexivity|discriminate]].
  - destruct (filter (in_band g (last (g :: l) g)) spec) as [|p r] eqn:F.
    + split; [|intros [(E & _) | (_ & ->)]; [discriminate|reflexivity]]. intros H. injection H as <-. right. split; [|reflexivity]. exists g, l. split; [reflexivity|]. apply Forall_forall. intros p I B. apply in_band_iff in B.
      assert (In p (filter (in_band g (last (g :: l) g)) spec)) by (apply filter_In; auto). rewrite F in H. destruct H.
    + split; [discriminate|]. intros [(E & _) | ((g' & l' & E & FA) & _)]; [discriminate|]. injection E as <- <-. assert (J : In p (filter (in_band g (last (g :: l) g)) spec)) by (rewrite F; left; reflexivity). apply filter_In in J. destruct J as (J & B). apply in_band_iff in B. rewrite Forall_forall in FA. exfalso. exact (FA p J B).
Qed.
