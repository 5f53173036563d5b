(** The texts of the products meet their specification. *)
From Coq Require Import List Arith Bool String Ascii ZArith QArith Lia.
From Verif Require Import Base DiskModel DiskSpec DiskProofs ProdModel ProdSpec.
Import ListNotations.
Local Open Scope nat_scope.
Local Open Scope string_scope.
Local Open Scope list_scope.

Lemma len_app : forall a b, String.length (a ++ b) = String.length a + String.length b.
Proof. induction a as [|c a IH]; intros b; [reflexivity|]. cbn. rewrite IH. reflexivity. Qed.
Lemma app_nil_s : forall a, (a ++ "")%string = a.
Proof. induction a as [|c a IH]; [reflexivity|]. cbn. rewrite IH. reflexivity. Qed.
Lemma app_inv_l : forall a b c : string, (a ++ b)%string = (a ++ c)%string -> b = c.
Proof. induction a as [|x a IH]; intros b c H; [exact H|]. cbn in H. injection H as H. exact (IH _ _ H). Qed.
Lemma app_same_len : forall a b c d, (a ++ b)%string = (c ++ d)%string -> String.length a = String.length c -> a = c /\ b = d.
Proof. induction a as [|x a IH]; intros b [|y c] d H L; cbn in *; try discriminate; [auto|]. injection H as -> H. injection L as L. destruct (IH _ _ _ H L) as (-> & ->). auto. Qed.
(** what [eat] finds: words of P at the start *)
Definition eats (P : string -> Prop) (eat : string -> option string) : Prop :=
  (forall s r, eat s = Some r -> exists w, P w /\ s = (w ++ r)%string) /\ (forall w r, P w -> eat (w ++ r)%string = Some r) /\ forall w, P w -> w <> EmptyString.

Lemma eat_lit_iff : forall p s r, eat_lit p s = Some r <-> s = (p ++ r)%string.
Proof.
  induction p as [|a p IH]; intros s r; cbn [eat_lit append]; [split; [intros H; injection H as ->; reflexivity|intros ->; reflexivity]|]. destruct s as [|b s]; [split; discriminate|]. destruct (Ascii.eqb a b) eqn:Q.
  - apply Ascii.eqb_eq in Q. subst b. rewrite IH. split; [intros ->; reflexivity|intros H; injection H as ->; reflexivity].
  - split; [discriminate|]. intros H. injection H as -> _. rewrite Ascii.eqb_refl in Q. discriminate.
Qed.
Lemma eats_lit : forall p, p <> EmptyString -> eats (eq p) (eat_lit p).
Proof. intros p N. split; [intros s r H; apply eat_lit_iff in H; exists p; auto|]. split; [intros w r <-; apply eat_lit_iff; reflexivity|intros w <-; exact N]. Qed.
Lemma digit_iff : forall c, is_digit c = true <-> In c (list_ascii_of_string "0123456789").
Proof.
  intros c. destruct c as [[] [] [] [] [] [] [] []]; cbn; split; intros H; try discriminate; try (repeat (try (left; reflexivity); right); fail); try reflexivity; repeat destruct H as [H|H]; try discriminate; contradiction.
Qed.
Lemma eats_tag : eats tag eat_tag.
Proof.
  split; [|split].
  - intros s r H. destruct s as [|a [|b [|c [|d t]]]]; try discriminate. cbn [eat_tag] in H. destruct (Ascii.eqb a "_") eqn:A; [|discriminate]. destruct (Ascii.eqb b "L") eqn:B; [|discriminate]. destruct (is_digit c) eqn:C; [|discriminate]. destruct (Ascii.eqb d (ascii_of_nat 10)) eqn:D; [discriminate|]. cbn in H. injection H as ->. apply Ascii.eqb_eq in A. apply Ascii.eqb_eq in B. subst. exists (String "_" (String "L" (String c (String d EmptyString)))). split; [|reflexivity]. exists c, d. split; [reflexivity|]. split; [apply digit_iff; exact C|]. intros ->. discriminate.
  - intros w r (d & c & -> & I & N). cbn [append eat_tag]. rewrite !Ascii.eqb_refl, (proj2 (digit_iff d) I). destruct (Ascii.eqb c (ascii_of_nat 10)) eqn:Q; [apply Ascii.eqb_eq in Q; contradiction|]. reflexivity.
  - intros w (d & c & -> & _). discriminate.
Qed.

Section Swap.
Variable P : string -> Prop.
Variable eat : string -> option string.
Hypothesis EAT : eats P eat.

Lemma none_here : forall s, eat s = None -> forall w b, s = (w ++ b)%string -> ~ P w.
Proof using EAT. intros s H w b -> I. destruct EAT as (_ & A & _). rewrite (A w b I) in H. discriminate. Qed.
Lemma occurs_cons : forall c s, occurs P (String c s) <-> eat (String c s) <> None \/ occurs P s.
Proof using EAT.
  intros c s. destruct EAT as (E1 & E2 & E3). split.
  - intros ([|x a] & w & b & H & I).
    + left. cbn in H. rewrite H, (E2 w b I). discriminate.
    + right. cbn in H. injection H as -> H. exists a, w, b. auto.
  - intros [H|(a & w & b & -> & I)].
    + destruct (eat (String c s)) as [r|] eqn:Q; [|contradiction]. destruct (E1 _ _ Q) as (w & I & S). exists EmptyString, w, r. auto.
    + exists (String c a), w, b. auto.
Qed.
Lemma first_here : forall s r, eat s = Some r -> exists w, first_at P s EmptyString w r.
Proof using EAT. intros s r H. destruct EAT as (E1 & _). destruct (E1 _ _ H) as (w & I & ->). exists w. split; [reflexivity|]. split; [exact I|]. intros a' w' b' _ _. cbn. lia. Qed.
Lemma first_later : forall c s a w b, eat (String c s) = None -> (first_at P s a w b <-> first_at P (String c s) (String c a) w b).
Proof using EAT.
  intros c s a w b N. split.
  - intros (-> & I & M). split; [reflexivity|]. split; [exact I|]. intros [|x a'] w' b' H J; [exfalso; cbn in H; exact (none_here _ N w' b' H J)|]. cbn in H. injection H as -> H. cbn. apply le_n_S. exact (M a' w' b' H J).
  - intros (H & I & M). cbn in H. injection H as ->. split; [reflexivity|]. split; [exact I|]. intros a' w' b' H J. assert (Q : String.length (String c a) <= String.length (String c a')) by (apply (M (String c a') w' b'); [cbn; rewrite H; reflexivity|exact J]). cbn in Q. lia.
Qed.
Lemma sub_swapped : forall rep n s, String.length s <= n -> swapped P rep s (sub_fuel eat rep n s).
Proof using EAT.
  intros rep. assert (EM : ~ occurs P EmptyString). { intros (a & w & b & H & I). destruct EAT as (_ & _ & E3). destruct a; [|discriminate]. destruct w; [exact (E3 _ I eq_refl)|discriminate]. }
  induction n as [|n IH]; intros s L.
  - destruct s; [|cbn in L; lia]. apply sw_none. exact EM.
  - cbn [sub_fuel]. destruct (eat s) as [r|] eqn:Q.
    + destruct (first_here _ _ Q) as (w & F). apply (sw_one P rep s EmptyString w r _ F). apply IH. destruct F as (-> & I & _). cbn [append] in *. rewrite len_app in L. assert (String.length w <> 0) by (destruct EAT as (_ & _ & E3); destruct w; [intros _; exact (E3 _ I eq_refl)|discriminate]). lia.
    + destruct s as [|c s]; [apply sw_none; exact EM|]. cbn [String.length] in L. assert (L' : String.length s <= n) by lia. pose proof (IH s L') as S. revert S. generalize (sub_fuel eat rep n s). intros u S. inversion S as [s0 NO Heq1 Heq2|s0 a w b t F SB Heq1 Heq2]; subst.
      * apply sw_none. rewrite occurs_cons. intros [H|H]; [exact (H Q)|]. exact (NO H).
      * change (String c (a ++ rep ++ t)%string) with (String c a ++ rep ++ t)%string. apply (sw_one P rep _ (String c a) w b); [apply first_later; assumption|exact SB].
Qed.
Lemma first_fun : (forall w1 w2 b1 b2, P w1 -> P w2 -> (w1 ++ b1)%string = (w2 ++ b2)%string -> w1 = w2) -> forall s a1 w1 b1 a2 w2 b2, first_at P s a1 w1 b1 -> first_at P s a2 w2 b2 -> a1 = a2 /\ w1 = w2 /\ b1 = b2.
Proof using.
  intros U s a1 w1 b1 a2 w2 b2 (H1 & I1 & M1) (H2 & I2 & M2). assert (L : String.length a1 = String.length a2) by (apply Nat.le_antisymm; [exact (M1 _ _ _ H2 I2)|exact (M2 _ _ _ H1 I1)]). rewrite H1 in H2. destruct (app_same_len _ _ _ _ H2 L) as (-> & Q). pose proof (U _ _ _ _ I1 I2 Q) as <-. apply app_inv_l in Q. auto.
Qed.
Lemma swapped_fun : (forall w1 w2 b1 b2, P w1 -> P w2 -> (w1 ++ b1)%string = (w2 ++ b2)%string -> w1 = w2) -> forall rep s t1, swapped P rep s t1 -> forall t2, swapped P rep s t2 -> t1 = t2.
Proof using.
  intros U rep s t1 S. induction S as [s NO|s a w b t F S IH]; intros t2 S2; inversion S2 as [s0 NO2 X1 X2|s0 a2 w2 b2 u F2 SB X1 X2]; subst.
  - reflexivity.
  - exfalso. destruct F2 as (H & I & _). apply NO. exists a2, w2, b2. auto.
  - exfalso. destruct F as (H & I & _). apply NO2. exists a, w, b. auto.
  - destruct (first_fun U _ _ _ _ _ _ _ F F2) as (-> & _ & ->). rewrite (IH _ SB). reflexivity.
Qed.
End Swap.
Lemma tag_len : forall w1 w2 b1 b2, tag w1 -> tag w2 -> (w1 ++ b1)%string = (w2 ++ b2)%string -> w1 = w2.
Proof. intros w1 w2 b1 b2 (d & c & -> & _) (d2 & c2 & -> & _) H. cbn in H. injection H as -> -> _. reflexivity. Qed.
Lemma eq_len : forall p w1 w2 (b1 b2 : string), p = w1 -> p = w2 -> (w1 ++ b1)%string = (w2 ++ b2)%string -> w1 = w2.
Proof. intros; congruence. Qed.
Theorem sub_tag_iff : forall rep s t, sub_tag rep s = t <-> swapped tag rep s t.
Proof.
  intros rep s t. unfold sub_tag. pose proof (sub_swapped tag eat_tag eats_tag rep _ s (le_n _)) as S. split; [intros <-; exact S|]. intros S2. exact (swapped_fun tag tag_len rep s _ S _ S2).
Qed.
Theorem replace_iff : forall p rep s t, p <> EmptyString -> (replace p rep s = t <-> swapped (eq p) rep s t).
Proof.
  intros p rep s t N. unfold replace. pose proof (sub_swapped (eq p) (eat_lit p) (eats_lit p N) rep _ s (le_n _)) as S. split; [intros <-; exact S|]. intros S2. exact (swapped_fun (eq p) (eq_len p) rep s _ S _ S2).
Qed.
Theorem inside_iff : forall p s, p <> EmptyString -> (inside p s = true <-> occurs (eq p) s).
Proof.
  intros p s N. induction s as [|c s IH]; cbn [inside].
  - destruct (eat_lit p "") as [r|] eqn:Q; [apply eat_lit_iff in Q; destruct p; [contradiction|discriminate]|]. split; [discriminate|]. intros (a & w & b & H & <-). destruct a; [|discriminate]. destruct p; [contradiction|discriminate].
  - rewrite (occurs_cons (eq p) (eat_lit p) (eats_lit p N)). destruct (eat_lit p (String c s)) as [r|]; [split; [intros _; left; discriminate|reflexivity]|]. rewrite IH. split; [tauto|intros [H|H]; [contradiction|exact H]].
Qed.
Theorem before_iff : forall p s a, p <> EmptyString -> (before p s = a <-> upto p s a).
Proof.
  intros p s a N. assert (B : forall s, upto p s (before p s)).
  { clear s a. induction s as [|c s IH]; cbn [before].
    - destruct (eat_lit p "") as [r|] eqn:Q; [apply eat_lit_iff in Q; destruct p; [contradiction|discriminate]|]. right. split; [|reflexivity]. intros (a & w & b & H & <-). destruct a; [|discriminate]. destruct p; [contradiction|discriminate].
    - destruct (eat_lit p (String c s)) as [r|] eqn:Q.
      + left. exists r. destruct (first_here (eq p) _ (eats_lit p N) _ _ Q) as (w & F). destruct F as (H & <- & M). split; [exact H|]. split; [reflexivity|exact M].
      + destruct IH as [(b & F)|(NO & Q2)]; [left; exists b; apply (first_later (eq p) _ (eats_lit p N)); assumption|]. right. split; [|rewrite Q2; reflexivity]. rewrite (occurs_cons (eq p) _ (eats_lit p N)). intros [H|H]; [exact (H Q)|exact (NO H)]. }
  split; [intros <-; apply B|]. intros U. destruct (B s) as [(b & F)|(NO & ->)]; destruct U as [(b2 & F2)|(NO2 & ->)].
  - destruct (first_fun (eq p) (eq_len p) _ _ _ _ _ _ _ F F2) as (-> & _). reflexivity.
  - exfalso. destruct F as (H & _). apply NO2. exists (before p s), p, b. auto.
  - exfalso. destruct F2 as (H & _). apply NO. exists a, p, b2. auto.
  - reflexivity.
Qed.
(** The usual case: one tag *)
Theorem one_tag : forall rep a d c b, In d (list_ascii_of_string "0123456789") -> c <> "010"%char -> ~ occurs tag (a ++ "_L") -> ~ occurs tag b -> swapped tag rep (a ++ String "_" (String "L" (String d (String c b)))) (a ++ rep ++ b).
Proof.
  intros rep a d c b I N NA NB. apply (sw_one tag rep _ a (String "_" (String "L" (String d (String c EmptyString)))) b); [|apply sw_none; exact NB]. split; [reflexivity|]. split; [exists d, c; auto|]. intros a' w' b' H (d' & c' & -> & I' & N'). destruct (le_lt_dec (String.length a) (String.length a')) as [L|L]; [exact L|]. exfalso. cbn [append] in H.
  (* a tag that starts inside a: it ends before the L of the tag, or contains its underscore *)
  assert (W : forall x y u v : string, (x ++ u)%string = (y ++ v)%string -> String.length y < String.length x -> exists z, z <> EmptyString /\ x = (y ++ z)%string /\ v = (z ++ u)%string).
  { clear. intros x y. revert x. induction y as [|e y IH]; intros x u v H L; [exists x; cbn in H; split; [intros ->; cbn in L; lia|]; auto|]. destruct x as [|e2 x]; [cbn in L; lia|]. cbn in H. injection H as -> H. cbn in L. destruct (IH x u v H) as (z & Z & -> & ->); [lia|]. exists z. auto. }
  destruct (W _ _ _ _ H L) as (z & Z & -> & V). destruct z as [|z1 z]; [contradiction|]. cbn in V. injection V as <- V. destruct z as [|z2 z]; [cbn in V; injection V as V1 _; discriminate|]. cbn in V. injection V as <- V. destruct z as [|z3 z].
  - cbn in V. injection V as -> V. cbn in I'. repeat destruct I' as [I'|I']; try discriminate. contradiction.
  - cbn in V. injection V as <- V. apply NA. destruct z as [|z4 z].
    + cbn in V. injection V as -> V. exists a', (String "_" (String "L" (String d' (String "_" EmptyString)))), "L". split; [rewrite app_str_assoc; reflexivity|]. exists d', "_"%char. auto.
    + cbn in V. injection V as <- V. exists a', (String "_" (String "L" (String d' (String c' EmptyString)))), (z ++ "_L")%string. split; [rewrite app_str_assoc; reflexivity|]. exists d', c'. auto.
Qed.
