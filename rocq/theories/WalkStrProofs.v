(** Proofs about the string functions of the walker. *)
From Coq Require Import List Arith Bool String Ascii Lia.
From Verif Require Import Base WalkModel WalkSpec.
Import ListNotations.
Local Open Scope string_scope.
Local Open Scope nat_scope.

Lemma app_nil_r : forall s, s ++ "" = s.
Proof. induction s as [|c t IH]; [reflexivity|]. cbn. rewrite IH. reflexivity. Qed.
Lemma app_assoc : forall a b c, (a ++ b) ++ c = a ++ b ++ c.
Proof. induction a as [|x t IH]; intros b c; [reflexivity|]. cbn. rewrite IH. reflexivity. Qed.
Lemma app_inj_l : forall a b c, a ++ b = a ++ c -> b = c.
Proof. induction a as [|x t IH]; intros b c H; [exact H|]. cbn in H. injection H as H. exact (IH _ _ H). Qed.
Lemma length_app : forall a b, String.length (a ++ b) = String.length a + String.length b.
Proof. induction a as [|x t IH]; intros b; [reflexivity|]. cbn. rewrite IH. reflexivity. Qed.
Lemma app_inj_r : forall a b c, a ++ c = b ++ c -> a = b.
Proof.
  induction a as [|x a IH]; intros [|y b] c H; [reflexivity| | |].
  - exfalso. assert (E := f_equal String.length H). cbn in E. rewrite length_app in E. lia.
  - exfalso. assert (E := f_equal String.length H). cbn in E. rewrite length_app in E. lia.
  - cbn in H. injection H as -> H. f_equal. exact (IH _ _ H).
Qed.
Lemma app_split : forall a b c d, a ++ b = c ++ d -> String.length a <= String.length c -> exists m, c = a ++ m /\ b = m ++ d.
Proof.
  induction a as [|x a IH]; intros b c d H L; [exists c; split; [reflexivity|exact H]|]. destruct c as [|y c]; [cbn in L; lia|]. cbn in H. injection H as -> H. cbn in L.
  destruct (IH b c d H) as (m & -> & ->); [lia|]. exists m. split; reflexivity.
Qed.
Lemma app_same_length : forall a b c d, a ++ b = c ++ d -> String.length a = String.length c -> a = c /\ b = d.
Proof.
  intros a b c d H L. destruct (app_split a b c d H) as (m & -> & ->); [lia|]. rewrite length_app in L. destruct m; [rewrite app_nil_r; split; reflexivity|cbn in L; lia].
Qed.
Lemma prefix_iff : forall p s, String.prefix p s = true <-> exists r, s = p ++ r.
Proof.
  induction p as [|c p IH]; intros s; [split; [exists s; reflexivity|destruct s; reflexivity]|]. destruct s as [|d s]; cbn [String.prefix]; [split; [discriminate|intros [r H]; discriminate]|].
  destruct (ascii_dec c d) as [->|N]; [rewrite IH; split; intros [r H]; exists r; cbn in *; congruence|]. split; [discriminate|intros [r H]; cbn in H; congruence].
Qed.
Lemma contains_iff : forall w s, contains w s = true <-> exists a b, s = a ++ w ++ b.
Proof.
  intros w. induction s as [|c s IH]; cbn [contains]; rewrite orb_true_iff, prefix_iff.
  - split; [intros [[r H]|H]; [exists "", r; exact H|discriminate]|]. intros (a & b & H). destruct a; [left; exists b; exact H|discriminate].
  - rewrite IH. split.
    + intros [[r H]|(a & b & H)]; [exists "", r; exact H|exists (String c a), b; cbn; rewrite H; reflexivity].
    + intros (a & b & H). destruct a as [|d a]; [left; exists b; exact H|]. right. cbn in H. injection H as _ H. exists a, b. exact H.
Qed.
Lemma smap_app : forall f a b, smap f (a ++ b) = smap f a ++ smap f b.
Proof. intros f. induction a as [|x t IH]; intros b; [reflexivity|]. cbn. rewrite IH. reflexivity. Qed.
Lemma smap_length : forall f s, String.length (smap f s) = String.length s.
Proof. intros f. induction s as [|x t IH]; [reflexivity|]. cbn. rewrite IH. reflexivity. Qed.
Lemma smap_split : forall f s a b, smap f s = a ++ b -> exists a0 b0, s = a0 ++ b0 /\ smap f a0 = a /\ smap f b0 = b.
Proof.
  intros f s a. revert s. induction a as [|x a IH]; intros s b H; [exists "", s; split; [reflexivity|split; [reflexivity|exact H]]|].
  destruct s as [|c s]; [discriminate|]. cbn in H. injection H as E H. destruct (IH s b H) as (a0 & b0 & -> & <- & <-). exists (String c a0), b0. cbn. rewrite E. split; [reflexivity|split; reflexivity].
Qed.
Lemma mentions_iff : forall w s, contains w (upper s) = true <-> mentions w s.
Proof.
  intros w s. rewrite contains_iff. split.
  - intros (a & b & H). destruct (smap_split _ _ _ _ H) as (a0 & r & -> & <- & Hr). destruct (smap_split _ _ _ _ Hr) as (m & b0 & -> & <- & <-). exists a0, m, b0. split; reflexivity.
  - intros (a & m & b & -> & <-). exists (upper a), (upper b). unfold upper. rewrite !smap_app. reflexivity.
Qed.
Lemma mentions_dec : forall w s, {mentions w s} + {~ mentions w s}.
Proof. intros w s. destruct (contains w (upper s)) eqn:E; [left; apply mentions_iff; exact E|right; intros H; apply mentions_iff in H; congruence]. Qed.
Lemma not_mentions : forall w s, contains w (upper s) = false <-> ~ mentions w s.
Proof. intros w s. rewrite <- mentions_iff. destruct (contains w (upper s)); split; congruence. Qed.

(** the last occurrence *)
Lemma rfind_some : forall w s n, rfind w s = Some n -> exists a b, s = a ++ w ++ b /\ String.length a = n /\ forall a' b', s = a' ++ w ++ b' -> String.length a' <= n.
Proof.
  intros w. induction s as [|c s IH]; intros n H; cbn [rfind] in H.
  - destruct (String.prefix w "") eqn:E; [|discriminate]. injection H as <-. apply prefix_iff in E. destruct E as [r E]. exists "", r. split; [exact E|]. split; [reflexivity|].
    intros a' b' H'. destruct a'; [cbn; lia|discriminate].
  - destruct (rfind w s) as [m|] eqn:Em.
    + injection H as <-. destruct (IH m eq_refl) as (a & b & -> & L & M). exists (String c a), b. split; [reflexivity|]. split; [cbn; lia|]. intros [|d a'] b' H'; [cbn; lia|]. cbn in H'. injection H' as _ H'. cbn. specialize (M a' b' H'). lia.
    + destruct (String.prefix w (String c s)) eqn:E; [|discriminate]. injection H as <-. apply prefix_iff in E. destruct E as [r E]. exists "", r. split; [exact E|]. split; [reflexivity|].
      intros [|d a'] b' H'; [cbn; lia|]. cbn in H'. injection H' as _ H'. exfalso. clear - Em H'. revert Em. subst s. induction a' as [|x a' IHa]; cbn [append].
      * destruct (w ++ b') as [|x r] eqn:Ew; cbn [rfind].
        -- destruct w; [|discriminate]. cbn. discriminate.
        -- intros H. destruct (rfind w r); [discriminate|]. assert (P : String.prefix w (String x r) = true) by (apply prefix_iff; exists b'; symmetry; exact Ew). rewrite P in H. discriminate.
      * cbn [rfind]. destruct (rfind w (a' ++ w ++ b')); [discriminate|]. intros _. exact (IHa eq_refl).
Qed.
Lemma rfind_none : forall w s, rfind w s = None <-> forall a b, s <> a ++ w ++ b.
Proof.
  intros w s. split.
  - intros H a b E. revert s H E. induction a as [|c a IH]; intros s H E; cbn in E.
    + assert (P : String.prefix w s = true) by (apply prefix_iff; exists b; exact E). destruct s as [|c s]; cbn [rfind] in H; rewrite P in H; [discriminate|]. destruct (rfind w s); discriminate.
    + subst s. cbn [rfind] in H. destruct (rfind w (a ++ w ++ b)) eqn:Em; [discriminate|]. exact (IH _ Em eq_refl).
  - intros H. destruct (rfind w s) as [n|] eqn:E; [|reflexivity]. exfalso. destruct (rfind_some w s n E) as (a & b & Es & _). exact (H a b Es).
Qed.
Lemma take_app : forall a b, take (String.length a) (a ++ b) = a.
Proof. induction a as [|x t IH]; intros b; [destruct b; reflexivity|]. cbn. rewrite IH. reflexivity. Qed.

(** strip *)
Lemma under_app : forall a b, all_underscores (a ++ b) = all_underscores a && all_underscores b.
Proof. induction a as [|x t IH]; intros b; [reflexivity|]. cbn. rewrite IH, andb_assoc. reflexivity. Qed.
Lemma lstrip_spec : forall s, exists a, s = a ++ lstrip s /\ all_underscores a = true /\ forall t, lstrip s <> String "_" t.
Proof.
  induction s as [|c s (a & E & U & N)]; [exists ""; repeat split; discriminate|]. cbn [lstrip]. destruct (Ascii.eqb c "_") eqn:Ec.
  - exists (String c a). split; [cbn; rewrite <- E; reflexivity|]. split; [cbn; rewrite Ec; exact U|exact N].
  - exists "". split; [reflexivity|]. split; [reflexivity|]. intros t H. injection H as -> _. discriminate.
Qed.
Lemma rstrip_spec : forall s, exists b, s = rstrip s ++ b /\ all_underscores b = true /\ forall t, rstrip s <> t ++ "_".
Proof.
  induction s as [|c s (b & E & U & N)]; [exists ""; split; [reflexivity|]; split; [reflexivity|]; intros [|x t] H; discriminate|]. cbn [rstrip].
  destruct (rstrip s) as [|d r] eqn:Er.
  - cbn in E. destruct (Ascii.eqb c "_") eqn:Ec.
    + exists (String c s). split; [reflexivity|]. split; [cbn; rewrite Ec, E; exact U|]. intros [|x t] H; discriminate.
    + exists b. split; [cbn; congruence|]. split; [exact U|]. intros [|x t] H; cbn in H; [injection H as ->; discriminate|]. injection H as _ H. destruct t; discriminate.
  - exists b. split; [cbn; cbn in E; congruence|]. split; [exact U|]. intros [|x t] H; cbn in H; [discriminate|]. injection H as _ H. exact (N t H).
Qed.
Lemma strip_stripped : forall s, stripped s (strip s).
Proof.
  intros s. unfold strip. destruct (lstrip_spec s) as (a & E & U & N). destruct (rstrip_spec (lstrip s)) as (b & E' & U' & N'). exists a, b. split; [rewrite <- E'; exact E|]. split; [exact U|]. split; [exact U'|].
  split; [|exact N']. intros t H. destruct (rstrip (lstrip s)) as [|c r] eqn:Er; [discriminate|]. injection H as -> ->. rewrite E' in N. exact (N _ eq_refl).
Qed.
Lemma lstrip_under : forall a s, all_underscores a = true -> lstrip (a ++ s) = lstrip s.
Proof. induction a as [|c a IH]; intros s H; [reflexivity|]. cbn in H. apply andb_true_iff in H. destruct H as [H1 H2]. cbn. rewrite H1. apply IH. exact H2. Qed.
Lemma rstrip_all : forall b, all_underscores b = true -> rstrip b = "".
Proof. induction b as [|c b IH]; intros H; [reflexivity|]. cbn in H. apply andb_true_iff in H. destruct H as [H1 H2]. cbn. rewrite (IH H2), H1. reflexivity. Qed.
Lemma rstrip_under : forall s b, all_underscores b = true -> (forall t, s <> t ++ "_") -> rstrip (s ++ b) = s.
Proof.
  induction s as [|c s IH]; intros b U N; [apply rstrip_all; exact U|]. cbn [append rstrip]. rewrite IH; [|exact U|intros t H; apply (N (String c t)); cbn; rewrite H; reflexivity].
  destruct s as [|d s]; [|reflexivity]. destruct (Ascii.eqb c "_") eqn:E; [|reflexivity]. exfalso. apply Ascii.eqb_eq in E. subst c. exact (N "" eq_refl).
Qed.
Lemma strip_iff : forall s x, stripped s x <-> strip s = x.
Proof.
  intros s x. split; [|intros <-; apply strip_stripped]. intros (a & b & -> & Ua & Ub & Nl & Nr). unfold strip. rewrite (lstrip_under a _ Ua).
  destruct x as [|c x]; [cbn [append]; destruct (lstrip_spec b) as (a' & E & U' & N); assert (X : lstrip b = ""); [|rewrite X; reflexivity]|].
  - rewrite E in Ub. rewrite under_app in Ub. apply andb_true_iff in Ub. destruct Ub as [_ Ub]. destruct (lstrip b) as [|c r]; [reflexivity|]. cbn in Ub. apply andb_true_iff in Ub. destruct Ub as [Ec _]. apply Ascii.eqb_eq in Ec. subst c. exfalso. exact (N r eq_refl).
  - assert (X : lstrip (String c x ++ b) = String c x ++ b). { cbn. destruct (Ascii.eqb c "_") eqn:Ec; [|reflexivity]. apply Ascii.eqb_eq in Ec. subst c. exfalso. exact (Nl x eq_refl). }
    rewrite X. apply rstrip_under; assumption.
Qed.

(** * Names *)
Lemma suffixed_last : forall suffix name a e b x, name = a ++ e ++ b -> fits_ext e -> (forall a' e' b', name = a' ++ e' ++ b' -> fits_ext e' -> String.length a' <= String.length a) -> stripped suffix x ->
  suffixed suffix name = a ++ "_" ++ x ++ ".fits".
Proof.
  intros suffix name a e b x -> Fe M SX. apply strip_iff in SX. unfold suffixed. rewrite SX.
  assert (L : lower (a ++ e ++ b) = lower a ++ ".fits" ++ lower b) by (unfold lower; rewrite !smap_app; unfold fits_ext, lower in Fe; rewrite Fe; reflexivity).
  destruct (rfind ".fits" (lower (a ++ e ++ b))) as [n|] eqn:E.
  - destruct (rfind_some _ _ _ E) as (a1 & b1 & E1 & L1 & M1). assert (La : String.length a = n).
    { assert (X := M1 _ _ L). unfold lower in X. rewrite smap_length in X. destruct (smap_split _ _ _ _ E1) as (a0 & r & Er & Ea & Hr). destruct (smap_split _ _ _ _ Hr) as (e0 & b0 & -> & Ee & _).
      assert (Y := M a0 e0 b0 Er Ee). rewrite <- L1, <- Ea, smap_length in *. lia. }
    rewrite <- La, take_app. reflexivity.
  - exfalso. apply (proj1 (rfind_none _ _) E (lower a) (lower b)). exact L.
Qed.
Lemma fits_length : forall e, fits_ext e -> String.length e = 5.
Proof. intros e H. unfold fits_ext, lower in H. assert (X := f_equal String.length H). rewrite smap_length in X. exact X. Qed.
Lemma suffixed_fits : forall suffix base e x, fits_ext e -> stripped suffix x -> suffixed suffix (base ++ e) = base ++ "_" ++ x ++ ".fits".
Proof.
  intros suffix base e x Fe SX. apply (suffixed_last suffix (base ++ e) base e ""); [rewrite app_nil_r; reflexivity|exact Fe| |exact SX].
  intros a' e' b' H F'. assert (X := f_equal String.length H). rewrite !length_app, (fits_length e Fe), (fits_length e' F') in X. lia.
Qed.
Lemma suffixed_none : forall suffix name x, (forall a e b, name = a ++ e ++ b -> ~ fits_ext e) -> stripped suffix x ->
  suffixed suffix name = take (String.length name - 1) name ++ "_" ++ x ++ ".fits".
Proof.
  intros suffix name x N SX. apply strip_iff in SX. unfold suffixed. rewrite SX. destruct (rfind ".fits" (lower name)) as [n|] eqn:E; [|reflexivity].
  exfalso. destruct (rfind_some _ _ _ E) as (a1 & b1 & E1 & _). destruct (smap_split _ _ _ _ E1) as (a0 & r & -> & _ & Hr). destruct (smap_split _ _ _ _ Hr) as (e0 & b0 & -> & Ee & _). exact (N a0 e0 b0 eq_refl Ee).
Qed.
Lemma suffixed_inj : forall suffix b1 e1 b2 e2, fits_ext e1 -> fits_ext e2 -> (suffixed suffix (b1 ++ e1) = suffixed suffix (b2 ++ e2) <-> b1 = b2).
Proof.
  intros suffix b1 e1 b2 e2 F1 F2. rewrite (suffixed_fits _ _ _ _ F1 (strip_stripped suffix)), (suffixed_fits _ _ _ _ F2 (strip_stripped suffix)). split; [apply app_inj_r|intros ->; reflexivity].
Qed.
Lemma suffixed_strip : forall s s' name x, stripped s x -> stripped s' x -> suffixed s name = suffixed s' name.
Proof. intros s s' name x H H'. apply strip_iff in H, H'. unfold suffixed. rewrite H, H'. reflexivity. Qed.
