(** Start-up: reading of configuration files. *)
From Coq Require Import List Arith Bool ZArith String Ascii Lia Permutation.
From Verif Require Import Base CalDBModel SetupModel SetupSpec.
Import ListNotations.
Local Open Scope list_scope.

Lemma teqb_iff : forall a b, teqb a b = true <-> a = b.
Proof. intros a b. unfold teqb. destruct (list_eq_dec ascii_dec a b); split; congruence. Qed.
Lemma teqb_refl : forall a, teqb a a = true.
Proof. intros a. apply teqb_iff. reflexivity. Qed.
Lemma space_iff : forall c, space c = true <-> blank c.
Proof.
  intros c. unfold space, blank. rewrite orb_true_iff, !andb_true_iff, !Nat.leb_le. cbn [In]. generalize (nat_of_ascii c). intros n. split.
  - intros H. assert (n = 9 \/ n = 10 \/ n = 11 \/ n = 12 \/ n = 13 \/ n = 28 \/ n = 29 \/ n = 30 \/ n = 31 \/ n = 32)%nat by lia. intuition.
  - intros H. repeat (destruct H as [H|H]; [lia|]). destruct H.
Qed.
Lemma space_false : forall c, ~ blank c -> space c = false.
Proof. intros c H. destruct (space c) eqn:E; [apply space_iff in E; contradiction|reflexivity]. Qed.
Lemma lstrip_blanks : forall s t, blanks s -> lstrip (s ++ t) = lstrip t.
Proof. intros s t H. induction H as [|c s B H IH]; [reflexivity|]. cbn [app lstrip]. rewrite (proj2 (space_iff c) B). exact IH. Qed.
Lemma lstrip_id : forall l, (forall c t, l = c :: t -> ~ blank c) -> lstrip l = l.
Proof. intros [|c t] H; [reflexivity|]. cbn [lstrip]. rewrite space_false; [reflexivity|]. apply (H c t). reflexivity. Qed.
Lemma blanks_rev : forall s, blanks s -> blanks (rev s).
Proof. intros s H. apply Forall_rev. exact H. Qed.
Lemma rstrip_blanks : forall t s, blanks s -> rstrip (t ++ s) = rstrip t.
Proof. intros t s H. unfold rstrip. rewrite rev_app_distr, lstrip_blanks by (apply blanks_rev; exact H). reflexivity. Qed.
Lemma rstrip_id : forall l, (forall t c, l = t ++ [c] -> ~ blank c) -> rstrip l = l.
Proof.
  intros l H. unfold rstrip. rewrite lstrip_id; [apply rev_involutive|]. intros c t E. apply (H (rev t) c). rewrite <- (rev_involutive l), E. reflexivity.
Qed.
Lemma trimmed_nil : trimmed [].
Proof. split; [discriminate|]. intros t c E. destruct t; discriminate E. Qed.
Lemma strip_trim : forall a v b, blanks a -> trimmed v -> blanks b -> strip (a ++ v ++ b) = v.
Proof.
  intros a v b A [V1 V2] B. unfold strip. rewrite lstrip_blanks by exact A. destruct v as [|c v].
  - cbn [app]. assert (E : lstrip b = []) by (clear - B; induction B as [|c b X B IH]; [reflexivity|]; cbn [lstrip]; rewrite (proj2 (space_iff c) X); exact IH). rewrite E. reflexivity.
  - rewrite lstrip_id; [|intros x t E; cbn [app] in E; injection E as <- <-; apply (V1 c v); reflexivity]. rewrite rstrip_blanks by exact B. apply rstrip_id. exact V2.
Qed.
Lemma strip_blanks : forall b, blanks b -> strip b = [].
Proof. intros b B. pose proof (strip_trim [] [] b (Forall_nil _) trimmed_nil B) as H. exact H. Qed.
Lemma strip_left : forall l b, (forall c t, l = c :: t -> ~ blank c) -> l <> [] -> blanks b -> strip (l ++ b) = rstrip l.
Proof. intros l b H N B. unfold strip. rewrite lstrip_id; [apply rstrip_blanks; exact B|]. intros c t E. destruct l as [|x l]; [congruence|]. cbn [app] in E. injection E as <- <-. apply (H x l). reflexivity. Qed.
Lemma strip_comment : forall s c t, blanks s -> ~ blank c -> exists u, strip (s ++ c :: t) = c :: u.
Proof.
  intros s c t S0 N. unfold strip. rewrite lstrip_blanks by exact S0. cbn [lstrip]. rewrite space_false by exact N. unfold rstrip. cbn [rev].
  assert (H : forall l, exists u, lstrip (l ++ [c]) = u ++ [c]). { induction l as [|x l (u & IH)]; cbn [app lstrip]; [exists []; rewrite space_false by exact N; reflexivity|]. destruct (space x); [exists u; exact IH|exists (x :: l); reflexivity]. }
  destruct (H (rev t)) as (u & ->). exists (rev u). rewrite rev_app_distr. reflexivity.
Qed.
Lemma break_first : forall p a c t, (forall x, In x a -> p x = false) -> p c = true -> break p (a ++ c :: t) = (a, c :: t).
Proof. intros p a c t H P. induction a as [|x a IH]; cbn [app break]; [rewrite P; reflexivity|]. rewrite (H x (or_introl eq_refl)), IH; [reflexivity|]. intros y Y. apply H. right. exact Y. Qed.
Lemma caseless_lower : forall a b, caseless a b <-> b = lower a.
Proof.
  assert (L : forall c d, (d = c /\ ~ (65 <= nat_of_ascii c <= 90)%nat \/ (65 <= nat_of_ascii c <= 90)%nat /\ nat_of_ascii d = (nat_of_ascii c + 32)%nat) <-> d = lower_char c).
  { intros c d. unfold lower_char. destruct (Nat.leb_spec 65 (nat_of_ascii c)), (Nat.leb_spec (nat_of_ascii c) 90); cbn [andb]; split; intros X; try (left; split; [exact X|lia]); try (destruct X as [[-> _]|[X _]]; [reflexivity|lia]).
    - destruct X as [[-> Y]|[_ Y]]; [lia|]. rewrite <- Y. symmetry. apply ascii_nat_embedding.
    - right. split; [lia|]. subst d. apply nat_ascii_embedding. lia. }
  intros a b. split.
  - intros H. induction H as [|c d a b X H IH]; [reflexivity|]. cbn [lower map]. apply L in X. rewrite X, IH. reflexivity.
  - intros ->. induction a as [|c a IH]; [constructor|]. cbn [lower map]. constructor; [apply L; reflexivity|exact IH].
Qed.
Lemma has_lines_iff : forall t ls, has_lines t ls <-> ls = lines t.
Proof.
  assert (A : forall l, one_line l -> lines l = [l]).
  { intros l H. induction l as [|c l IH]; [reflexivity|]. cbn [lines]. destruct (Ascii.eqb_spec c newline) as [->|N]; [exfalso; apply H; left; reflexivity|]. rewrite IH; [reflexivity|]. intros I. apply H. right. exact I. }
  assert (B : forall l t, one_line l -> lines (l ++ eol :: t) = l :: lines t).
  { intros l t H. induction l as [|c l IH]; cbn [app lines]; [reflexivity|]. destruct (Ascii.eqb_spec c newline) as [->|N]; [exfalso; apply H; left; reflexivity|]. rewrite IH; [reflexivity|]. intros I. apply H. right. exact I. }
  intros t ls. split.
  - intros H. induction H as [l H|l t ls H _ IH]; [symmetry; apply A; exact H|]. rewrite (B l t H), IH. reflexivity.
  - intros ->. assert (Q : forall n t, (List.length t <= n)%nat -> has_lines t (lines t)).
    { clear. induction n as [|n IH]; intros t L; [destruct t; [|cbn in L; lia]; cbn; constructor; intros []|].
      assert (D : one_line t \/ exists l r, t = l ++ eol :: r /\ one_line l).
      { clear. induction t as [|c t IH]; [left; intros []|]. destruct (ascii_dec c eol) as [->|N]; [right; exists [], t; split; [reflexivity|intros []]|]. destruct IH as [IH|(l & r & -> & H)]; [left; intros [E|I]; [congruence|exact (IH I)]|]. right. exists (c :: l), r. split; [reflexivity|]. intros [E|I]; [congruence|exact (H I)]. }
      destruct D as [H|(l & r & -> & H)].
      - assert (A : lines t = [t]). { clear - H. induction t as [|c l IH]; [reflexivity|]. cbn [lines]. destruct (Ascii.eqb_spec c newline) as [->|N]; [exfalso; apply H; left; reflexivity|]. rewrite IH; [reflexivity|]. intros I. apply H. right. exact I. }
        rewrite A. constructor. exact H.
      - assert (B : lines (l ++ eol :: r) = l :: lines r). { clear - H. induction l as [|c l IH]; cbn [app lines]; [reflexivity|]. destruct (Ascii.eqb_spec c newline) as [->|N]; [exfalso; apply H; left; reflexivity|]. rewrite IH; [reflexivity|]. intros I. apply H. right. exact I. }
        rewrite B. constructor; [exact H|]. apply IH. rewrite app_length in L. cbn in L. lia. }
    apply (Q (List.length t)). lia.
Qed.

(** ** One line *)
Lemma not_blank : forall c, In c ["#"; ";"; "["; "="; ":"]%char -> ~ blank c.
Proof. intros c H B. apply space_iff in B. cbn [In] in H. repeat (destruct H as [<-|H]; [discriminate B|]). destruct H. Qed.
Lemma read_skip : forall l r, skipped l -> (forall n o t, p_secs r = (n, o) :: t -> True) -> exists s, read_line l r = Ok (mkreader s (p_open r) (p_indent r)) /\ (s = p_secs r \/ p_open r = true /\ s = append [] (p_secs r)).
Proof.
  intros l r [B|(s & c & t & -> & B & H)] _; unfold read_line.
  - rewrite (strip_blanks l B). cbn [comment]. destruct r as [s op i]. cbn [p_open p_secs p_indent]. destruct op; eexists; split; auto.
  - destruct (strip_comment s c t B) as (u & E); [apply not_blank; cbn; destruct H as [->| ->]; tauto|]. rewrite E. destruct r as [ss op i]. cbn [comment p_secs p_open p_indent]. exists ss. destruct H as [->| ->]; cbn; auto.
Qed.
Lemma read_heads : forall l n r, heads l n -> p_indent r = O -> tlookup n (p_secs r) = None -> read_line l r = Ok (mkreader ((n, []) :: p_secs r) false 0).
Proof.
  intros l n r (s & -> & B & N) I L. unfold read_line. assert (E : strip (tx "[" ++ n ++ tx "]" ++ s) = tx "[" ++ n ++ tx "]").
  { pose proof (strip_trim [] (tx "[" ++ n ++ tx "]") s (Forall_nil _)) as H. cbn [app] in H. replace (tx "[" ++ n ++ tx "]" ++ s) with ((tx "[" ++ n ++ tx "]") ++ s) by (rewrite <- !app_assoc; reflexivity). apply H; [|exact B]. split.
    - intros c t E. cbn in E. injection E as <- _. apply not_blank. cbn. tauto.
    - intros t c E. assert (c = "]"%char). { rewrite app_assoc in E. change (tx "]") with ["]"%char] in E. apply app_inj_tail in E as [_ E]. congruence. } subst c. intros X. apply space_iff in X. discriminate X. }
  rewrite E. cbn [tx list_ascii_of_string app comment Ascii.eqb Bool.eqb orb andb]. change (indent ("["%char :: n ++ "]"%char :: s)) with O. rewrite I. replace (p_open r && (0 <? 0)%nat) with false by (destruct (p_open r); reflexivity).
  unfold section_name. cbn [Ascii.eqb Bool.eqb andb]. rewrite rev_app_distr. cbn [rev app break Ascii.eqb Bool.eqb andb]. destruct (rev n) as [|x y] eqn:R; [exfalso; apply N; rewrite <- (rev_involutive n), R; reflexivity|]. rewrite <- R, rev_involutive, L. reflexivity.
Qed.
Lemma read_assigns : forall l k v r n o t, assigns l k v -> p_indent r = O -> p_secs r = (n, o) :: t -> tlookup k o = None -> read_line l r = Ok (mkreader ((n, (k, [v]) :: o) :: t) true 0).
Proof.
  intros l k v r n o t (k0 & s1 & d & s2 & s3 & -> & D & B1 & B2 & B3 & N & T & TV & C0 & NE & FC) I S0 L. apply caseless_lower in C0. unfold read_line.
  assert (DB : ~ blank d) by (apply not_blank; cbn; destruct D as [->| ->]; tauto).
  assert (K : exists c k1, k0 = c :: k1) by (destruct k0 as [|c k1]; [congruence|eauto]). destruct K as (c & k1 & K). pose proof (proj1 T c k1 K) as CB. destruct (FC c k1 K) as (F1 & F2 & F3).
  assert (ND : forall x, In x (k0 ++ s1) -> delimiter x = false).
  { intros x X. unfold delimiter. apply orb_false_iff. apply in_app_or in X as [X|X].
    - rewrite Forall_forall in NE. destruct (NE x X) as [A B]. split; apply Ascii.eqb_neq; assumption.
    - unfold blanks in B1. rewrite Forall_forall in B1. specialize (B1 x X). split; apply Ascii.eqb_neq; intros ->; revert B1; apply not_blank; cbn; tauto. }
  assert (E : exists b, strip (k0 ++ s1 ++ d :: s2 ++ v ++ s3) = k0 ++ s1 ++ d :: b /\ strip b = v).
  { destruct v as [|x v].
    - exists []. split; [|reflexivity]. replace (k0 ++ s1 ++ d :: s2 ++ [] ++ s3) with ((k0 ++ s1 ++ [d]) ++ (s2 ++ s3)) by (rewrite <- !app_assoc; reflexivity).
      rewrite strip_left; [| |rewrite K; discriminate|apply Forall_app; split; assumption].
      + apply rstrip_id. intros t0 x E. rewrite app_assoc in E. apply app_inj_tail in E as [_ E]. subst x. exact DB.
      + intros x y E. rewrite K in E. cbn [app] in E. injection E as <- _. exact CB.
    - exists (s2 ++ x :: v). split; [|pose proof (strip_trim s2 (x :: v) [] B2 TV (Forall_nil _)) as H; rewrite app_nil_r in H; exact H].
      replace (k0 ++ s1 ++ d :: s2 ++ (x :: v) ++ s3) with ((k0 ++ s1 ++ d :: s2 ++ x :: v) ++ s3) by (rewrite <- !app_assoc; cbn [app]; rewrite <- !app_assoc; reflexivity).
      rewrite strip_left; [| |rewrite K; discriminate|exact B3].
      + apply rstrip_id. intros t0 y E. destruct (exists_last (l := x :: v)) as (v' & z & V); [discriminate|]. rewrite V in E. replace (k0 ++ s1 ++ d :: s2 ++ v' ++ [z]) with ((k0 ++ s1 ++ d :: s2 ++ v') ++ [z]) in E by (rewrite <- !app_assoc; cbn [app]; rewrite <- !app_assoc; reflexivity).
        apply app_inj_tail in E as [_ <-]. apply (proj2 TV v' z). exact V.
      + intros a y E. rewrite K in E. cbn [app] in E. injection E as <- _. exact CB. }
  destruct E as (b & E & SB). rewrite E. assert (CM : comment (k0 ++ s1 ++ d :: b) = false). { rewrite K. cbn [app comment]. apply orb_false_iff. split; apply Ascii.eqb_neq; assumption. }
  rewrite CM. assert (IN : indent (k0 ++ s1 ++ d :: s2 ++ v ++ s3) = O) by (rewrite K; cbn [app indent]; rewrite (space_false c CB); reflexivity). rewrite IN, I.
  replace (p_open r && (0 <? 0)%nat) with false by (destruct (p_open r); reflexivity).
  assert (SN : section_name (k0 ++ s1 ++ d :: b) = None) by (rewrite K; cbn [app section_name]; destruct (Ascii.eqb_spec c "["); [contradiction|reflexivity]).
  assert (BR : break delimiter (k0 ++ s1 ++ d :: b) = (k0 ++ s1, d :: b)) by (rewrite app_assoc; apply break_first; [exact ND|]; unfold delimiter; destruct D as [->| ->]; reflexivity).
  assert (NV : exists a y, k0 ++ s1 ++ d :: b = a :: y) by (rewrite K; cbn [app]; eauto). destruct NV as (a & y & NV). rewrite SN, S0, BR. rewrite NV.
  destruct (k0 ++ s1) as [|a' y'] eqn:KS; [rewrite K in KS; discriminate KS|]. rewrite <- KS. rewrite (rstrip_blanks k0 s1 B1), (rstrip_id k0 (proj2 T)), <- C0, L, SB. reflexivity.
Qed.

(** ** Values *)
Definition vals (o : opts) : list (text * text) := map (fun x => (fst x, rstrip (join (rev (snd x))))) o.
Definition stacked (vs : list text) : Prop := exists m v, vs = repeat (A:=text) [] m ++ [v] /\ trimmed v.
Lemma stacked_value : forall m v, trimmed v -> rstrip (join (rev (repeat (A:=text) [] m ++ [v]))) = v.
Proof.
  intros m v T. rewrite rev_app_distr. cbn [rev app]. assert (E : exists b, join (v :: rev (repeat (A:=text) [] m)) = v ++ b /\ blanks b).
  { assert (R : rev (repeat (A:=text) [] m) = repeat (A:=text) [] m). { clear. induction m as [|m IH]; [reflexivity|]. cbn [repeat rev]. rewrite IH. clear. induction m as [|m IH]; [reflexivity|]. cbn [repeat app]. rewrite IH. reflexivity. }
    rewrite R. assert (J : forall m, blanks (join (repeat (A:=text) [] m))). { clear. induction m as [|m IH]; [constructor|]. cbn [repeat]. destruct m as [|m]; [constructor|]. change (join ([] :: repeat (A:=text) [] (S m))) with (newline :: join (repeat (A:=text) [] (S m))). constructor; [right; left; reflexivity|exact IH]. }
    destruct m as [|m]; [exists []; split; [cbn; rewrite app_nil_r; reflexivity|constructor]|]. exists (newline :: join (repeat (A:=text) [] (S m))). split; [reflexivity|]. constructor; [right; left; reflexivity|apply J]. }
  destruct E as (b & -> & B). rewrite rstrip_blanks by exact B. apply rstrip_id. apply T.
Qed.
Definition good_state (s : list (text * opts)) (op : bool) : Prop := (op = true -> exists n k vs o t, s = (n, (k, vs) :: o) :: t) /\ Forall (fun x => Forall (fun o => stacked (snd o)) (snd x)) s.
Lemma append_vals : forall s, good_state s true -> good_state (append [] s) true /\ finish (append [] s) = finish s.
Proof.
  intros s [H F]. destruct (H eq_refl) as (n & k & vs & o & t & ->). cbn [append]. split.
  - split; [intros _; eauto 10|]. inversion F as [|? ? F1 F2]; subst. constructor; [|exact F2]. cbn [snd] in *. inversion F1 as [|? ? (m & v & E & T) F3]; subst. constructor; [|exact F3]. cbn [snd] in *. exists (S m), v. rewrite E. split; [reflexivity|exact T].
  - inversion F as [|? ? F1 F2]; subst. cbn [snd] in F1. inversion F1 as [|? ? (m & v & E & T) F3]; subst. cbn [snd] in E. subst vs. unfold finish. cbn [map fst snd]. change ([] :: repeat (A:=text) [] m ++ [v]) with (repeat (A:=text) [] (S m) ++ [v]). rewrite !stacked_value by exact T. reflexivity.
Qed.
Lemma finish_keys : forall s, map fst (finish s) = map fst s.
Proof. intros s. unfold finish. rewrite map_map. reflexivity. Qed.
Lemma vals_keys : forall o, map fst (vals o) = map fst o.
Proof. intros o. unfold vals. rewrite map_map. reflexivity. Qed.
Lemma tlookup_none : forall A k (l : list (text * A)), tlookup k l = None <-> ~ In k (map fst l).
Proof.
  intros A k l. induction l as [|[k' v] l IH]; cbn [tlookup map In fst]; [tauto|]. destruct (teqb k k') eqn:E; [apply teqb_iff in E; subst; split; [discriminate|intros H; exfalso; apply H; left; reflexivity]|]. rewrite IH. split; [intros H [->|X]; [rewrite teqb_refl in E; discriminate E|exact (H X)]|tauto].
Qed.
Lemma tlookup_some : forall A k (l : list (text * A)) v, NoDup (map fst l) -> (tlookup k l = Some v <-> In (k, v) l).
Proof.
  intros A k l v ND. induction l as [|[k' w] l IH]; cbn [tlookup In]; [split; [discriminate|intros []]|]. inversion ND as [|? ? N1 N2]; subst. destruct (teqb k k') eqn:E.
  - apply teqb_iff in E. subst k'. split; [intros X; injection X as ->; auto|]. intros [X|X]; [congruence|]. exfalso. apply N1. apply in_map_iff. exists (k, v). auto.
  - rewrite IH by exact N2. split; [auto|]. intros [X|X]; [|exact X]. injection X as -> _. rewrite teqb_refl in E. discriminate E.
Qed.
Lemma read_app : forall a b r, read_lines (a ++ b) r = bind (read_lines a r) (read_lines b).
Proof. induction a as [|x a IH]; intros b r; cbn [app read_lines]; [reflexivity|]. destruct (read_line x r); cbn [bind]; [apply IH|reflexivity]. Qed.
Lemma read_skips : forall ls s op, Forall skipped ls -> good_state s op -> exists s', read_lines ls (mkreader s op 0) = Ok (mkreader s' op 0) /\ good_state s' op /\ finish s' = finish s.
Proof.
  intros ls s op H. revert s. induction H as [|l ls L H IH]; intros s G; [exists s; auto|]. cbn [read_lines]. destruct (read_skip l (mkreader s op 0) L) as (s1 & E & C0); [auto|]. rewrite E. cbn [bind p_open p_secs p_indent] in *.
  destruct C0 as [->|[-> ->]]; [apply IH; exact G|]. destruct (append_vals s G) as [G1 F1]. destruct (IH _ G1) as (s' & A & B & C1). exists s'. rewrite A. split; [reflexivity|]. split; [exact B|]. congruence.
Qed.
Lemma read_body : forall ls os, body ls os -> forall s op n o t, good_state s op -> finish s = (n, o) :: t -> (forall k, In k (map fst os) -> ~ In k (map fst o)) ->
  exists s' op', read_lines ls (mkreader s op 0) = Ok (mkreader s' op' 0) /\ good_state s' op' /\ finish s' = (n, rev os ++ o) :: t.
Proof.
  intros ls os H. induction H as [|l ls os L H IH|l ls k v os L NI H IH]; intros s op n o t G F D.
  - exists s, op. auto.
  - destruct (read_skips [l] s op) as (s1 & E & G1 & F1); [constructor; [exact L|constructor]|exact G|]. cbn [read_lines] in E. cbn [read_lines]. destruct (read_line l (mkreader s op 0)) as [r1|]; [|discriminate E]. cbn [bind] in *. injection E as ->. apply (IH s1 op n o t G1); [congruence|exact D].
  - cbn [read_lines]. destruct s as [|[n' o'] t']; [discriminate F|]. unfold finish in F. cbn [map fst snd] in F. injection F as <- F1 F2. fold (vals o') in F1.
    rewrite (read_assigns l k v (mkreader ((n', o') :: t') op 0) n' o' t' L eq_refl eq_refl); [|apply tlookup_none; rewrite <- vals_keys, F1; apply D; left; reflexivity]. cbn [bind].
    assert (TV : trimmed v) by (destruct L as (k0 & s1 & d & s2 & s3 & _ & _ & _ & _ & _ & _ & _ & TV & _); exact TV).
    destruct (IH ((n', (k, [v]) :: o') :: t') true n' ((k, v) :: o) t) as (s' & op' & E & G' & F').
    + split; [eauto 10|]. destruct G as [_ G]. inversion G as [|? ? GA GB]; subst. constructor; [|exact GB]. cbn [snd] in *. constructor; [exists O, v; split; [reflexivity|exact TV]|exact GA].
    + unfold finish. cbn [map fst snd]. fold (vals o'). rewrite F1. f_equal; [|exact F2]. f_equal. f_equal. f_equal. pose proof (stacked_value 0 v TV) as X. exact X.
    + intros k' I [X|X]; [cbn [fst] in X; subst k'; contradiction|]. apply (D k'); [right; exact I|exact X].
    + exists s', op'. split; [exact E|]. split; [exact G'|]. rewrite F'. cbn [rev]. rewrite <- app_assoc. reflexivity.
Qed.
Definition turned (c : list (text * list (text * text))) : config := rev (map (fun s => (fst s, rev (snd s))) c).
Lemma read_sections : forall ls c, sections ls c -> forall s op, good_state s op -> (forall n, In n (map fst c) -> ~ In n (map fst (finish s))) ->
  exists s' op', read_lines ls (mkreader s op 0) = Ok (mkreader s' op' 0) /\ finish s' = turned c ++ finish s.
Proof.
  intros ls c H. induction H as [|l ls ls' n os c L B H IH NI]; intros s op G D; [exists s, op; auto|]. cbn [read_lines].
  rewrite (read_heads l n (mkreader s op 0) L eq_refl); [|apply tlookup_none; cbn [p_secs]; rewrite <- finish_keys; apply D; left; reflexivity]. cbn [bind p_secs]. rewrite read_app.
  destruct (read_body ls os B ((n, []) :: s) false n [] (finish s)) as (s1 & op1 & E & G1 & F1); [split; [discriminate|]; constructor; [constructor|apply G]|reflexivity|intros k _ []|].
  rewrite E. cbn [bind]. destruct (IH s1 op1 G1) as (s2 & op2 & E2 & F2); [intros k K; rewrite F1; cbn [map fst]; intros [->|X]; [contradiction|apply (D k); [right; exact K|exact X]]|].
  exists s2, op2. split; [exact E2|]. rewrite F2, F1. unfold turned. cbn [map rev fst snd]. rewrite <- app_assoc. cbn [app]. rewrite app_nil_r. reflexivity.
Qed.
Lemma parse_written : forall t c, written t c -> parse t = Ok (turned c).
Proof.
  intros t c (pre & ls & H & P & S0). apply has_lines_iff in H. unfold parse. rewrite <- H, read_app. assert (G0 : good_state [] false) by (split; [discriminate|constructor]).
  destruct (read_skips pre [] false P G0) as (s & E & G & F). rewrite E. cbn [bind]. destruct (read_sections ls c S0 s false G) as (s' & op' & E' & F'); [intros n _; rewrite F; intros []|]. rewrite E'. cbn [bind p_secs]. rewrite F', F, app_nil_r. reflexivity.
Qed.

(** ** Settings *)
Lemma body_keys : forall ls os, body ls os -> NoDup (map fst os).
Proof. intros ls os H. induction H; [constructor|assumption|]. cbn [map fst]. constructor; assumption. Qed.
Lemma sections_keys : forall ls c, sections ls c -> NoDup (map fst c) /\ Forall (fun s => NoDup (map fst (snd s))) c.
Proof. intros ls c H. induction H as [|l ls ls' n os c L B H [IH1 IH2] NI]; [split; constructor|]. split; [cbn [map fst]; constructor; assumption|]. constructor; [exact (body_keys _ _ B)|exact IH2]. Qed.
Lemma written_keys : forall t c, written t c -> NoDup (map fst c) /\ Forall (fun s => NoDup (map fst (snd s))) c.
Proof. intros t c (pre & ls & _ & _ & H). exact (sections_keys _ _ H). Qed.
Lemma nodup_rev : forall A (l : list A), NoDup l -> NoDup (rev l).
Proof. intros A l H. apply (Permutation_NoDup (Permutation_rev l) H). Qed.
Lemma raw_stored : forall c s k v, NoDup (map fst c) -> Forall (fun s => NoDup (map fst (snd s))) c -> (option_raw (turned c) (tx s) (tx k) = Some v <-> stored c s k v).
Proof.
  intros c s k v N F. unfold option_raw, stored. assert (NT : NoDup (map fst (turned c))) by (unfold turned; rewrite map_rev, map_map; apply nodup_rev; exact N). split.
  - destruct (tlookup (tx s) (turned c)) as [o|] eqn:E; [|discriminate]. intros K. apply (tlookup_some _ _ _ _ NT) in E. unfold turned in E. apply in_rev in E. apply in_map_iff in E as ([n os] & E & I). injection E as -> <-. exists os. split; [exact I|].
    rewrite Forall_forall in F. specialize (F _ I). cbn [fst snd] in *. apply tlookup_some in K; [apply in_rev; exact K|]. rewrite map_rev. apply nodup_rev. exact F.
  - intros (os & I & K). assert (E : tlookup (tx s) (turned c) = Some (rev os)). { apply tlookup_some; [exact NT|]. unfold turned. apply -> in_rev. apply in_map_iff. exists (tx s, os). auto. }
    rewrite E. rewrite Forall_forall in F. specialize (F _ I). cbn [snd] in F. apply tlookup_some; [rewrite map_rev; apply nodup_rev; exact F|]. apply -> in_rev. exact K.
Qed.
Lemma expands_iff : forall v u, expands v u <-> expand v = Ok u.
Proof.
  assert (A : forall v u, expands v u -> expand v = Ok u).
  { intros v u H. induction H as [|c l u N H IH|l u H IH]; [reflexivity| |]; cbn [expand]; [destruct (Ascii.eqb_spec c "%"); [contradiction|]; rewrite IH; reflexivity|]. cbn [Ascii.eqb Bool.eqb andb]. rewrite IH. reflexivity. }
  intros v u. split; [apply A|]. assert (Q : forall n v u, (List.length v <= n)%nat -> expand v = Ok u -> expands v u).
  { clear. induction n as [|n IH]; intros v u L E; destruct v as [|c v]; try (cbn in L; lia); [cbn in E; injection E as <-; constructor|cbn in E; injection E as <-; constructor|]. cbn [expand] in E. cbn [List.length] in L. destruct (Ascii.eqb_spec c "%") as [->|N].
    - destruct v as [|d v]; [discriminate E|]. cbn [List.length] in L. destruct (Ascii.eqb_spec d "%") as [->|N]; [|discriminate E]. destruct (expand v) as [r|] eqn:X; [|discriminate E]. cbn in E. injection E as <-. apply expands_percent. apply IH; [lia|exact X].
    - destruct (expand v) as [r|] eqn:X; [|discriminate E]. cbn in E. injection E as <-. constructor; [exact N|]. apply IH; [lia|exact X]. }
  apply (Q (List.length v)). lia.
Qed.
Lemma get_value : forall c s k o, NoDup (map fst c) -> Forall (fun s => NoDup (map fst (snd s))) c -> (get (turned c) (tx s) (tx k) = Ok o <-> value c s k o).
Proof.
  intros c s k o N F. unfold get. destruct (option_raw (turned c) (tx s) (tx k)) as [v|] eqn:E.
  - apply (raw_stored c s k v N F) in E. destruct o as [u|]; cbn [value].
    + split; [destruct (expand v) as [x|] eqn:X; [|discriminate]; cbn; intros Y; injection Y as <-; exists v; split; [exact E|apply expands_iff; exact X]|]. intros (v' & S1 & X). assert (v' = v) by (apply (raw_stored c s k _ N F) in S1; apply (raw_stored c s k _ N F) in E; congruence). subst v'. apply expands_iff in X. rewrite X. reflexivity.
    + split; [destruct (expand v); discriminate|]. intros H. exfalso. exact (H v E).
  - destruct o as [u|]; cbn [value]; split; try discriminate.
    + intros (v & S1 & _). apply (raw_stored c s k _ N F) in S1. congruence.
    + intros _ v S1. apply (raw_stored c s k _ N F) in S1. congruence.
    + intros _. reflexivity.
Qed.
Lemma flag_iff : forall c s k b, NoDup (map fst c) -> Forall (fun s => NoDup (map fst (snd s))) c -> ((exists o, get (turned c) (tx s) (tx k) = Ok o /\ flag_of o = Ok b) <-> flag c s k b).
Proof.
  intros c s k b N F. unfold flag. assert (FO : forall u, flag_of (Some u) = Ok b <-> lower u = tx (if b then "true" else "false")).
  { intros u. unfold flag_of. destruct (teqb (lower u) (tx "true")) eqn:E; [apply teqb_iff in E; rewrite E; destruct b; split; try discriminate; reflexivity|]. destruct (teqb (lower u) (tx "false")) eqn:E2; [apply teqb_iff in E2; rewrite E2; destruct b; split; try discriminate; reflexivity|].
    split; [discriminate|]. intros X. destruct b; rewrite X in *; rewrite teqb_refl in *; discriminate. }
  split.
  - intros (o & G & H). apply (get_value c s k o N F) in G. destruct o as [u|]; [right; exists u; split; [exact G|]; apply caseless_lower; symmetry; apply FO; exact H|]. left. split; [exact G|]. assert (Z : flag_of None = Ok false) by reflexivity. congruence.
  - intros [[G ->]|(u & G & H)].
    + exists None. split; [apply (get_value c s k None N F); exact G|reflexivity].
    + exists (Some u). split; [apply (get_value c s k _ N F); exact G|]. apply FO. apply caseless_lower in H. congruence.
Qed.
Lemma read_settings_iff : forall c s, NoDup (map fst c) -> Forall (fun s => NoDup (map fst (snd s))) c -> (read_settings (turned c) = Ok s <-> settings_are c s).
Proof.
  intros c s N F. unfold settings_are. rewrite <- !(get_value c _ _ _ N F), <- !(flag_iff c _ _ _ N F). unfold read_settings. split.
  - intros H. destruct (get (turned c) (tx "PATH") (tx "caldb")) as [a|]; [|discriminate H]. cbn [bind] in H. destruct (get (turned c) (tx "PATH") (tx "default_calibs")) as [b|]; [|discriminate H]. cbn [bind] in H.
    destruct (get (turned c) (tx "DATA") (tx "track_individual_errors")) as [v1|]; [|discriminate H]. cbn [bind] in H. destruct (flag_of v1) as [x|] eqn:X; [|discriminate H]. cbn [bind] in H.
    destruct (get (turned c) (tx "WALKER") (tx "skip_missing_cal_steps")) as [v2|]; [|discriminate H]. cbn [bind] in H. destruct (flag_of v2) as [y|] eqn:Y; [|discriminate H]. cbn [bind] in H.
    destruct (get (turned c) (tx "WALKER") (tx "jit_calib_id")) as [v3|]; [|discriminate H]. cbn [bind] in H. destruct (flag_of v3) as [z|] eqn:Z; [|discriminate H]. cbn [bind] in H. injection H as <-. cbn [s_caldb s_calibs s_track s_skip s_jit]. split; [reflexivity|]. split; [reflexivity|]. split; [exists v1; auto|]. split; [exists v2; auto|exists v3; auto].
  - intros (A & B & (v1 & C1 & X) & (v2 & C2 & Y) & v3 & C3 & Z). rewrite A, B, C1. cbn [bind]. rewrite X. cbn [bind]. rewrite C2. cbn [bind]. rewrite Y. cbn [bind]. rewrite C3. cbn [bind]. rewrite Z. destruct s. reflexivity.
Qed.
Theorem settings_iff : forall d t c s, d_home d = Folder (Some t) -> written t c -> (update_settings d = ([], d, Ok s) <-> settings_are c s).
Proof.
  intros d t c s H W. destruct (written_keys t c W) as [N F]. rewrite <- (read_settings_iff c s N F). unfold update_settings, mbind, look, lift. rewrite H, (parse_written t c W). cbn [app]. split; [|intros ->; reflexivity]. destruct (read_settings (turned c)) as [x|]; [|discriminate]. intros E. congruence.
Qed.
Theorem settings_absent : forall d s, (d_home d = Absent \/ d_home d = Folder None \/ exists t, d_home d = Legacy t) -> (update_settings d = ([], d, Ok s) <-> s = mksettings None None false false false).
Proof. intros d s H. unfold update_settings, mbind, look, lift. destruct H as [->|[->|(t & ->)]]; cbn; split; intros E; [injection E; auto|subst; reflexivity|injection E; auto|subst; reflexivity|injection E; auto|subst; reflexivity]. Qed.
Theorem settings_only_read : forall d tr d' r, update_settings d = (tr, d', r) -> tr = [] /\ d' = d.
Proof. intros d tr d' r. unfold update_settings, mbind, look, lift. destruct (d_home d) as [|t|[t|]]; cbn; try (destruct (parse t) as [c|e]; cbn); intros E; try (destruct (read_settings _)); injection E as <- <- _; auto. Qed.
