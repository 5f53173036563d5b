(** The search of stars. *)
From Coq Require Import List Arith Bool Reals ZArith Lra Lia Sorted.
From Verif Require Import Base DqModel SpotModel SpotSearchProofs SortGroupProofs BendModel BendSpec BendFitProofs PeakModel PeakSpec.
Import ListNotations.
Local Open Scope R_scope.

(** The order of the pixels. *)
Lemma sorted_app : forall (l1 l2 : list (nat * nat)), StronglySorted before l1 -> StronglySorted before l2 -> (forall p q, In p l1 -> In q l2 -> before p q) -> StronglySorted before (l1 ++ l2).
Proof.
  induction l1 as [|a l1 IH]; intros l2 S1 S2 H; [assumption|]. inversion S1; subst. cbn [app]. constructor; [apply IH; try assumption; intros p q P Q; apply H; [right|]; assumption|].
  apply Forall_app. split; [assumption|]. apply Forall_forall. intros q Q. apply H; [left; reflexivity|assumption].
Qed.
Lemma sorted_split : forall (l1 : list (nat * nat)) p l2, StronglySorted before (l1 ++ p :: l2) -> (forall q, In q l1 -> before q p) /\ (forall q, In q l2 -> before p q).
Proof.
  induction l1 as [|a l1 IH]; intros p l2 S; cbn [app] in S; inversion S as [|? ? S' F]; subst.
  - split; [intros q []|]. apply Forall_forall. assumption.
  - destruct (IH p l2 S') as (A & B). split; [|assumption]. intros q [<-|Q]; [|apply A; assumption]. rewrite Forall_forall in F. apply F. apply in_or_app. right. left. reflexivity.
Qed.
Lemma row_sorted : forall i m b, StronglySorted before (map (fun j => (i, j)) (seq b m)).
Proof. intros i. induction m as [|m IH]; intros b; [constructor|]. cbn [seq map]. constructor; [apply IH|]. apply Forall_forall. intros q Q. apply in_map_iff in Q. destruct Q as (j & <- & J). apply in_seq in J. right. cbn. lia. Qed.
Lemma cells_sorted : forall n m a, StronglySorted before (list_prod (seq a n) (seq 0 m)).
Proof.
  induction n as [|n IH]; intros m a; [constructor|]. cbn [seq list_prod]. apply sorted_app; [apply row_sorted|apply IH|]. intros p q P Q. apply in_map_iff in P. destruct P as (j & <- & _). destruct q as (i', j'). apply in_prod_iff in Q. destruct Q as (Q & _). apply in_seq in Q. left. cbn. lia.
Qed.
Lemma cells_in : forall im p, In p (cells im) <-> inside im p.
Proof. intros im (i, j). unfold cells, inside. rewrite in_prod_iff, !in_seq. cbn [fst snd]. lia. Qed.
Lemma before_irrefl : forall p q, before p q -> before q p -> False.
Proof. unfold before. intros p q [A|(A & B)] [C|(C & D)]; lia. Qed.

(** The brightest pixel. *)
Lemma nanmax_fold : forall vs a, let m := fold_left (fun m v => match m, v with None, _ => v | _, None => m | Some a, Some b => Some (Rmax a b) end) vs a in
  match m with None => a = None /\ forall v, In v vs -> v = None | Some x => (a = Some x \/ In (Some x) vs) /\ (forall y, a = Some y -> y <= x) /\ (forall u, In (Some u) vs -> u <= x) end.
Proof.
  induction vs as [|v vs IH]; intros a; cbn [fold_left]; cbv zeta.
  - destruct a as [x|]; [split; [left; reflexivity|]; split; [intros y Q; injection Q as ->; lra|intros u []]|split; [reflexivity|intros v []]].
  - specialize (IH (match a, v with None, _ => v | _, None => a | Some a, Some b => Some (Rmax a b) end)). cbv zeta in IH. destruct (fold_left _ vs _) as [x|].
    + destruct IH as (A & B & C). destruct a as [a|], v as [v|].
      * split. { destruct A as [A|A]; [|right; right; assumption]. injection A as A. unfold Rmax in A. destruct (Rle_dec a v); subst; [right; left; reflexivity|left; reflexivity]. }
        assert (Q := B _ eq_refl). pose proof (Rmax_l a v). pose proof (Rmax_r a v). split; [intros y Y; injection Y as <-; lra|]. intros u [U|U]; [injection U as <-; lra|apply C; assumption].
      * split; [destruct A as [A|A]; [left; assumption|right; right; assumption]|]. split; [assumption|]. intros u [U|U]; [discriminate|apply C; assumption].
      * split; [destruct A as [A|A]; [right; left; assumption|right; right; assumption]|]. split; [discriminate|]. intros u [U|U]; [apply B; assumption|apply C; assumption].
      * split; [destruct A as [A|A]; [discriminate|right; right; assumption]|]. split; [discriminate|]. intros u [U|U]; [discriminate|apply C; assumption].
    + destruct IH as (A & B). destruct a, v; try discriminate. split; [reflexivity|]. intros w [<-|W]; [reflexivity|apply B; assumption].
Qed.
Lemma equals_iff : forall a b, equals a b = true <-> exists x, a = Some x /\ b = Some x.
Proof. intros [x|] [y|]; cbn; try (split; [discriminate|intros (u & A & B); discriminate]). destruct (Req_EM_T x y) as [->|N]; split; intros H; try discriminate; eauto. destruct H as (u & A & B). congruence. Qed.
Lemma find_split : forall A (f : A -> bool) l p, find f l = Some p -> exists l1 l2, l = l1 ++ p :: l2 /\ f p = true /\ forall q, In q l1 -> f q = false.
Proof.
  induction l as [|a l IH]; intros p H; [discriminate|]. cbn [find] in H. destruct (f a) eqn:E. { injection H as <-. exists [], l. repeat split; [assumption|intros q []]. }
  destruct (IH p H) as (l1 & l2 & -> & P & Q). exists (a :: l1), l2. repeat split; [assumption|]. intros q [<-|I]; [assumption|apply Q; assumption].
Qed.
Definition top (im : image) (p : nat * nat) : Prop :=
  inside im p /\ exists v, px im (fst p) (snd p) = Some v /\ forall q u, inside im q -> px im (fst q) (snd q) = Some u -> u <= v /\ (before q p -> u < v).
Lemma before_total : forall p q, p = q \/ before p q \/ before q p.
Proof. intros (a, b) (c, d). unfold before. cbn. destruct (lt_eq_lt_dec a c) as [[H|H]|H]; [tauto| |tauto]. destruct (lt_eq_lt_dec b d) as [[K|K]|K]; [right; left; right; auto|left; congruence|right; right; right; auto]. Qed.
Lemma top_unique : forall im p q, top im p -> top im q -> p = q.
Proof.
  intros im p q (P & u & U & A) (Q & v & V & B). destruct (before_total p q) as [E|[H|H]]; [assumption| |]; exfalso.
  - destruct (B p u P U) as (B1 & B2). destruct (A q v Q V) as (A1 & _). specialize (B2 H). lra.
  - destruct (A q v Q V) as (A1 & A2). destruct (B p u P U) as (B1 & _). specialize (A2 H). lra.
Qed.
Lemma brightest_top : forall im p, brightest im = Ok p -> top im p.
Proof.
  intros im p H. unfold brightest in H. destruct (cells im) as [|c cs] eqn:EC; [discriminate|]. rewrite <- EC in H. clear c cs EC. destruct (find _ (cells im)) as [p'|] eqn:E; [|discriminate]. injection H as ->.
  apply find_split in E. destruct E as (l1 & l2 & L & P & N). apply equals_iff in P. destruct P as (v & PV & M). assert (S := cells_sorted (ny im) (nx im) 0). fold (cells im) in S. assert (S' := S). rewrite L in S'. apply sorted_split in S'. destruct S' as (S1 & S2).
  assert (MM := nanmax_fold (map (fun p => px im (fst p) (snd p)) (cells im)) None). cbv zeta in MM. fold (nanmax (map (fun p => px im (fst p) (snd p)) (cells im))) in MM. rewrite M in MM. destruct MM as (_ & _ & MX).
  assert (IP : inside im p) by (apply cells_in; rewrite L; apply in_or_app; right; left; reflexivity). split; [assumption|]. exists v. split; [assumption|]. intros q u Q U. assert (UV : u <= v) by (apply MX; rewrite <- U; apply (in_map (fun p => px im (fst p) (snd p))); apply cells_in; assumption). split; [assumption|].
  intros B. apply cells_in in Q. rewrite L in Q. apply in_app_or in Q. destruct Q as [Q|[Q|Q]].
  - destruct (Req_dec u v) as [E|E]; [|lra]. assert (F := N q Q). cbv beta in F. rewrite M, U, E in F. cbn in F. destruct (Req_EM_T v v); [discriminate|contradiction].
  - subst q. exfalso. apply (before_irrefl p p); assumption.
  - exfalso. apply (before_irrefl p q); [apply S2; assumption|assumption].
Qed.
Lemma brightest_refused : forall im e, brightest im = Raise e <->
  (e = ValueError /\ (ny im = 0%nat \/ nx im = 0%nat)) \/ (e = IndexError /\ (0 < ny im)%nat /\ (0 < nx im)%nat /\ forall p, inside im p -> px im (fst p) (snd p) = None).
Proof.
  intros im e. unfold brightest. destruct (cells im) as [|c cs] eqn:EC.
  - assert (Z : ny im = 0%nat \/ nx im = 0%nat). { destruct (ny im) as [|n] eqn:N; [auto|]. destruct (nx im) as [|m] eqn:M; [auto|]. exfalso. assert (I : In (0%nat, 0%nat) (cells im)) by (apply cells_in; unfold inside; cbn; lia). rewrite EC in I. contradiction. }
    split; [intros H; injection H as <-; auto|]. intros [(-> & _)|(_ & A & B & _)]; [reflexivity|lia].
  - assert (I : inside im c) by (apply cells_in; rewrite EC; left; reflexivity). rewrite <- EC. clear EC cs.
    assert (MM := nanmax_fold (map (fun p => px im (fst p) (snd p)) (cells im)) None). cbv zeta in MM. fold (nanmax (map (fun p => px im (fst p) (snd p)) (cells im))) in MM. destruct (nanmax _) as [m|] eqn:M.
    + destruct MM as ([MM|MM] & _); [discriminate|]. apply in_map_iff in MM. destruct MM as (p & PM & IP). destruct (find _ (cells im)) as [p'|] eqn:E.
      * split; [discriminate|]. intros [(_ & [Z|Z])|(_ & _ & _ & A)]; [destruct I; lia|destruct I; lia|]. rewrite A in PM by (apply cells_in; assumption). discriminate.
      * exfalso. apply (find_none _ _ E) in IP. rewrite PM in IP. cbn in IP. destruct (Req_EM_T m m); [discriminate|contradiction].
    + destruct MM as (_ & A). assert (A' : forall p, inside im p -> px im (fst p) (snd p) = None) by (intros p P; apply A; apply (in_map (fun p => px im (fst p) (snd p))); apply cells_in; assumption).
      destruct (find _ (cells im)) as [p'|] eqn:E; [apply find_some in E; destruct E as (_ & E); apply equals_iff in E; destruct E as (x & _ & E); discriminate|].
      split; [intros H; injection H as <-; right; split; [reflexivity|]; destruct I; split; [lia|]; split; [lia|assumption]|]. intros [(_ & [Z|Z])|(-> & _)]; [destruct I; lia|destruct I; lia|reflexivity].
Qed.
Lemma brightest_iff : forall im p, brightest im = Ok p <-> top im p.
Proof.
  intros im p. split; [apply brightest_top|]. intros T. destruct (brightest im) as [q|e] eqn:E; [f_equal; apply (top_unique im); [apply brightest_top; assumption|assumption]|].
  exfalso. apply brightest_refused in E. destruct T as (I & v & V & _). destruct E as [(_ & [Z|Z])|(_ & _ & _ & A)]; [destruct I; lia|destruct I; lia|]. rewrite (A p I) in V. discriminate.
Qed.

(** The mask. *)
Lemma half_trunc : forall f w, half_width f w -> trunc f = Z.of_nat w /\ (0 <= f \/ w = 0%nat) /\ -1 < f < INR w + 1 /\ (0 <= f -> INR w <= f).
Proof.
  intros f w [(A & B)|(A & ->)]; (split; [apply trunc_iff; unfold toward_zero|]); rewrite <- ?INR_IZR_INZ.
  - left. lra.
  - split; [left; assumption|]. pose proof (pos_INR w). split; [lra|]. intros _. lra.
  - right. cbn. lra.
  - split; [right; reflexivity|]. cbn. lra.
Qed.
Lemma within_iff : forall f w n x i, half_width f w -> (x < n)%nat -> (i < n)%nat -> (within (bounds f n x) i = true <-> (x <= i + w)%nat /\ (i <= x + w)%nat).
Proof.
  intros f w n x i H X I. destruct (half_trunc f w H) as (T & S & B & L). unfold within, bounds. rewrite T. destruct (Rlt_dec (INR x - f) 0) as [A|A]; [|destruct (Rlt_dec (INR n - 1) (INR x + f)) as [C|C]]; cbn [fst snd]; rewrite andb_true_iff, Z.leb_le, Z.ltb_lt.
  - assert (D : (x < w + 1)%nat) by (apply INR_lt; rewrite plus_INR; cbn; lra). lia.
  - assert (D : (n < x + w + 2)%nat) by (apply INR_lt; rewrite !plus_INR; cbn; lra). lia.
  - lia.
Qed.

(** The images left after some sources. *)
Definition leaves (im : image) (w : nat) (ps : list (nat * nat)) (cur : image) : Prop :=
  ny cur = ny im /\ nx cur = nx im /\ forall q, inside im q -> (hidden w ps q -> px cur (fst q) (snd q) = Some 0) /\ (~ hidden w ps q -> px cur (fst q) (snd q) = px im (fst q) (snd q)).
Lemma near_dec : forall w p q, near w p q \/ ~ near w p q.
Proof. intros w p q. unfold near. lia. Qed.
Lemma hidden_dec : forall w ps q, hidden w ps q \/ ~ hidden w ps q.
Proof.
  intros w ps q. induction ps as [|p ps IH]; [right; intros (p & [] & _)|]. destruct (near_dec w p q) as [N|N]; [left; exists p; split; [left; reflexivity|assumption]|]. destruct IH as [(a & A & B)|H]; [left; exists a; split; [right; assumption|assumption]|]. right. intros (a & [<-|A] & B); [contradiction|]. apply H. exists a. auto.
Qed.
Lemma leaves_nil : forall im w, leaves im w [] im.
Proof. intros im w. split; [reflexivity|]. split; [reflexivity|]. intros q _. split; [intros (p & [] & _)|reflexivity]. Qed.
Lemma leaves_shows : forall im w ps cur q v, leaves im w ps cur -> inside im q -> (shows im w ps q v <-> px cur (fst q) (snd q) = Some v).
Proof.
  intros im w ps cur q v (_ & _ & L) I. destruct (L q I) as (A & B). unfold shows. destruct (hidden_dec w ps q) as [H|H].
  - rewrite (A H). split; [intros [(_ & ->)|(N & _)]; [reflexivity|contradiction]|]. intros Q. injection Q as <-. auto.
  - rewrite (B H). tauto.
Qed.
Lemma leaves_top : forall im w ps cur p, leaves im w ps cur -> (top cur p <-> peak im w ps p).
Proof.
  intros im w ps cur p L. assert (IN : forall q, inside cur q <-> inside im q) by (intros q; unfold inside; destruct L as (-> & -> & _); tauto). unfold top, peak. rewrite IN. split; intros (I & v & V & A); (split; [assumption|]); exists v.
  - split; [apply (leaves_shows im w ps cur p v L I); assumption|]. intros q u Q U. apply A; [apply IN; assumption|]. apply (leaves_shows im w ps cur q u L Q). assumption.
  - split; [apply (leaves_shows im w ps cur p v L I); assumption|]. intros q u Q U. apply IN in Q. apply A; [assumption|]. apply (leaves_shows im w ps cur q u L Q). assumption.
Qed.
Lemma leaves_erase : forall im f w ps cur p, half_width f w -> leaves im w ps cur -> inside im p -> leaves im w (ps ++ [p]) (erase f cur p).
Proof.
  intros im f w ps cur p H (NY & NX & L) (P1 & P2). split; [exact NY|]. split; [exact NX|]. intros q (Q1 & Q2). unfold erase. cbn [px].
  assert (E : (within (bounds f (ny cur) (fst p)) (fst q) && within (bounds f (nx cur) (snd p)) (snd q))%bool = true <-> near w p q). { rewrite andb_true_iff, NY, NX, !(within_iff f w) by assumption. unfold near. tauto. }
  assert (HA : hidden w (ps ++ [p]) q <-> hidden w ps q \/ near w p q). { unfold hidden. split; [intros (a & A & B); apply in_app_or in A; destruct A as [A|[<-|[]]]; [left; exists a; auto|auto]|]. intros [(a & A & B)|B]; [exists a|exists p]; (split; [apply in_or_app|assumption]); [left; assumption|right; left; reflexivity]. }
  destruct (L q (conj Q1 Q2)) as (LA & LB). rewrite HA. destruct (_ && _)%bool eqn:W.
  - split; [reflexivity|]. intros N. exfalso. apply N. right. apply E. reflexivity.
  - assert (NN : ~ near w p q) by (rewrite <- E; discriminate). split; [intros [K|K]; [apply LA; assumption|contradiction]|]. intros K. apply LB. intros M. apply K. left. assumption.
Qed.

Lemma same_cell_iff : forall p q, same_cell p q = true <-> p = q.
Proof. intros (a, b) (c, d). unfold same_cell. cbn. rewrite andb_true_iff, !Nat.eqb_eq. split; [intros (-> & ->); reflexivity|intros H; injection H; auto]. Qed.
Definition last_of (ps : list (nat * nat)) : option (nat * nat) := match rev ps with [] => None | p :: _ => Some p end.
Lemma last_of_app : forall ps p, last_of (ps ++ [p]) = Some p.
Proof. intros ps p. unfold last_of. rewrite rev_app_distr. reflexivity. Qed.
Lemma last_of_some : forall ps p, last_of ps = Some p <-> exists ps', ps = ps' ++ [p].
Proof. intros ps p. destruct ps as [|a ps _] using rev_ind; [split; [discriminate|intros ([|b ps'] & Q); discriminate Q]|]. rewrite last_of_app. split; [intros Q; injection Q as ->; eauto|]. intros (ps' & Q). apply app_inj_tail in Q. destruct Q as (_ & ->). reflexivity. Qed.
Lemma stop_iff : forall ps p, (Nat.ltb 2 (List.length ps) && match last_of ps with Some q => same_cell q p | None => false end)%bool = true <-> exists ps', (2 <= List.length ps')%nat /\ ps = ps' ++ [p].
Proof.
  intros ps p. rewrite andb_true_iff, Nat.ltb_lt. split.
  - intros (L & H). destruct (last_of ps) as [q|] eqn:E; [|discriminate]. apply same_cell_iff in H. subst q. apply last_of_some in E. destruct E as (ps' & ->). exists ps'. rewrite app_length in L. cbn in L. split; [lia|reflexivity].
  - intros (ps' & L & ->). rewrite last_of_app, app_length. cbn. split; [lia|]. apply same_cell_iff. reflexivity.
Qed.
Lemma peaks_inv : forall im w n ps L, peaks im w (S n) ps L <->
  (exists ps' p, (2 <= List.length ps')%nat /\ ps = ps' ++ [p] /\ peak im w ps p /\ L = ps) \/ (exists p, peak im w ps p /\ (forall ps', (2 <= List.length ps')%nat -> ps <> ps' ++ [p]) /\ peaks im w n (ps ++ [p]) L).
Proof.
  intros im w n ps L. split.
  - intros P. inversion P; subst; [left|right]; eauto 10.
  - intros [(ps' & p & A & -> & B & ->)|(p & A & B & C)]; [apply peaks_stop; assumption|apply peaks_step with p; assumption].
Qed.
Lemma peaks_nil : forall im w ps L, peaks im w 0 ps L <-> L = ps.
Proof. intros im w ps L. split; [intros P; inversion P; reflexivity|intros ->; constructor]. Qed.
Lemma peaks_app : forall im w n ps L, peaks im w n ps L -> exists l, L = ps ++ l.
Proof. intros im w n ps L P. induction P as [ps|n ps p A B|n ps p l A B P (l' & ->)]; [exists []; rewrite app_nil_r; reflexivity|exists []; rewrite app_nil_r; reflexivity|]. exists (p :: l'). rewrite <- app_assoc. reflexivity. Qed.
Lemma hunt_iff : forall im f w, half_width f w -> forall n ps cur l, leaves im w ps cur ->
  (hunt f n (List.length ps) (last_of ps) cur = Ok l <-> peaks im w n ps (ps ++ l)).
Proof.
  intros im f w H. induction n as [|n IH]; intros ps cur l L.
  - cbn [hunt]. rewrite peaks_nil. split; [intros Q; injection Q as <-; apply app_nil_r|]. intros Q. rewrite <- (app_nil_r ps) in Q at 2. apply app_inv_head in Q. subst. reflexivity.
  - cbn [hunt]. rewrite peaks_inv. destruct (brightest cur) as [p|e] eqn:B; cbn [bind].
    2:{ split; [discriminate|]. intros P. exfalso. assert (X : exists p, peak im w ps p) by (destruct P as [(ps' & p & _ & _ & P & _)|(p & P & _)]; eauto). destruct X as (p & X). apply (leaves_top im w ps cur p L) in X. apply brightest_iff in X. congruence. }
    assert (PK : peak im w ps p) by (apply (leaves_top im w ps cur p L); apply brightest_iff; assumption).
    assert (UQ : forall q, peak im w ps q -> q = p) by (intros q Q; apply (top_unique cur); [apply (leaves_top im w ps cur q L); assumption|apply brightest_iff; assumption]).
    assert (ST := stop_iff ps p). destruct (_ && _)%bool.
    + destruct ST as ((ps' & L2 & E) & _); [reflexivity|]. split.
      * intros Q. injection Q as <-. rewrite app_nil_r. left. exists ps', p. auto.
      * intros [(ps0 & p0 & L0 & E0 & P0 & E1)|(p0 & P0 & N0 & _)]; [|exfalso; rewrite (UQ p0 P0) in N0; exact (N0 ps' L2 E)]. rewrite <- (app_nil_r ps) in E1 at 2. apply app_inv_head in E1. subst. reflexivity.
    + assert (NS : forall ps', (2 <= List.length ps')%nat -> ps <> ps' ++ [p]) by (intros ps' A E; assert (F : false = true) by (apply ST; eauto); discriminate F).
      assert (L' : leaves im w (ps ++ [p]) (erase f cur p)) by (apply leaves_erase; [assumption|assumption|apply PK]).
      assert (IH' := fun l => IH (ps ++ [p]) (erase f cur p) l L'). rewrite app_length, last_of_app in IH'. cbn [List.length] in IH'. rewrite Nat.add_1_r in IH'. split.
      * destruct (hunt f n _ _ _) as [l'|]; cbn [bind]; [|discriminate]. intros Q. injection Q as <-. right. exists p. split; [assumption|]. split; [assumption|]. change (p :: l') with ([p] ++ l'). rewrite app_assoc. apply IH'. reflexivity.
      * intros [(ps0 & p0 & L0 & E0 & P0 & _)|(p0 & P0 & _ & PS)]; [exfalso; rewrite (UQ p0 P0) in E0; exact (NS ps0 L0 E0)|]. rewrite (UQ p0 P0) in PS. destruct (peaks_app _ _ _ _ _ PS) as (l' & E). rewrite <- app_assoc in E. apply app_inv_head in E. subst l. cbn [app]. change (p :: l') with ([p] ++ l') in PS. rewrite app_assoc in PS. apply IH' in PS. rewrite PS. reflexivity.
Qed.
Lemma hunt_raise : forall im f w, half_width f w -> forall n ps cur e, leaves im w ps cur ->
  (hunt f n (List.length ps) (last_of ps) cur = Raise e <-> (0 < n)%nat /\ ((e = ValueError /\ (ny im = 0%nat \/ nx im = 0%nat)) \/ (e = IndexError /\ (0 < ny im)%nat /\ (0 < nx im)%nat /\ forall p, inside im p -> ~ hidden w ps p /\ px im (fst p) (snd p) = None))).
Proof.
  intros im f w H. induction n as [|n IH]; intros ps cur e L; cbn [hunt]; [split; [discriminate|intros (Q & _); lia]|].
  assert (IN : forall q, inside cur q <-> inside im q) by (intros q; unfold inside; destruct L as (-> & -> & _); tauto).
  assert (BR : forall e, brightest cur = Raise e <-> ((e = ValueError /\ (ny im = 0%nat \/ nx im = 0%nat)) \/ (e = IndexError /\ (0 < ny im)%nat /\ (0 < nx im)%nat /\ forall p, inside im p -> ~ hidden w ps p /\ px im (fst p) (snd p) = None))).
  { intros e'. rewrite brightest_refused. destruct L as (-> & -> & L). split; (intros [A|(A & B & C & D)]; [left; assumption|right; split; [assumption|]; split; [assumption|]; split; [assumption|]]); intros p P.
    - destruct (L p P) as (L1 & L2). specialize (D p (proj2 (IN p) P)). destruct (hidden_dec w ps p) as [K|K]; [rewrite (L1 K) in D; discriminate|]. rewrite (L2 K) in D. auto.
    - apply IN in P. destruct (D p P) as (K & E). destruct (L p P) as (_ & L2). rewrite (L2 K). assumption. }
  destruct (brightest cur) as [p|e'] eqn:B; cbn [bind].
  - assert (PK : inside im p) by (apply IN; apply brightest_iff in B; apply B). assert (NB : forall e, ~ Ok p = Raise e) by discriminate.
    split.
    + destruct (_ && _)%bool; [discriminate|]. destruct (hunt f n _ _ _) as [l'|e'] eqn:E; cbn [bind]; [discriminate|]. intros Q. injection Q as ->. exfalso. assert (L' : leaves im w (ps ++ [p]) (erase f cur p)) by (apply leaves_erase; assumption).
      assert (IH' := IH (ps ++ [p]) (erase f cur p) e L'). rewrite app_length, last_of_app in IH'. cbn [List.length] in IH'. rewrite Nat.add_1_r in IH'. apply IH' in E. destruct E as (_ & [(_ & [Z|Z])|(_ & _ & _ & D)]); [destruct PK; lia|destruct PK; lia|]. destruct (D p PK) as (K & _). apply K. exists p. split; [apply in_or_app; right; left; reflexivity|unfold near; lia].
    + intros (_ & Q). apply BR in Q. discriminate Q.
  - split; [intros Q; injection Q as ->; split; [lia|]; apply BR; reflexivity|]. intros (_ & Q). apply BR in Q. congruence.
Qed.
