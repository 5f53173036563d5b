(** Noise maps: the whole function. *)
From Verif Require CtDataProofs.
From Coq Require Import List Arith Bool Reals ZArith Lia Lra Sorting.Sorted String.
From Verif Require Import Base CombineModel CombineSpec CombineProofs ComboSpec ComboProofs DqModel DqProofs GeomModel GeomSpec FlatModel FlatSpec FlatProofs FlatTopProofs NoiseModel NoiseSpec NoiseFitProofs NoiseProofs.
Import ListNotations.
Local Open Scope R_scope.

Section Top.
Variable rg : regions.
Variable tel : Z * option Z.

Lemma f2_map_some : forall A (f : A -> val) l ys, map f l = map Some ys <-> Forall2 (fun a y => f a = Some y) l ys.
Proof.
  intros A f. induction l as [|a l IH]; intros [|y ys]; cbn [map]; split; intros H; try discriminate H; try (inversion H; fail); try constructor; try reflexivity.
  - injection H as H1 H2. exact H1.
  - injection H as H1 H2. apply IH. exact H2.
  - inversion H as [|? ? ? ? H1 H2]; subst. rewrite H1. f_equal. apply IH. exact H2.
Qed.
Lemma means_iff : forall ss r c ys, Forall2 (fun s y => stack_mean tel s r c (Some y)) ss ys <-> map (fun s => mean_pix tel s r c) ss = map Some ys.
Proof.
  intros ss r c ys. rewrite f2_map_some. split; apply CtDataProofs.f2_impl; intros s y H; [symmetry; apply stack_mean_iff; assumption|apply stack_mean_iff; symmetry; assumption].
Qed.
Lemma fitted_iff : forall nr gts ss r c x, det (normal_of gts) <> 0 -> List.length gts = List.length ss -> (3 < List.length gts)%nat -> (fitted tel nr gts ss r c x <-> x = parts tel nr gts ss r c).
Proof.
  intros nr gts ss r c x N L M. unfold fitted, parts, observed. destruct (among (telem tel nr) r) eqn:T.
  - apply telem_iff in T. destruct x as [[q e]|]; [split; [intros [H _]; contradiction|discriminate]|]. split; [reflexivity|intros _; left; exact T].
  - assert (NT : ~ telemetry tel nr r) by (intros H; apply telem_iff in H; congruence). destruct (allsome (map (fun s => mean_pix tel s r c) ss)) eqn:A.
    + apply allsome_iff in A. set (ys := somes (map (fun s => mean_pix tel s r c) ss)) in *. clearbody ys.
      assert (Ly : List.length ys = List.length gts) by (rewrite L, <- (map_length Some ys), <- A; apply map_length).
      assert (S1 : forall e, spread gts ys (fun q => fst (fst q)) e <-> e = sqrt (sigma2 gts ys * (k11 (normal_of gts) / det (normal_of gts)))).
      { intros e. apply (spread_iff gts ys (fun q => fst (fst q)) (k11 (normal_of gts) / det (normal_of gts), k12 (normal_of gts) / det (normal_of gts), k13 (normal_of gts) / det (normal_of gts)) e N Ly M). left. auto. }
      assert (S2 : forall e, spread gts ys (fun q => snd (fst q)) e <-> e = sqrt (sigma2 gts ys * (k22 (normal_of gts) / det (normal_of gts)))).
      { intros e. apply (spread_iff gts ys (fun q => snd (fst q)) (k12 (normal_of gts) / det (normal_of gts), k22 (normal_of gts) / det (normal_of gts), k23 (normal_of gts) / det (normal_of gts)) e N Ly M). right. left. auto. }
      assert (S3 : forall e, spread gts ys (fun q => snd q) e <-> e = sqrt (sigma2 gts ys * (k33 (normal_of gts) / det (normal_of gts)))).
      { intros e. apply (spread_iff gts ys (fun q => snd q) (k13 (normal_of gts) / det (normal_of gts), k23 (normal_of gts) / det (normal_of gts), k33 (normal_of gts) / det (normal_of gts)) e N Ly M). right. right. auto. }
      destruct x as [[q [[e1 e2] e3]]|]; cbn [fst snd].
      * split.
        -- intros (_ & zs & Z & B & E1 & E2 & E3). apply means_iff in Z. assert (zs = ys) as -> by (rewrite <- (somes_map zs), <- Z, A; apply somes_map).
           apply (best_iff gts ys q N Ly) in B. apply S1 in E1. apply S2 in E2. apply S3 in E3. rewrite B, E1, E2, E3. reflexivity.
        -- intros E. assert (Q : (q, (e1, e2, e3)) = (fit gts ys, (sqrt (sigma2 gts ys * (k11 (normal_of gts) / det (normal_of gts))), sqrt (sigma2 gts ys * (k22 (normal_of gts) / det (normal_of gts))), sqrt (sigma2 gts ys * (k33 (normal_of gts) / det (normal_of gts)))))) by congruence. clear E.
           split; [exact NT|]. exists ys. split; [apply means_iff; exact A|]. split; [apply (best_iff gts ys q N Ly); exact (f_equal fst Q)|].
           split; [apply S1; exact (f_equal (fun z => fst (fst (snd z))) Q)|]. split; [apply S2; exact (f_equal (fun z => snd (fst (snd z))) Q)|apply S3; exact (f_equal (fun z => snd (snd z)) Q)].
      * split; [|discriminate]. intros [H|(s & Is & Ms)]; [contradiction|]. exfalso. apply stack_mean_iff in Ms. apply (none_not_map ys). rewrite <- A. apply in_map_iff. exists s. auto.
    + apply allsome_false in A. destruct x as [[q e]|].
      * split; [|discriminate]. intros (_ & zs & Z & _). apply means_iff in Z. rewrite Z in A. destruct (none_not_map _ A).
      * split; [reflexivity|]. intros _. right. apply in_map_iff in A as (s & E & I). exists s. split; [exact I|]. apply stack_mean_iff. symmetry. exact E.
Qed.

Lemma sum_sq_nonneg : forall l, 0 <= fold_right Rplus 0 (map (fun x => x ^ 2) l).
Proof. induction l as [|x l IH]; cbn [map fold_right]; [lra|]. pose proof (pow2_ge_0 x). lra. Qed.
Lemma pooled_iff : forall ss r c v, ss <> [] -> (pooled tel ss r c v <-> v = stacks_err tel ss r c).
Proof.
  intros ss r c v NE. unfold pooled, stacks_err.
  assert (P : 0 < sqrt (INR (List.length ss))) by (apply sqrt_lt_R0, lt_0_INR; destruct ss; [congruence|cbn; lia]).
  destruct (allsome (map (fun s => total_err tel s r c) ss)) eqn:A.
  - apply allsome_iff in A. set (es := somes (map (fun s => total_err tel s r c) ss)) in *. clearbody es.
    assert (F : forall zs, Forall2 (fun s x => stack_err tel s r c (Some x)) ss zs <-> zs = es).
    { intros zs. assert (Q : Forall2 (fun s x => stack_err tel s r c (Some x)) ss zs <-> map (fun s => total_err tel s r c) ss = map Some zs).
      { rewrite f2_map_some. split; apply CtDataProofs.f2_impl; intros s x H; [symmetry; apply stack_err_iff; assumption|apply stack_err_iff; symmetry; assumption]. }
      rewrite Q, A. split; [intros E; rewrite <- (somes_map zs), <- E; apply somes_map|intros ->; reflexivity]. }
    destruct v as [e|].
    + split.
      * intros (E & zs & Z & Q). apply F in Z. subst zs. unfold rsum. f_equal. rewrite <- Q. unfold Rdiv. rewrite Rmult_assoc, Rinv_r, Rmult_1_r by lra. symmetry. apply sqrt_pow2. exact E.
      * intros E. injection E as ->. split; [apply sqrt_pos|]. exists es. split; [apply F; reflexivity|]. unfold rsum. rewrite pow2_sqrt.
        -- unfold Rdiv. rewrite Rmult_assoc, Rinv_l, Rmult_1_r by lra. reflexivity.
        -- apply Rmult_le_pos; [apply sum_sq_nonneg|left; apply Rinv_0_lt_compat; exact P].
    + split; [|discriminate]. intros (s & I & E). apply stack_err_iff in E. exfalso. apply (none_not_map es). rewrite <- A. apply in_map_iff. exists s. auto.
  - apply allsome_false in A. destruct v as [e|].
    + split; [|discriminate]. intros (_ & zs & Z & _). exfalso.
      assert (Q : map (fun s => total_err tel s r c) ss = map Some zs) by (apply f2_map_some; revert Z; apply CtDataProofs.f2_impl; intros s x H; symmetry; apply stack_err_iff; assumption).
      rewrite Q in A. exact (none_not_map _ A).
    + split; [reflexivity|]. intros _. apply in_map_iff in A as (s & E & I). exists s. split; [exact I|]. apply stack_err_iff. symmetry. exact E.
Qed.

(** ** Frames and settings *)
Lemma gain_used_iff : forall f g, gain_used f = Ok g <-> gain_is f g.
Proof.
  intros f g. unfold gain_used, gain_is. destruct (f_measured f) as [m|].
  - split; [intros E; left; congruence|intros [E|[E _]]; congruence].
  - destruct (f_applied f) as [a|].
    + destruct (Rlt_dec 0 a) as [L|L]; split.
      * intros E. right. split; [reflexivity|]. exists a. split; [reflexivity|]. left. split; [exact L|congruence].
      * intros [E|(_ & x & X & [[_ ->]|[N _]])]; [discriminate E|congruence|assert (x = a) by congruence; subst x; lra].
      * intros E. right. split; [reflexivity|]. exists a. split; [reflexivity|]. right. split; [lra|congruence].
      * intros [E|(_ & x & X & [[N _]|[_ ->]])]; [discriminate E|assert (x = a) by congruence; subst x; contradiction|reflexivity].
    + split; [discriminate|]. intros [E|(_ & x & X & _)]; discriminate.
Qed.
Lemma getkey_iff : forall A (o : option A) x, getkey o = Ok x <-> o = Some x.
Proof. intros A [y|] x; cbn [getkey]; split; intros E; congruence. Qed.
Lemma check_frame_iff : forall a si f, lookup "SCI" rg = Some a -> lookup "image" (a_secs a) = Some si -> (check_frame rg tel f = Ok tt <-> readable tel si f).
Proof.
  intros a si f A S0. unfold check_frame, unpack_geom, get_area. rewrite A. cbn [getkey bind]. rewrite S0. cbn [getkey bind]. unfold readable.
  assert (E : forall ps, (forall p, In p ps <-> in_section (rows (f_img f)) (cols (f_img f)) si p) ->
     ((if existsb (fun p => among (telem tel (rows (f_img f))) (fst p) || isnone (pix (f_img f) (fst p) (snd p))) ps then Raise ValueError else Ok tt) = Ok tt <->
      forall p, in_section (rows (f_img f)) (cols (f_img f)) si p -> ~ telemetry tel (rows (f_img f)) (fst p) /\ pix (f_img f) (fst p) (snd p) <> None)).
  { intros ps P. destruct (existsb _ ps) eqn:X.
    - split; [discriminate|]. intros H. exfalso. apply existsb_exists in X as (p & I & X). destruct (H p (proj1 (P p) I)) as [H1 H2]. apply orb_true_iff in X as [X|X]; [apply telem_iff in X; contradiction|].
      destruct (pix (f_img f) (fst p) (snd p)); [discriminate X|congruence].
    - split; [|reflexivity]. intros _ p I. apply P in I. assert (Y : (among (telem tel (rows (f_img f))) (fst p) || isnone (pix (f_img f) (fst p) (snd p))) = false).
      { destruct (_ || _) eqn:Y; [|reflexivity]. assert (Q : existsb (fun p => among (telem tel (rows (f_img f))) (fst p) || isnone (pix (f_img f) (fst p) (snd p))) ps = true) by (apply existsb_exists; exists p; auto). congruence. }
      apply orb_false_iff in Y as [Y1 Y2]. split; [intros T; apply telem_iff in T; congruence|]. intros Z. rewrite Z in Y2. discriminate Y2. }
  destruct (cells (f_img f) si) as [|p0 ps] eqn:C0.
  - split; [discriminate|]. intros [(p & P) _]. apply cells_in in P. rewrite C0 in P. destruct P.
  - rewrite (E (p0 :: ps)). 2:{ intros p. rewrite <- C0. apply cells_in. }
    split; [intros H; split; [exists p0; apply cells_in; rewrite C0; left; reflexivity|exact H]|intros [_ H]; exact H].
Qed.
Lemma mapR_unit : forall A (f : A -> result unit) l, (exists x, mapR f l = Ok x) <-> Forall (fun a => f a = Ok tt) l.
Proof.
  intros A f l. induction l as [|a l IH]; cbn [mapR]; [split; [constructor|exists []; reflexivity]|]. split.
  - intros (x & E). destruct (f a) as [[]|e] eqn:F; [|discriminate E]. cbn [bind] in E. destruct (mapR f l) as [y|e]; [|discriminate E]. constructor; [exact F|]. apply IH. exists y. reflexivity.
  - intros F. inversion F as [|? ? F1 F2]; subst. rewrite F1. cbn [bind]. apply IH in F2 as (y & ->). exists (tt :: y). reflexivity.
Qed.
Definition sized (a : area) (f : frame) : Prop := Z.of_nat (rows (f_img f)) = a_rows a /\ Z.of_nat (cols (f_img f)) = a_cols a.
Lemma gather_iff : forall a si ss prev gs, lookup "SCI" rg = Some a -> lookup "image" (a_secs a) = Some si ->
  (gather rg tel a prev ss = Ok gs <->
   Forall2 (fun s g => exists f t, s = f :: t /\ gain_is f g) ss gs /\ Forall (fun s => Forall (fun f => readable tel si f /\ sized a f) s) ss
   /\ (forall s s', In s ss -> In s' ss -> List.length s = List.length s') /\ (forall n s, prev = Some n -> In s ss -> List.length s = n)).
Proof.
  intros a si ss. induction ss as [|s t IH]; intros prev gs A S0; cbn [gather].
  - split.
    + intros E. injection E as <-. split; [constructor|]. split; [constructor|]. split; [intros s s' []|intros n s _ []].
    + intros (F & _). inversion F. reflexivity.
  - split.
    + intros H. destruct (match prev with Some n => if Nat.eqb n (List.length s) then Ok tt else Raise PyException | None => Ok tt end) as [[]|e] eqn:P; [|discriminate H]. cbn [bind] in H.
      destruct s as [|f s0]; [discriminate H|]. destruct (gain_used f) as [g|e] eqn:G; [|discriminate H]. cbn [bind] in H. destruct (mapR (check_frame rg tel) (f :: s0)) as [u|e] eqn:M; [|discriminate H]. cbn [bind] in H.
      destruct (forallb _ (f :: s0)) eqn:B; [|discriminate H]. destruct (gather rg tel a (Some (List.length (f :: s0))) t) as [l|e] eqn:R0; [|discriminate H]. cbn [bind] in H.
      assert (gs = g :: l) as -> by congruence. apply (IH _ _ A S0) in R0 as (F & Q & Eq & Pv).
      split; [constructor; [exists f, s0; split; [reflexivity|apply gain_used_iff; exact G]|exact F]|]. split; [|split].
      * constructor; [|exact Q]. assert (M' : exists x, mapR (check_frame rg tel) (f :: s0) = Ok x) by (exists u; exact M). apply mapR_unit in M'. apply Forall_forall. intros x X. rewrite Forall_forall in M'. rewrite forallb_forall in B. specialize (B x X).
        apply andb_true_iff in B as [B1 B2]. apply Z.eqb_eq in B1, B2. split; [apply (check_frame_iff a si x A S0); exact (M' x X)|split; assumption].
      * intros x y [<-|X] [<-|Y]; [reflexivity|symmetry; exact (Pv _ y eq_refl Y)|exact (Pv _ x eq_refl X)|exact (Eq x y X Y)].
      * intros n x E X. subst prev. destruct (Nat.eqb_spec n (List.length (f :: s0))) as [E|E]; [|discriminate P]. subst n. destruct X as [<-|X]; [reflexivity|exact (Pv _ x eq_refl X)].
    + intros (F & Q & Eq & Pv). inversion F as [|? g ? l (f & s0 & -> & G) F']; subst. inversion Q as [|? ? Q1 Q2]; subst.
      assert (P : (match prev with Some n => if Nat.eqb n (List.length (f :: s0)) then Ok tt else Raise PyException | None => Ok tt end) = Ok tt).
      { destruct prev as [n|]; [|reflexivity]. rewrite (Pv n (f :: s0) eq_refl (or_introl eq_refl)). rewrite Nat.eqb_refl. reflexivity. }
      rewrite P. cbn [bind]. apply gain_used_iff in G. rewrite G. cbn [bind].
      assert (M : exists x, mapR (check_frame rg tel) (f :: s0) = Ok x). { apply mapR_unit. apply Forall_forall. intros x X. rewrite Forall_forall in Q1. apply (check_frame_iff a si x A S0). exact (proj1 (Q1 x X)). }
      destruct M as (u & ->). cbn [bind].
      assert (B : forallb (fun x => (Z.of_nat (rows (f_img x)) =? a_rows a)%Z && (Z.of_nat (cols (f_img x)) =? a_cols a)%Z) (f :: s0) = true).
      { apply forallb_forall. intros x X. rewrite Forall_forall in Q1. destruct (Q1 x X) as [_ [B1 B2]]. apply andb_true_iff. split; apply Z.eqb_eq; assumption. }
      rewrite B. assert (R0 : gather rg tel a (Some (List.length (f :: s0))) t = Ok l).
      { apply (IH _ _ A S0). split; [exact F'|]. split; [exact Q2|]. split; [intros x y X Y; apply Eq; right; assumption|]. intros n x E X. assert (n = List.length (f :: s0)) as -> by congruence. apply Eq; [right; exact X|left; reflexivity]. }
      rewrite R0. reflexivity.
Qed.

End Top.

Lemma all_equal_false : forall l, all_equal l = false <-> exists x y, In x l /\ In y l /\ x <> y.
Proof.
  intros [|x t]; cbn [all_equal]; [split; [discriminate|intros (x & y & [] & _)]|]. split.
  - intros H. assert (exists y, In y t /\ reqb x y = false) as (y & Y & E). { induction t as [|z t IH]; [discriminate H|]. cbn [forallb] in H. destruct (reqb x z) eqn:Z; [|exists z; split; [left; reflexivity|exact Z]]. destruct (IH H) as (y & Y & E). exists y. split; [right; exact Y|exact E]. }
    exists x, y. split; [left; reflexivity|]. split; [right; exact Y|]. intros ->. assert (reqb y y = true) by (apply reqb_iff; reflexivity). congruence.
  - intros (y & z & Y & Z & N). destruct (forallb (reqb x) t) eqn:F; [|reflexivity]. rewrite forallb_forall in F. exfalso. apply N.
    assert (G : forall w, In w (x :: t) -> w = x) by (intros w [->|W]; [reflexivity|]; specialize (F w W); apply reqb_iff in F; congruence). rewrite (G y Y), (G z Z). reflexivity.
Qed.
Lemma repeated_false : forall l, repeated l = false <-> NoDup l.
Proof.
  induction l as [|[x y] t IH]; cbn [repeated]; [split; [constructor|reflexivity]|]. rewrite orb_false_iff, IH. split.
  - intros [E N]. constructor; [|exact N]. intros I. assert (Q : existsb (fun q => reqb (fst (x, y)) (fst q) && reqb (snd (x, y)) (snd q)) t = true).
    { apply existsb_exists. exists (x, y). split; [exact I|]. apply andb_true_iff. split; apply reqb_iff; reflexivity. }
    congruence.
  - intros N. inversion N as [|? ? N1 N2]; subst. split; [|exact N2]. destruct (existsb _ t) eqn:E; [|reflexivity]. apply existsb_exists in E as ([u v] & I & E). apply andb_true_iff in E as [E1 E2].
    apply reqb_iff in E1, E2. cbn [fst snd] in E1, E2. subst. contradiction.
Qed.
Lemma existsb_false_iff : forall A (p : A -> bool) l, existsb p l = false <-> Forall (fun x => p x = false) l.
Proof. intros A p l. induction l as [|x l IH]; cbn [existsb]; [split; [constructor|reflexivity]|]. rewrite orb_false_iff, IH. split; [intros [A1 A2]; constructor; assumption|intros F; inversion F; auto]. Qed.
Lemma split_combine : forall A B (l : list A) (m : list B), List.length l = List.length m -> map fst (combine l m) = l /\ map snd (combine l m) = m.
Proof. intros A B. induction l as [|x l IH]; intros [|y m] L; try discriminate L; [split; reflexivity|]. injection L as L. destruct (IH m L) as [X Y]. cbn [combine map fst snd]. rewrite X, Y. split; reflexivity. Qed.
Lemma settings_iff : forall gs ts ks, List.length gs = List.length ts -> (settings_bad gs ts ks = false <-> admissible (combine gs ts) ks).
Proof.
  intros gs ts ks L. destruct (split_combine _ _ gs ts L) as [G T]. unfold settings_bad, admissible. rewrite !orb_false_iff, !all_equal_false, repeated_false, !existsb_false_iff.
  assert (X1 : (exists x y, In x gs /\ In y gs /\ x <> y) <-> exists p q, In p (combine gs ts) /\ In q (combine gs ts) /\ fst p <> fst q).
  { split.
    - intros (x & y & X & Y & N). rewrite <- G in X, Y. apply in_map_iff in X as (p & <- & P). apply in_map_iff in Y as (q & <- & Q). exists p, q. auto.
    - intros (p & q & P & Q & N). exists (fst p), (fst q). rewrite <- G at 1 2. split; [apply in_map; exact P|]. split; [apply in_map; exact Q|exact N]. }
  assert (X2 : (exists x y, In x ts /\ In y ts /\ x <> y) <-> exists p q, In p (combine gs ts) /\ In q (combine gs ts) /\ snd p <> snd q).
  { split.
    - intros (x & y & X & Y & N). rewrite <- T in X, Y. apply in_map_iff in X as (p & <- & P). apply in_map_iff in Y as (q & <- & Q). exists p, q. auto.
    - intros (p & q & P & Q & N). exists (snd p), (snd q). rewrite <- T at 1 2. split; [apply in_map; exact P|]. split; [apply in_map; exact Q|exact N]. }
  assert (X3 : Forall (fun g => rltb g 1 = false) gs /\ Forall (fun t => rltb t 0 = false) ts <-> Forall (fun p => 1 <= fst p /\ 0 <= snd p) (combine gs ts)).
  { rewrite !Forall_forall. split.
    - intros [A B] p P. split.
      + apply Rnot_lt_le. intros H. apply rltb_iff in H. rewrite (A (fst p)) in H; [discriminate H|]. rewrite <- G. apply in_map. exact P.
      + apply Rnot_lt_le. intros H. apply rltb_iff in H. rewrite (B (snd p)) in H; [discriminate H|]. rewrite <- T. apply in_map. exact P.
    - intros H. split; intros x X.
      + rewrite <- G in X. apply in_map_iff in X as (p & <- & P). destruct (H p P). destruct (rltb (fst p) 1) eqn:E; [apply rltb_iff in E; lra|reflexivity].
      + rewrite <- T in X. apply in_map_iff in X as (p & <- & P). destruct (H p P). destruct (rltb (snd p) 0) eqn:E; [apply rltb_iff in E; lra|reflexivity]. }
  assert (X4 : Forall (fun k => negb (rltb 0 k) = false) ks <-> Forall (fun k => 0 < k) ks).
  { rewrite !Forall_forall. split; intros H k K; specialize (H k K); [apply negb_false_iff in H; apply rltb_iff; exact H|apply negb_false_iff; apply rltb_iff; exact H]. }
  rewrite X1, X2, X4, <- X3. tauto.
Qed.

Notation prod p := (fst p * snd p).
Lemma least_spec : forall t b, exists l m, b :: t = l ++ least b t :: m /\ Forall (fun x => prod (least b t) < prod x) l /\ Forall (fun x => prod (least b t) <= prod x) m.
Proof.
  induction t as [|p t IH]; intros b; cbn [least]; [exists [], []; repeat split; constructor|]. destruct (Rlt_dec (prod p) (prod b)) as [L|L].
  - destruct (IH p) as (l & m & E & F1 & F2). exists (b :: l), m. split; [cbn [app]; f_equal; exact E|]. split; [|exact F2]. constructor; [|exact F1].
    assert (Q : prod (least p t) <= prod p). { destruct l as [|x l]; cbn [app] in E; injection E as E1 E2; [rewrite <- E1; lra|subst x; inversion F1; subst; lra]. } lra.
  - destruct (IH b) as (l & m & E & F1 & F2). destruct l as [|x l]; cbn [app] in E; injection E as E1 E2.
    + exists [], (p :: t). split; [cbn [app]; rewrite <- E1; reflexivity|]. split; [constructor|]. rewrite <- E1 in *. subst m. constructor; [lra|exact F2].
    + subst x. exists (b :: p :: l), m. split; [cbn [app]; do 2 f_equal; exact E2|]. inversion F1 as [|? ? F3 F4]; subst. split; [|exact F2]. constructor; [exact F3|]. constructor; [lra|exact F4].
Qed.
Lemma least_one : forall l p m l' p' m', l ++ p :: m = l' ++ p' :: m' -> Forall (fun x => prod p < prod x) l -> Forall (fun x => prod p <= prod x) m ->
  Forall (fun x => prod p' < prod x) l' -> Forall (fun x => prod p' <= prod x) m' -> p = p'.
Proof.
  induction l as [|x l IH]; intros p m [|x' l'] p' m' E F1 F2 G1 G2; cbn [app] in E; injection E as E1 E2.
  - exact E1.
  - subst x'. exfalso. inversion G1 as [|? ? G3 G4]; subst. rewrite Forall_forall in F2. specialize (F2 p' (in_elt p' l' m')). lra.
  - subst x. exfalso. inversion F1 as [|? ? F3 F4]; subst. rewrite Forall_forall in G2. specialize (G2 p (in_elt p l m)). lra.
  - subst x'. inversion F1; subst. inversion G1; subst. eapply IH; eassumption.
Qed.
Lemma gain_above_iff : forall gts, no_gain_above gts = false <-> gain_above gts.
Proof.
  intros gts. unfold no_gain_above, gain_above. destruct gts as [|p t]; [split; [discriminate|]; intros (l & p & m & q & E & _); destruct l; discriminate E|].
  destruct (least_spec t p) as (l & m & E & F1 & F2). set (z := least p t) in *. split.
  - intros H. assert (exists q, In q (p :: t) /\ rltb (fst z) (fst q) = true) as (q & Q & L).
    { clearbody z. clear E F1 F2. induction (p :: t) as [|x r IH]; [discriminate H|]. cbn [forallb] in H. destruct (rltb (fst z) (fst x)) eqn:X; [exists x; split; [left; reflexivity|exact X]|].
      destruct (IH H) as (q & Q & L). exists q. split; [right; exact Q|exact L]. }
    exists l, z, m, q. apply rltb_iff in L. auto.
  - intros (l' & p' & m' & q & E' & G1 & G2 & Q & L). assert (z = p') as <- by (eapply least_one; [rewrite <- E; exact E'|..]; assumption).
    destruct (forallb _ (p :: t)) eqn:F; [|reflexivity]. rewrite forallb_forall in F. specialize (F q Q). apply rltb_iff in L. rewrite L in F. discriminate F.
Qed.
