(** Proofs: columns and the whole table. *)
From Coq Require Import List Arith Bool Reals ZArith String Lia Lra.
From Coq Require Import FunctionalExtensionality.
From Verif Require Import Base DqModel DqProofs SortGroupProofs CombineModel ComboSpec ComboProofs FindModel FlatModel FlatSpec CtModel CtSpec CtProofs CropModel NlTabModel NlTabSpec NlTabProofs.
Import ListNotations.
Local Open Scope R_scope.

Lemma each3_len : forall A B C (P : A -> B -> C -> Prop) l m n, each3 P l m n -> List.length l = List.length m.
Proof. intros A B C P l m n H. induction H; cbn; congruence. Qed.
Lemma each3_map2 : forall (f : val -> val -> val) (h : R -> val) ts ys rs, List.length ts = List.length ys -> (each3 (fun t y r => r = f y (h t)) ts ys rs <-> rs = map2 f ys (map h ts)).
Proof.
  intros f h ts. induction ts as [|t ts IH]; intros [|y ys] rs L; try discriminate; cbn [map map2].
  - split; [intros H; inversion H; reflexivity|intros ->; constructor].
  - split; [intros H; inversion H as [|a b c l m n E H']; subst; f_equal; apply IH; [injection L as L; assumption|assumption]|intros ->; constructor; [reflexivity|]; apply IH; [injection L as L; assumption|reflexivity]].
Qed.
Lemma line_eq : forall p t, line p t = on_line p t.
Proof. intros p t. unfold line, on_line. rewrite prod_vmul. reflexivity. Qed.
Lemma rel_eq : forall y z, rel_err y z = option_map Rabs (quot (minus y z) y).
Proof. intros y z. unfold rel_err. rewrite quot_vdiv. reflexivity. Qed.
Lemma misfit_iff : forall ts ys p e, List.length ts = List.length ys -> (misfit ts ys p e <-> e = rms (map2 rel_err ys (map (line p) ts))).
Proof.
  intros ts ys p e L. unfold misfit, rms.
  assert (X : forall rs, each3 (fun t y r => r = option_map Rabs (quot (minus y (on_line p t)) y)) ts ys rs <-> rs = map2 rel_err ys (map (line p) ts)).
  { intros rs. rewrite <- (each3_map2 rel_err (line p)) by assumption. split; intros H; clear L; (induction H as [|a b c l m n E H IH]; constructor; [|assumption]); [rewrite rel_eq, line_eq; assumption|rewrite rel_eq, line_eq in E; assumption]. }
  split.
  - intros (rs & s & E & A & ->). apply X in E. subst rs. apply average_iff in A. subst s. reflexivity.
  - intros ->. eexists. eexists. split; [apply X; reflexivity|]. split; [apply average_iff; reflexivity|]. reflexivity.
Qed.
Lemma place_iff : forall n k i, (0 <= n)%Z -> (place_in n k i <-> i = Z.max 0 (Z.min n (if (k <? 0)%Z then k + n else k)))%Z.
Proof. intros n k i N. unfold place_in. destruct (Z.ltb_spec k 0); lia. Qed.
Lemma segment_iff : forall A i j (l m : list A), segment i j l m <-> m = slice i j l.
Proof.
  intros A i j l m. unfold segment, slice. set (n := Z.of_nat (List.length l)). assert (N : (0 <= n)%Z) by (unfold n; lia). cbv zeta.
  assert (BA : forall k x, place_in n k x -> (0 <= x <= n)%Z) by (intros k x P; apply (place_iff n k x N) in P; lia). split.
  - intros (a & b & PA & PB & H). pose proof (BA _ _ PA). pose proof (BA _ _ PB). apply (place_iff n i a N) in PA. apply (place_iff n j b N) in PB. rewrite <- PA, <- PB. destruct H as [(L & ->)|(L & u & w & E & LU & LM)].
    + replace (Z.to_nat (b - a)) with 0%nat by lia. reflexivity.
    + rewrite E. rewrite skipn_app, skipn_all2 by lia. replace (Z.to_nat a - List.length u)%nat with 0%nat by lia. cbn [skipn app]. rewrite firstn_app. replace (Z.to_nat (b - a) - List.length m)%nat with 0%nat by lia. cbn [firstn]. rewrite app_nil_r, firstn_all2 by lia. reflexivity.
  - intros ->. exists (Z.max 0 (Z.min n (if (i <? 0)%Z then i + n else i)))%Z, (Z.max 0 (Z.min n (if (j <? 0)%Z then j + n else j)))%Z; (split; [apply place_iff; [assumption|reflexivity]|]); (split; [apply place_iff; [assumption|reflexivity]|]).
    all: set (a := Z.max 0 (Z.min n (if (i <? 0)%Z then i + n else i))%Z) in *; set (b := Z.max 0 (Z.min n (if (j <? 0)%Z then j + n else j))%Z) in *; assert (0 <= a <= n)%Z by (unfold a; lia); assert (0 <= b <= n)%Z by (unfold b; lia); destruct (Z.le_gt_cases b a) as [L|L]; [left; split; [assumption|]; replace (Z.to_nat (b - a)) with 0%nat by lia; reflexivity|right; split; [assumption|]].
    all: exists (firstn (Z.to_nat a) l), (skipn (Z.to_nat (b - a)) (skipn (Z.to_nat a) l)); split; [rewrite firstn_skipn, firstn_skipn; reflexivity|]; split; [rewrite firstn_length; lia|rewrite firstn_length, skipn_length; lia].
Qed.
Lemma grid_in : forall z, existsb (Z.eqb z) grid = true <-> gridded z.
Proof.
  intros z. rewrite existsb_exists. unfold grid, gridded. split.
  - intros (c & I & E). apply Z.eqb_eq in E. subst c. apply in_map_iff in I. destruct I as (k & <- & I). apply in_seq in I. exists (Z.of_nat k + 1)%Z. split; [lia|reflexivity].
  - intros (k & K & ->). exists (20 * k)%Z. split; [|apply Z.eqb_eq; reflexivity]. apply in_map_iff. exists (Z.to_nat (k - 1)). split; [lia|]. apply in_seq. lia.
Qed.
Lemma grid_or : forall z, {existsb (Z.eqb z) grid = true /\ gridded z} + {existsb (Z.eqb z) grid = false /\ ~ gridded z}.
Proof. intros z. destruct (existsb (Z.eqb z) grid) eqn:E; [left; split; [reflexivity|apply grid_in; assumption]|right; split; [reflexivity|]]. intros G. apply grid_in in G. congruence. Qed.

Section Col.
  Variable fit : list R -> list val -> result (val * val).
  Variable lowess : num -> list val -> list val -> result (list val).
  Variable interp : list val -> list val -> result (R -> val).
  (** What the second fit does *)
  Lemma cutting_one : forall o e, errors_ok o -> { c | cutting_of o e c /\ (forall c', cutting_of o e c' -> c' = c) /\
    second_fit fit o e = fun ts ys => match c with Whole => fit ts ys | First => do t <- cut_of (n_lo1 o) (n_up1 o) ts; do y <- cut_of (n_lo1 o) (n_up1 o) ys; fit t y
       | Second => do t <- cut_of (n_lo2 o) (n_up2 o) ts; do y <- cut_of (n_lo2 o) (n_up2 o) ys; fit t y end }.
  Proof using.
    intros o e (A & B). apply notneg_num, as_worth in A. apply notneg_num, as_worth in B. unfold second_fit.
    assert (U : forall c', cutting_of o e c' -> match c' with Whole => less e (worth (n_low o)) | First => atmost (worth (n_low o)) e /\ less e (worth (n_upp o)) | Second => ~ less e (worth (n_low o)) /\ ~ (atmost (worth (n_low o)) e /\ less e (worth (n_upp o))) end) by (intros c' (a & b & CA & CB & H); rewrite (worth_as _ _ CA), (worth_as _ _ CB); exact H).
    assert (X : forall a, less e a -> atmost a e -> False) by (intros a (x & y & E1 & E2 & L) (p & q & E3 & E4 & L'); rewrite E1 in E4; rewrite E2 in E3; injection E3 as ->; injection E4 as ->; lra).
    destruct (under e (worth (n_low o))) eqn:E1.
    - apply under_iff in E1. exists Whole. split; [exists (worth (n_low o)), (worth (n_upp o)); auto|]. split; [|reflexivity]. intros [| |] C; apply U in C; [reflexivity|destruct (X _ E1 (proj1 C))|destruct (proj1 C E1)].
    - apply under_no in E1. destruct (upto (worth (n_low o)) e && under e (worth (n_upp o))) eqn:E2.
      + apply andb_true_iff in E2. rewrite upto_iff, under_iff in E2. exists First. split; [exists (worth (n_low o)), (worth (n_upp o)); auto|]. split; [|reflexivity]. intros [| |] C; apply U in C; [contradiction|reflexivity|destruct (proj2 C E2)].
      + assert (E3 : ~ (atmost (worth (n_low o)) e /\ less e (worth (n_upp o)))) by (rewrite <- upto_iff, <- under_iff, <- andb_true_iff; congruence). exists Second. split; [exists (worth (n_low o)), (worth (n_upp o)); auto|]. split; [|reflexivity]. intros [| |] C; apply U in C; [contradiction|contradiction|reflexivity].
  Qed.
  Lemma cut_iff : forall a b X (l m : list X), cut_of a b l = Ok m <-> exists i j, a = NInt i /\ b = NInt j /\ segment i j l m.
  Proof using.
    intros a b X l m. unfold cut_of. destruct a as [i|v|], b as [j|w|]; try (split; [discriminate|intros (p & q & A & B & _); discriminate]). split.
    - intros Q. injection Q as <-. exists i, j. split; [reflexivity|]. split; [reflexivity|]. apply segment_iff. reflexivity.
    - intros (p & q & A & B & S). injection A as ->. injection B as ->. apply segment_iff in S. subst. reflexivity.
  Qed.
  Lemma cut_or : forall a b, (exists i j, a = NInt i /\ b = NInt j) \/ ((forall X (l : list X), cut_of a b l = Raise TypeError) /\ ~ exists i j, a = NInt i /\ b = NInt j).
  Proof using. intros [i|v|] [j|w|]; try (right; split; [reflexivity|intros (p & q & A & B); discriminate]). left. eauto. Qed.
  Lemma cut_one : forall o c X (l m m' : list X), cut_by o c l m -> cut_by o c l m' -> m' = m.
  Proof using.
    intros o [| |] X l m m' A B; cbn [cut_by] in *; [congruence| |]; destruct A as (i & j & I1 & J1 & S1), B as (i' & j' & I2 & J2 & S2); rewrite I1 in I2; rewrite J1 in J2; injection I2 as <-; injection J2 as <-; apply segment_iff in S1; apply segment_iff in S2; congruence.
  Qed.
  (** The second fit, case by case *)
  Lemma second_cases : forall o e ts ys, errors_ok o -> exists c, cutting_of o e c /\ (forall c', cutting_of o e c' -> c' = c) /\
    ((uncut o c /\ second_fit fit o e ts ys = Raise TypeError) \/ (~ uncut o c /\ exists ts' ys', cut_by o c ts ts' /\ cut_by o c ys ys' /\ second_fit fit o e ts ys = fit ts' ys')).
  Proof using.
    intros o e ts ys E. destruct (cutting_one o e E) as (c & C & U & ->). exists c. split; [assumption|]. split; [assumption|]. destruct c; cbn [uncut cut_by].
    - right. split; [intros []|]. exists ts, ys. auto.
    - destruct (cut_or (n_lo1 o) (n_up1 o)) as [(i & j & A & B)|(H & N)].
      + right. split; [intros N; apply N; eauto|]. rewrite A, B. cbn [cut_of bind]. exists (slice i j ts), (slice i j ys). split; [exists i, j; repeat split; apply segment_iff; reflexivity|]. split; [exists i, j; repeat split; apply segment_iff; reflexivity|reflexivity].
      + left. split; [assumption|]. rewrite H. reflexivity.
    - destruct (cut_or (n_lo2 o) (n_up2 o)) as [(i & j & A & B)|(H & N)].
      + right. split; [intros N; apply N; eauto|]. rewrite A, B. cbn [cut_of bind]. exists (slice i j ts), (slice i j ys). split; [exists i, j; repeat split; apply segment_iff; reflexivity|]. split; [exists i, j; repeat split; apply segment_iff; reflexivity|reflexivity].
      + left. split; [assumption|]. rewrite H. reflexivity.
  Qed.
  Lemma uncut_not : forall o c X (l m : list X), uncut o c -> cut_by o c l m -> False.
  Proof using. intros o [| |] X l m U C; cbn [uncut cut_by] in *; [assumption| |]; destruct C as (i & j & A & B & _); apply U; eauto. Qed.
  (** What comes after the first fit *)
  Lemma refit_iff : forall o ts ys p r, errors_ok o -> List.length ts = List.length ys -> fit ts ys = Ok p ->
    (refitted fit o ts ys r <-> second_fit fit o (rms (map2 rel_err ys (map (line p) ts))) ts ys = r /\ exists c, cutting_of o (rms (map2 rel_err ys (map (line p) ts))) c /\ ~ uncut o c).
  Proof using.
    intros o ts ys p r E L F. set (e := rms (map2 rel_err ys (map (line p) ts))). destruct (second_cases o e ts ys E) as (c & C & U & H). split.
    - intros (p' & e' & c' & ts' & ys' & F' & M & C' & CT & CY & ->). rewrite F in F'. injection F' as <-. apply (misfit_iff ts ys p e' L) in M. fold e in M. subst e'. apply U in C'. subst c'. destruct H as [(UC & _)|(NU & ts2 & ys2 & CT2 & CY2 & ->)]; [destruct (uncut_not _ _ _ _ _ UC CT)|]. rewrite (cut_one _ _ _ _ _ _ CT CT2), (cut_one _ _ _ _ _ _ CY CY2). split; [reflexivity|]. exists c. auto.
    - intros (Q & c' & C' & NU). apply U in C'. subst c'. destruct H as [(UC & _)|(_ & ts2 & ys2 & CT2 & CY2 & EQ)]; [contradiction|]. exists p, e, c, ts2, ys2. split; [assumption|]. split; [apply misfit_iff; [assumption|reflexivity]|]. split; [assumption|]. split; [assumption|]. split; [assumption|]. congruence.
  Qed.
  Lemma gains_map : forall p ts ys gs, List.length ts = List.length ys -> (each3 (fun t y g => g = quot y (on_line p t)) ts ys gs <-> gs = map2 vdiv ys (map (line p) ts)).
  Proof using.
    intros p ts ys gs L. rewrite <- (each3_map2 vdiv (line p)) by assumption. split; intros H; clear L; (induction H as [|a b c l m n E H IH]; constructor; [|assumption]); [rewrite quot_vdiv, line_eq; assumption|rewrite quot_vdiv, line_eq in E; assumption].
  Qed.
  Lemma smooth_iff : forall o ts ys p r, errors_ok o -> List.length ts = List.length ys -> refitted fit o ts ys (Ok p) -> (smoothed fit lowess o ts ys r <-> r = lowess (n_frac o) (map2 vdiv ys (map (line p) ts)) ys).
  Proof using.
    intros o ts ys p r E L RF. split.
    - intros (p' & gs & RF' & G & ->). assert (X : p' = p).
      { destruct RF as (p0 & e & c & ts' & ys' & F & RF). assert (RF0 : refitted fit o ts ys (Ok p)) by (exists p0, e, c, ts', ys'; auto). apply (refit_iff o ts ys p0 _ E L F) in RF0. apply (refit_iff o ts ys p0 _ E L F) in RF'. destruct RF0 as (Q & _), RF' as (Q' & _). congruence. }
      subst p'. apply (gains_map p ts ys gs L) in G. subst. reflexivity.
    - intros ->. exists p, (map2 vdiv ys (map (line p) ts)). split; [assumption|]. split; [apply gains_map; [assumption|reflexivity]|reflexivity].
  Qed.
  Lemma column_spec : forall o z ts ys, errors_ok o -> match column fit lowess interp o z ts ys with Ok F => corrections fit lowess interp o z ts ys F | Raise e => no_column fit lowess interp o z ts ys e end.
  Proof using.
    intros o z ts ys E. unfold column, no_column. destruct (Nat.eqb_spec (List.length ts) (List.length ys)) as [L|L]; cbn [negb]; [|left; auto]. destruct (fit ts ys) as [p0|e0] eqn:EF; cbn [bind]; [|right; split; [assumption|left; reflexivity]]. cbv zeta. pose proof (refit_iff o ts ys p0) as RI. set (e := rms (map2 rel_err ys (map (line p0) ts))) in *. destruct (second_cases o e ts ys E) as (c & C & U & H). destruct (second_fit fit o e ts ys) as [p1|e1] eqn:ES; cbn [bind].
    2: { right. split; [assumption|]. right. destruct H as [(UC & Q)|(NU & ts' & ys' & CT & CY & Q)].
         - injection Q as ->. left. exists p0, e, c. split; [reflexivity|]. split; [apply misfit_iff; [assumption|reflexivity]|]. auto.
         - right. left. apply (RI _ E L EF). split; [reflexivity|]. exists c. auto. }
    assert (NU : ~ uncut o c) by (destruct H as [(_ & Q)|(NU & _)]; [discriminate|assumption]). assert (RF : refitted fit o ts ys (Ok p1)) by (apply (RI _ E L EF); split; [reflexivity|exists c; auto]). pose proof (fun r => smooth_iff o ts ys p1 r E L RF) as SI.
    destruct (lowess (n_frac o) (map2 vdiv ys (map (line p1) ts)) ys) as [sm|e2] eqn:EL; cbn [bind]; [|right; split; [assumption|]; do 3 right; left; apply SI; reflexivity]. assert (SM : smoothed fit lowess o ts ys (Ok sm)) by (apply SI; reflexivity).
    destruct ys as [|y ys]; [right; split; [assumption|]; do 4 right; exists sm; auto|]. destruct (interp (y :: ys) sm) as [f|e3] eqn:EI; cbn [bind].
    - destruct (grid_or z) as [(G & GZ)|(G & GZ)]; rewrite G.
      + split; [assumption|]. exists f. split; [|intros c0; rewrite !quot_vdiv; reflexivity]. split; [assumption|]. split; [discriminate|]. exists sm. auto.
      + right. split; [assumption|]. do 4 right. exists sm. split; [assumption|]. right. split; [discriminate|]. right. split; [exists f; assumption|auto].
    - right. split; [assumption|]. do 4 right. exists sm. split; [assumption|]. right. split; [discriminate|]. left. assumption.
  Qed.
  Lemma refitted_one : forall o ts ys r r', errors_ok o -> List.length ts = List.length ys -> refitted fit o ts ys r -> refitted fit o ts ys r' -> r' = r.
  Proof using.
    intros o ts ys r r' E L RF RF'. destruct RF as (p0 & e & c & ts' & ys' & F & RF). assert (RF0 : refitted fit o ts ys r) by (exists p0, e, c, ts', ys'; auto). apply (refit_iff o ts ys p0 _ E L F) in RF0. apply (refit_iff o ts ys p0 _ E L F) in RF'. destruct RF0 as (Q & _), RF' as (Q' & _). congruence.
  Qed.
  Lemma smoothed_one : forall o ts ys r r', errors_ok o -> List.length ts = List.length ys -> smoothed fit lowess o ts ys r -> smoothed fit lowess o ts ys r' -> r' = r.
  Proof using. intros o ts ys r r' E L S S'. pose proof S as (p & gs & RF & _). apply (smooth_iff o ts ys p _ E L RF) in S. apply (smooth_iff o ts ys p _ E L RF) in S'. congruence. Qed.
  Lemma column_iff : forall o z ts ys F, errors_ok o -> corrections fit lowess interp o z ts ys F -> exists F', column fit lowess interp o z ts ys = Ok F' /\ forall c, F' c = F c.
  Proof using.
    intros o z ts ys F E (GZ & f & (L & NE & sm & SM & EI) & H). pose proof (column_spec o z ts ys E) as X. destruct (column fit lowess interp o z ts ys) as [F'|e].
    - exists F'. split; [reflexivity|]. destruct X as (_ & f' & (_ & _ & sm' & SM' & EI') & H'). pose proof (smoothed_one _ _ _ _ _ E L SM SM') as Q. injection Q as ->. rewrite EI in EI'. injection EI' as ->. intros c. rewrite H', H. reflexivity.
    - exfalso. pose proof SM as (p & gs & RF & _). pose proof RF as (p0 & e0 & c & ts' & ys' & EF & M & C & CT & CY & _). destruct X as [(N & _)|(_ & [Q|[(p' & m & c' & F0 & M' & C' & UC & _)|[Q|[Q|(sm' & SM' & Q)]]]])].
      + contradiction.
      + congruence.
      + rewrite EF in F0. injection F0 as <-. apply (misfit_iff ts ys p0 _ L) in M. apply (misfit_iff ts ys p0 _ L) in M'. rewrite <- M in M'. subst m. destruct (cutting_one o e0 E) as (c0 & _ & U & _). rewrite (U _ C') in UC. rewrite (U _ C) in CT. destruct (uncut_not _ _ _ _ _ UC CT).
      + pose proof (refitted_one _ _ _ _ _ E L RF Q). discriminate.
      + pose proof (smoothed_one _ _ _ _ _ E L SM Q). discriminate.
      + pose proof (smoothed_one _ _ _ _ _ E L SM SM') as Q'. injection Q' as ->. destruct Q as [(Q & _)|(_ & [Q|(_ & Q & _)])]; [contradiction|congruence|contradiction].
  Qed.
  Lemma column_fails : forall o z ts ys e, errors_ok o -> (column fit lowess interp o z ts ys = Raise e <-> no_column fit lowess interp o z ts ys e).
  Proof using.
    intros o z ts ys e E. split; [intros Q; pose proof (column_spec o z ts ys E) as X; rewrite Q in X; exact X|]. unfold column. intros [(N & ->)|(L & X)]; [destruct (Nat.eqb_spec (List.length ts) (List.length ys)); [contradiction|reflexivity]|]. destruct (Nat.eqb_spec (List.length ts) (List.length ys)) as [L2|L2]; [|contradiction]. cbn [negb].
    destruct (fit ts ys) as [p0|e0] eqn:EF; cbn [bind].
    2: { destruct X as [Q|[(p' & m & c' & F0 & _)|[Q|[Q|(sm' & SM' & Q)]]]]; [congruence|congruence| | |]; [pose proof Q as (q0 & _ & _ & _ & _ & F & _)|pose proof Q as (_ & _ & (q0 & _ & _ & _ & _ & F & _) & _)|pose proof SM' as (_ & _ & (q0 & _ & _ & _ & _ & F & _) & _)]; congruence. }
    cbv zeta. pose proof (refit_iff o ts ys p0) as RI. set (m0 := rms (map2 rel_err ys (map (line p0) ts))) in *. destruct (second_cases o m0 ts ys E) as (c & C & U & H). destruct X as [Q|[(p' & m & c' & F0 & M & C' & UC & ->)|[Q|Q]]].
    - discriminate.
    - injection F0 as <-. apply (misfit_iff ts ys p0 _ L) in M. fold m0 in M. subst m. apply U in C'. subst c'. destruct H as [(_ & ->)|(NU & _)]; [reflexivity|contradiction].
    - apply (RI _ E L EF) in Q. destruct Q as (-> & _). reflexivity.
    - assert (RF : exists p, refitted fit o ts ys (Ok p)) by (destruct Q as [(p & gs & RF & _)|(sm & (p & gs & RF & _) & _)]; eauto). destruct RF as (p & RF). pose proof (fun r => smooth_iff o ts ys p r E L RF) as SI. apply (RI _ E L EF) in RF. destruct RF as (-> & _). cbn [bind]. destruct Q as [Q|(sm & SM & Q)].
      + apply SI in Q. rewrite <- Q. reflexivity.
      + apply SI in SM. rewrite <- SM. cbn [bind]. destruct ys as [|y ys]; [destruct Q as [(_ & ->)|(N & _)]; [reflexivity|contradiction]|]. destruct Q as [(N & _)|(_ & [Q|((f & Q) & GZ & ->)])]; [discriminate|rewrite Q; reflexivity|]. rewrite Q. cbn [bind]. destruct (grid_or z) as [(_ & G)|(-> & _)]; [contradiction|reflexivity].
  Qed.
End Col.

Lemma mapR_first : forall A B (f : A -> result B) l e, mapR f l = Raise e <-> exists u a w bs, l = u ++ a :: w /\ Forall2 (fun x b => f x = Ok b) u bs /\ f a = Raise e.
Proof.
  intros A B f l e. induction l as [|x l IH]; cbn [mapR].
  - split; [discriminate|]. intros (u & a & w & bs & Q & _). destruct u; discriminate.
  - destruct (f x) as [y|e'] eqn:E; cbn [bind].
    + assert (X : (do r <- mapR f l; Ok (y :: r)) = Raise e <-> mapR f l = Raise e) by (destruct (mapR f l); cbn [bind]; split; intros Q; first [discriminate|injection Q as ->; reflexivity]). rewrite X, IH. split.
      * intros (u & a & w & bs & -> & F & R). exists (x :: u), a, w, (y :: bs). split; [reflexivity|]. split; [constructor; assumption|assumption].
      * intros ([|x' u] & a & w & bs & Q & F & R); injection Q as -> ->; [congruence|]. inversion F as [|? b ? bs' E' F']; subst. exists u, a, w, bs'. auto.
    + split; [intros Q; injection Q as ->; exists [], x, l, []; auto|]. intros ([|x' u] & a & w & bs & Q & F & R); injection Q as -> ->; [congruence|]. inversion F as [|? b ? bs' E' F']; subst. congruence.
Qed.
Lemma Forall2_weak : forall A B (P Q : A -> B -> Prop) l m, (forall a b, P a b -> Q a b) -> Forall2 P l m -> Forall2 Q l m.
Proof. intros A B P Q l m H F. induction F; constructor; auto. Qed.
Lemma Forall2_iff : forall A B (P Q : A -> B -> Prop) l m, (forall a b, P a b <-> Q a b) -> (Forall2 P l m <-> Forall2 Q l m).
Proof. intros A B P Q l m H. split; intros F; (induction F; constructor; [apply H; assumption|assumption]). Qed.

Lemma ok_inj : forall A (a b : A), Ok a = Ok b -> a = b.
Proof. intros A a b Q. injection Q as ->. reflexivity. Qed.
Lemma raise_as : forall A B (e e' : exn), @Raise A e = Raise e' <-> @Raise B e = Raise e'.
Proof. intros A B e e'. split; intros Q; injection Q as ->; reflexivity. Qed.
Section Whole.
  Variable hist : list val -> num -> result (list (R * nat)).
  Variable fit : list R -> list val -> result (val * val).
  Variable lowess : num -> list val -> list val -> result (list val).
  Variable interp : list val -> list val -> result (R -> val).
  Variable drift : list (R * R * val) -> result (list R * list val).
  Lemma column_ok : forall o z ts ys F, errors_ok o -> (column fit lowess interp o z ts ys = Ok F <-> corrections fit lowess interp o z ts ys F).
  Proof.
    intros o z ts ys F E. split; [intros Q; pose proof (column_spec fit lowess interp o z ts ys E) as X; rewrite Q in X; exact X|]. intros C. destruct (column_iff fit lowess interp o z ts ys F E C) as (F' & -> & H). f_equal. apply functional_extensionality. assumption.
  Qed.
  Lemma signals_ok : forall m g fs sg, mapR (fun f => do v <- signal m (g_row1 g) (g_col1 g) (g_row2 g) (g_col2 g) (snd f); Ok (fst f, v)) fs = Ok sg <-> (fs <> [] -> ~ some_empty (g_row1 g) (g_col1 g) (g_row2 g) (g_col2 g)) /\ signals m g fs sg.
  Proof.
    intros m g fs sg. rewrite mapR_iff. unfold signals.
    assert (X : forall (f : R * R * img) (s : R * R * val), (do v <- signal m (g_row1 g) (g_col1 g) (g_row2 g) (g_col2 g) (snd f); Ok (fst f, v)) = Ok s <-> ~ some_empty (g_row1 g) (g_col1 g) (g_row2 g) (g_col2 g) /\ fst s = fst f /\ lit_signal m (g_row1 g) (g_col1 g) (g_row2 g) (g_col2 g) (snd f) (snd s)).
    { intros f [k v]. cbn [fst snd]. pose proof (signal_iff m (g_row1 g) (g_col1 g) (g_row2 g) (g_col2 g) (snd f)) as H. destruct (signal m (g_row1 g) (g_col1 g) (g_row2 g) (g_col2 g) (snd f)) as [v'|e]; cbn [bind].
      - split; [intros Q; injection Q as <- <-; destruct (proj1 (H v') eq_refl); auto|]. intros (N & -> & L). assert (Q : Ok v' = Ok v) by (apply H; auto). injection Q as ->. reflexivity.
      - split; [discriminate|]. intros (N & _ & L). assert (Q : Raise e = Ok v) by (apply H; auto). discriminate. }
    split.
    - intros F. split; [intros N; inversion F as [|? ? ? ? Q]; subst; [contradiction|]; apply X in Q; tauto|]. eapply Forall2_weak; [|exact F]. intros f s Q. apply X in Q. tauto.
    - intros (N & F). destruct fs as [|f fs]; [inversion F; constructor|]. specialize (N ltac:(discriminate)). eapply Forall2_weak; [|exact F]. intros f' s Q. apply X. tauto.
  Qed.
  Lemma signals_fail : forall m g fs e, mapR (fun f : R * R * img => do v <- signal m (g_row1 g) (g_col1 g) (g_row2 g) (g_col2 g) (snd f); Ok (fst f, v)) fs = Raise e <-> fs <> [] /\ some_empty (g_row1 g) (g_col1 g) (g_row2 g) (g_col2 g) /\ e = IndexError.
  Proof.
    intros m g fs e. split.
    - intros Q. apply mapR_raise in Q. destruct Q as (f & I & Q). split; [intros ->; destruct I|]. destruct (signal m (g_row1 g) (g_col1 g) (g_row2 g) (g_col2 g) (snd f)) as [v|e'] eqn:E; cbn [bind] in Q; [discriminate|]. injection Q as ->. apply signal_fails in E. exact E.
    - intros (N & S & ->). destruct fs as [|f fs]; [contradiction|]. cbn [mapR]. assert (E : signal m (g_row1 g) (g_col1 g) (g_row2 g) (g_col2 g) (snd f) = Raise IndexError) by (apply signal_fails; auto). rewrite E. reflexivity.
  Qed.
  Lemma gain_ok : forall o z m g fs F, errors_ok o -> (gain_column fit lowess interp drift o z m g fs = Ok F <-> column_for fit lowess interp drift o z m g fs F).
  Proof.
    intros o z m g fs F E. unfold gain_column, column_for. pose proof (signals_ok m g fs) as S1. destruct (mapR _ fs) as [sg|e]; cbn [bind].
    - destruct (proj1 (S1 sg) eq_refl) as (N & SG). assert (U : forall sg', signals m g fs sg' -> sg' = sg) by (intros sg' H; assert (Q : Ok sg = Ok sg') by (apply S1; auto); injection Q as <-; reflexivity). destruct (drift sg) as [[ts ys]|e] eqn:ED; cbn [bind fst snd].
      + rewrite (column_ok o z ts ys F E). split; [intros C; split; [assumption|]; exists sg, ts, ys; auto|]. intros (_ & sg' & ts' & ys' & H & Q & C). apply U in H. subst sg'. rewrite ED in Q. injection Q as <- <-. assumption.
      + split; [discriminate|]. intros (_ & sg' & ts' & ys' & H & Q & C). apply U in H. subst sg'. congruence.
    - split; [discriminate|]. intros (N & sg' & ts' & ys' & H & _). assert (Q : Raise e = Ok sg') by (apply S1; auto). discriminate.
  Qed.
  Lemma gain_fails : forall o z m g fs e, errors_ok o -> (gain_column fit lowess interp drift o z m g fs = Raise e <-> no_column_for fit lowess interp drift o z m g fs e).
  Proof.
    intros o z m g fs e E. unfold gain_column, no_column_for. pose proof (signals_ok m g fs) as S1. pose proof (signals_fail m g fs) as S2. destruct (mapR _ fs) as [sg|e0]; cbn [bind].
    - destruct (proj1 (S1 sg) eq_refl) as (N & SG). assert (U : forall sg', signals m g fs sg' -> sg' = sg) by (intros sg' H; assert (Q : Ok sg = Ok sg') by (apply S1; auto); injection Q as <-; reflexivity). destruct (drift sg) as [[ts ys]|e0] eqn:ED; cbn [bind fst snd].
      + rewrite (column_fails fit lowess interp o z ts ys e E). split; [intros C; right; split; [assumption|]; exists sg; split; [assumption|]; right; exists ts, ys; auto|]. intros [(N1 & N2 & _)|(_ & sg' & H & [Q|(ts' & ys' & Q & C)])]; [destruct (N N1 N2)| |]; apply U in H; subst sg'; [congruence|]. rewrite ED in Q. injection Q as <- <-. assumption.
      + split; [intros Q; injection Q as ->; right; split; [assumption|]; exists sg; auto|]. intros [(N1 & N2 & _)|(_ & sg' & H & [Q|(ts' & ys' & Q & C)])]; [destruct (N N1 N2)| |]; apply U in H; subst sg'; congruence.
    - split; [intros Q; injection Q as ->; left; apply S2; reflexivity|]. intros [H|(N & sg' & H & _)]; [apply S2 in H; injection H as ->; reflexivity|]. assert (Q : Raise e0 = Ok sg') by (apply S1; auto). discriminate.
  Qed.
  Lemma kept_iff : forall o cs, limits_ok o -> (sieve (within o) steps cs <-> cs = filter (fun c => upto (worth (n_min o)) (Some (IZR c)) && upto (Some (IZR c)) (worth (n_max o))) grid).
  Proof.
    intros o cs (A & B). apply above_num, as_worth in A. apply above_num, as_worth in B. change grid with steps. apply sieve_filter. intros c. rewrite andb_true_iff, !upto_iff. unfold within. split.
    - intros (H1 & H2). eauto 10.
    - intros (a & b & CA & CB & H). rewrite (worth_as _ _ CA), (worth_as _ _ CB). assumption.
  Qed.
  Lemma masked_one : forall d g l m, all_named d -> all_numeric d -> (mask_of hist d g l = Ok m <-> masked hist d g l m).
  Proof.
    intros d g l m N M. split; [apply mask_sound; assumption|]. intros H. destruct (mask_complete hist d g l m H) as (m' & -> & E). f_equal. apply functional_extensionality. intros i. apply functional_extensionality. intros j. apply E.
  Qed.
  Lemma table_iff : forall d o means sets T, no_negative d -> (calibrate_nonlin hist fit lowess interp drift d o means sets = Ok T <-> tabulated hist fit lowess interp drift d o means sets T).
  Proof.
    intros d o means sets T ND. unfold calibrate_nonlin, tabulated. pose proof (params_iff d) as PI. destruct (check_nonlin_params d) as [[]|e]; cbn [bind].
    2: { split; [discriminate|]. intros (N & M & _). assert (Q : Raise e = Ok tt) by (apply PI; auto). discriminate. }
    destruct (proj1 PI eq_refl) as (N & M). destruct sets as [|s0 sets0]; [split; [discriminate|]; intros (_ & _ & Q & _); contradiction|]. remember (s0 :: sets0) as sets eqn:ES. assert (NE : sets <> []) by (rewrite ES; discriminate). clear ES.
    pose proof (checks_iff o) as CI. destruct (checks o) as [z|e]; cbn [bind].
    2: { split; [discriminate|]. intros (_ & _ & _ & z & g & m & Fs & V & _). assert (Q : Raise e = Ok z) by (apply CI; auto). discriminate. }
    pose proof (proj1 (CI z) eq_refl) as V. assert (VZ : forall z', valid o z' -> z' = z) by (intros z' H; apply CI in H; injection H as ->; reflexivity). assert (EO : errors_ok o) by (unfold valid in V; tauto). assert (LO : limits_ok o) by (unfold valid in V; tauto).
    pose proof (fun g => regions_iff d g ND) as RI. destruct (regions d) as [g|e]; cbn [bind].
    2: { split; [discriminate|]. intros (_ & _ & _ & z' & g & m & Fs & _ & G & _). assert (Q : Raise e = Ok g) by (apply RI; auto). discriminate. }
    pose proof (proj1 (RI g) eq_refl) as G. assert (GU : forall g', set_out d g' -> g' = g) by (intros g' H; apply RI in H; injection H as ->; reflexivity).
    pose proof (fun m => masked_one d g means m N M) as MI. destruct (mask_of hist d g means) as [m|e]; cbn [bind].
    2: { split; [discriminate|]. intros (_ & _ & _ & z' & g' & m & Fs & _ & G' & K & _). apply GU in G'. subst g'. assert (Q : Raise e = Ok m) by (apply MI; auto). discriminate. }
    pose proof (proj1 (MI m) eq_refl) as K. assert (MU : forall m', masked hist d g means m' -> m' = m) by (intros m' H; apply MI in H; injection H as ->; reflexivity).
    assert (FI : forall Fs, mapR (fun s => gain_column fit lowess interp drift o z m g (snd s)) sets = Ok Fs <-> Forall2 (fun s F => column_for fit lowess interp drift o z m g (snd s) F) sets Fs) by (intros Fs; rewrite mapR_iff; apply Forall2_iff; intros s F; apply gain_ok; assumption).
    destruct (mapR (fun s => gain_column fit lowess interp drift o z m g (snd s)) sets) as [Fs|e]; cbn [bind].
    - pose proof (proj1 (FI Fs) eq_refl) as FF. split.
      + intros Q. apply ok_inj in Q. subst T. split; [assumption|]. split; [assumption|]. split; [assumption|]. exists z, g, m, Fs. repeat (split; [assumption|]). eexists. split; [apply kept_iff; [assumption|reflexivity]|]. rewrite map_map. reflexivity.
      + intros (_ & _ & _ & z' & g' & m' & Fs' & V' & G' & K' & FF' & cs & SV & ->). apply VZ in V'. subst z'. apply GU in G'. subst g'. apply MU in K'. subst m'. apply FI in FF'. injection FF' as <-. apply (kept_iff o cs LO) in SV. subst cs. rewrite map_map. reflexivity.
    - split; [discriminate|]. intros (_ & _ & _ & z' & g' & m' & Fs' & V' & G' & K' & FF' & _). apply VZ in V'. subst z'. apply GU in G'. subst g'. apply MU in K'. subst m'. apply FI in FF'. discriminate.
  Qed.
  Lemma table_fails : forall d o means sets e, no_negative d -> (calibrate_nonlin hist fit lowess interp drift d o means sets = Raise e <-> not_tabulated hist fit lowess interp drift d o means sets e).
  Proof.
    intros d o means sets e ND. unfold calibrate_nonlin, not_tabulated. pose proof (params_iff d) as PI. pose proof (params_fail d) as PF. destruct (check_nonlin_params d) as [[]|e0]; cbn [bind].
    2: { assert (X : forall P : Prop, all_named d /\ all_numeric d /\ P -> False) by (intros P (N & M & _); assert (Q : Raise e0 = Ok tt) by (apply PI; auto); discriminate). rewrite (raise_as _ unit), PF. split; [tauto|]. intros [H|[H|H]]; [tauto|tauto|destruct (X _ H)]. }
    destruct (proj1 PI eq_refl) as (N & M). transitivity ((sets = [] /\ e = PyException) \/ (sets <> [] /\
         (invalid o e \/
          exists z, valid o z /\
            ((not_whole d /\ e = TypeError) \/
             exists g, set_out d g /\
               (unmasked hist d g means e \/
                exists m, masked hist d g means m /\
                  exists s u w Fs, sets = u ++ s :: w /\ Forall2 (fun s F => column_for fit lowess interp drift o z m g (snd s) F) u Fs /\ no_column_for fit lowess interp drift o z m g (snd s) e))))).
    2: { split; [intros H; right; right; auto|]. intros [(X & _)|[(_ & X & _)|(_ & _ & H)]]; [contradiction|contradiction|exact H]. }
    destruct sets as [|s0 sets0]; [split; [intros Q; injection Q as <-; auto|]; intros [(_ & ->)|(Q & _)]; [reflexivity|contradiction]|]. remember (s0 :: sets0) as sets eqn:ES. assert (NE : sets <> []) by (rewrite ES; discriminate). clear ES.
    match goal with |- _ <-> (_ \/ (_ /\ ?P)) => transitivity P; [|split; [intros H; right; auto|intros [(Q & _)|(_ & H)]; [contradiction|exact H]]] end.
    pose proof (checks_iff o) as CI. pose proof (checks_fail o) as CF. destruct (checks o) as [z|e0]; cbn [bind].
    2: { rewrite (raise_as _ Z), CF. split; [auto|]. intros [H|(z & V & _)]; [assumption|]. assert (Q : Raise e0 = Ok z) by (apply CI; auto). discriminate. }
    pose proof (proj1 (CI z) eq_refl) as V. assert (VZ : forall z', valid o z' -> z' = z) by (intros z' H; apply CI in H; injection H as ->; reflexivity). assert (EO : errors_ok o) by (unfold valid in V; tauto).
    match goal with |- _ <-> (_ \/ exists z, _ /\ @?P z) => transitivity (P z); [|split; [intros H; right; exists z; auto|intros [H|(z' & V' & H)]; [apply CF in H; discriminate|apply VZ in V'; subst z'; exact H]]] end. cbv beta.
    pose proof (fun g => regions_iff d g ND) as RI. pose proof (regions_fail d) as RF. destruct (regions d) as [g|e0]; cbn [bind].
    2: { rewrite (raise_as _ regs), RF. split; [auto|]. intros [H|(g & G & _)]; [assumption|]. assert (Q : Raise e0 = Ok g) by (apply RI; auto). discriminate. }
    pose proof (proj1 (RI g) eq_refl) as G. assert (GU : forall g', set_out d g' -> g' = g) by (intros g' H; apply RI in H; injection H as ->; reflexivity).
    match goal with |- _ <-> (_ \/ exists g, _ /\ @?P g) => transitivity (P g); [|split; [intros H; right; exists g; auto|intros [H|(g' & G' & H)]; [apply RF in H; discriminate|apply GU in G'; subst g'; exact H]]] end. cbv beta.
    pose proof (fun m => masked_one d g means m N M) as MI. pose proof (fun e => mask_fails hist d g means e N M) as MF. destruct (mask_of hist d g means) as [m|e0]; cbn [bind].
    2: { rewrite (raise_as _ (nat -> nat -> bool)), MF. split; [auto|]. intros [H|(m & K & _)]; [assumption|]. assert (Q : Raise e0 = Ok m) by (apply MI; auto). discriminate. }
    pose proof (proj1 (MI m) eq_refl) as K. assert (MU : forall m', masked hist d g means m' -> m' = m) by (intros m' H; apply MI in H; injection H as ->; reflexivity).
    match goal with |- _ <-> (_ \/ exists m, _ /\ @?P m) => transitivity (P m); [|split; [intros H; right; exists m; auto|intros [H|(m' & K' & H)]; [apply MF in H; discriminate|apply MU in K'; subst m'; exact H]]] end. cbv beta.
    pose proof (mapR_first _ _ (fun s => gain_column fit lowess interp drift o z m g (snd s)) sets e) as MR. destruct (mapR (fun s => gain_column fit lowess interp drift o z m g (snd s)) sets) as [Fs|e0]; cbn [bind].
    - split; [discriminate|]. intros (s & u & w & Fs' & E & FF & X). exfalso. assert (Q : Ok Fs = Raise e); [|discriminate]. apply MR. exists u, s, w, Fs'. split; [assumption|]. split; [|apply gain_fails; assumption]. eapply Forall2_iff; [|exact FF]. intros a b. apply gain_ok. assumption.
    - transitivity (@Raise (list (R -> val)) e0 = Raise e); [split; intros Q; injection Q as ->; reflexivity|]. rewrite MR. split.
      + intros (u & s & w & Fs' & E & FF & X). exists s, u, w, Fs'. split; [assumption|]. split; [|apply gain_fails; assumption]. eapply Forall2_iff; [|exact FF]. intros a b. symmetry. apply gain_ok. assumption.
      + intros (s & u & w & Fs' & E & FF & X). exists u, s, w, Fs'. split; [assumption|]. split; [|apply gain_fails; assumption]. eapply Forall2_iff; [|exact FF]. intros a b. apply gain_ok. assumption.
  Qed.
End Whole.
