(** Proofs: laws of the table of nonlinearity. *)
From Coq Require Import List Arith Bool Reals ZArith String Lia Lra.
From Coq Require Import Sorted FunctionalExtensionality.
From Verif Require Import Base DqModel DqProofs SortGroupProofs CombineModel ComboSpec ComboProofs FindModel FlatModel FlatSpec CtModel CtSpec CtProofs CropModel NlTabModel NlTabSpec NlTabProofs NlTabColProofs.
Import ListNotations.
Local Open Scope R_scope.

Lemma sieve_in : forall A (P : A -> Prop) l m x, sieve P l m -> (In x m <-> In x l /\ P x).
Proof.
  intros A P l m x H. induction H as [|y l m Y H IH|y l m Y H IH]; cbn [In]; [tauto| |].
  - rewrite IH. split; [intros [->|(I1 & X)]; tauto|tauto].
  - rewrite IH. split; [tauto|]. intros ([->|I1] & X); [contradiction|tauto].
Qed.
Lemma steps_in : forall c, In c steps <-> gridded c.
Proof.
  intros c. rewrite <- grid_in. change steps with grid. rewrite existsb_exists. split.
  - intros I1. exists c. split; [assumption|]. apply Z.eqb_eq. reflexivity.
  - intros (x & I1 & E). apply Z.eqb_eq in E. subst. assumption.
Qed.
Lemma seq_up : forall n a, StronglySorted Z.lt (map (fun k => (20 * (Z.of_nat k + 1))%Z) (seq a n)).
Proof.
  induction n as [|n IH]; intros a; cbn [seq map]; constructor; [apply IH|]. apply Forall_forall. intros x I1. apply in_map_iff in I1. destruct I1 as (k & <- & I1). apply in_seq in I1. lia.
Qed.
Lemma sieve_sorted : forall (P : Z -> Prop) l m, sieve P l m -> StronglySorted Z.lt l -> StronglySorted Z.lt m.
Proof.
  intros P l m H. induction H as [|y l m Y H IH|y l m Y H IH]; intros S1; [constructor| |].
  - inversion S1 as [|? ? S2 F]; subst. constructor; [auto|]. rewrite Forall_forall in *. intros x X. apply F. apply (sieve_in _ _ _ _ x H) in X. tauto.
  - inversion S1; subst. auto.
Qed.
Lemma map_IZR : forall cs cs', map (fun c => Some (IZR c)) cs = map (fun c => Some (IZR c)) cs' -> cs = cs'.
Proof. induction cs as [|c cs IH]; intros [|c' cs'] Q; cbn [map] in Q; try discriminate; [reflexivity|]. injection Q as Q1 Q2. apply eq_IZR in Q1. subst. f_equal. auto. Qed.

Section Laws.
  Variable hist : list val -> num -> result (list (R * nat)).
  Variable fit : list R -> list val -> result (val * val).
  Variable lowess : num -> list val -> list val -> result (list val).
  Variable interp : list val -> list val -> result (R -> val).
  Variable drift : list (R * R * val) -> result (list R * list val).
  Notation made d o means sets T := (calibrate_nonlin hist fit lowess interp drift d o means sets = Ok T).
  (** The counts *)
  Lemma counts_law : forall d o means sets T, no_negative d -> made d o means sets T ->
    exists cs, map (hd None) T = None :: map (fun c => Some (IZR c)) cs /\ StronglySorted Z.lt cs /\ (forall c, In c cs <-> gridded c /\ within o c) /\
      hd [] T = None :: map (fun s => Some (fst s)) sets /\ Forall (fun r => List.length r = S (List.length sets)) T.
  Proof.
    intros d o means sets T ND E. apply table_iff in E; [|assumption]. destruct E as (N & M & NE & z & g & m & Fs & V & G & K & FF & cs & SV & ->). exists cs. cbn [map hd]. split; [f_equal; rewrite map_map; reflexivity|]. split; [apply (sieve_sorted _ _ _ SV); apply seq_up|]. split; [intros c; rewrite (sieve_in _ _ _ _ c SV), steps_in; reflexivity|]. split; [rewrite map_map; reflexivity|]. apply Forall_forall. intros r [<-|I1].
    - cbn [List.length]. rewrite !map_length. reflexivity.
    - apply in_map_iff in I1. destruct I1 as (c & <- & _). cbn [List.length]. rewrite map_length. f_equal. symmetry. clear -FF. induction FF; cbn [List.length]; congruence.
  Qed.
  (** Every column is one over the gain relative to that of the norm *)
  Lemma entry_law : forall d o means sets T z, no_negative d -> made d o means sets T -> n_norm o = NInt z ->
    gridded z /\ exists fs, List.length fs = List.length sets /\ (forall c vs, row_for T c vs -> vs = map (fun f => quot (Some 1) (quot (f (IZR c)) (f (IZR z)))) fs) /\
      exists g m, set_out d g /\ masked hist d g means m /\ Forall2 (fun s f => (snd s <> [] -> ~ some_empty (g_row1 g) (g_col1 g) (g_row2 g) (g_col2 g)) /\ exists sg ts ys, signals m g (snd s) sg /\ drift sg = Ok (ts, ys) /\ gains_of fit lowess interp o ts ys f) sets fs.
  Proof.
    intros d o means sets T z ND E Z0. apply table_iff in E; [|assumption]. destruct E as (N & M & NE & z' & g & m & Fs & V & G & K & FF & cs & SV & ->). assert (z' = z) by (destruct V as ((Q & _) & _); rewrite Z0 in Q; injection Q as ->; reflexivity). subst z'.
    assert (GZ : gridded z) by (destruct sets as [|s sets]; [contradiction|]; inversion FF as [|? ? ? ? (_ & sg & ts & ys & _ & _ & GZ & _)]; assumption). split; [assumption|].
    assert (X : exists fs, Forall2 (fun F f => forall c, F c = quot (Some 1) (quot (f c) (f (IZR z)))) Fs fs /\ Forall2 (fun s f => (snd s <> [] -> ~ some_empty (g_row1 g) (g_col1 g) (g_row2 g) (g_col2 g)) /\ exists sg ts ys, signals m g (snd s) sg /\ drift sg = Ok (ts, ys) /\ gains_of fit lowess interp o ts ys f) sets fs).
    { clear -FF. induction FF as [|s F sets Fs H FF IH]; [exists []; split; constructor|]. destruct IH as (fs & A & B). destruct H as (EM & sg & ts & ys & SG & D & _ & f & GF & H). exists (f :: fs). split; constructor; try assumption. split; [assumption|]. exists sg, ts, ys. auto. }
    destruct X as (fs & A & B). exists fs. split; [clear -B; induction B; cbn [List.length]; congruence|]. split; [|exists g, m; auto]. intros c vs R0. unfold row_for in R0. cbn [tl] in R0. apply in_map_iff in R0. destruct R0 as (c' & Q & _). injection Q as Q <-. apply eq_IZR in Q. subst c'. clear -A. induction A as [|F f Fs fs H A IH]; cbn [map]; [reflexivity|]. rewrite H, IH. reflexivity.
  Qed.
  Lemma has_row : forall d o means sets T c, no_negative d -> made d o means sets T -> gridded c -> within o c -> exists vs, row_for T c vs.
  Proof.
    intros d o means sets T c ND E GC W. apply table_iff in E; [|assumption]. destruct E as (N & M & NE & z' & g & m & Fs & V & G & K & FF & cs & SV & ->). exists (map (fun F : R -> val => F (IZR c)) Fs). unfold row_for. cbn [tl]. apply in_map_iff. exists c. split; [reflexivity|]. apply (sieve_in _ _ _ _ c SV). split; [apply steps_in; assumption|assumption].
  Qed.
  Lemma valid_of : forall d o means sets T, no_negative d -> made d o means sets T -> exists z, valid o z /\ n_norm o = NInt z.
  Proof. intros d o means sets T ND E. apply table_iff in E; [|assumption]. destruct E as (N & M & NE & z' & g & m & Fs & V & _). exists z'. split; [assumption|]. destruct V as ((Q & _) & _). assumption. Qed.
  (** The norm *)
  Lemma norm_law : forall d o means sets T z, no_negative d -> made d o means sets T -> n_norm o = NInt z -> limits_known o ->
    (exists vs, row_for T z vs) /\ forall vs, row_for T z vs -> List.length vs = List.length sets /\ Forall one_or_none vs.
  Proof.
    intros d o means sets T z ND E Z0 (a & b & CA & CB). destruct (entry_law d o means sets T z ND E Z0) as (GZ & fs & L & H & _). destruct (valid_of _ _ _ _ _ ND E) as (z' & V & Q). rewrite Z0 in Q. injection Q as <-. split.
    - apply (has_row d o means sets T z ND E GZ). exists (Some a), (Some b). split; [assumption|]. split; [assumption|]. destruct V as (_ & _ & _ & BT & _). destruct (BT _ _ CA CB) as (_ & B1 & B2). split; [exists a, (IZR z)|exists (IZR z), b]; (split; [reflexivity|]); (split; [reflexivity|]); apply Rnot_lt_le; intros X; [apply B1|apply B2]; eexists; eexists; eauto.
    - intros vs R0. apply H in R0. subst vs. rewrite map_length. split; [assumption|]. apply Forall_forall. intros v I1. apply in_map_iff in I1. destruct I1 as (f & <- & _). unfold one_or_none, quot. destruct (f (IZR z)) as [x|]; [|right; reflexivity]. destruct (Req_EM_T x 0) as [E0|E0]; [right; reflexivity|]. destruct (Req_EM_T (x / x) 0) as [E1|E1].
      + exfalso. unfold Rdiv in E1. rewrite Rinv_r in E1 by assumption. lra.
      + left. f_equal. field. assumption.
  Qed.
  (** Another norm multiplies every column by a number *)
  Lemma gains_unique : forall o ts ys f f', errors_ok o -> gains_of fit lowess interp o ts ys f -> gains_of fit lowess interp o ts ys f' -> f' = f.
  Proof.
    intros o ts ys f f' E (L & NE & sm & SM & EI) (_ & _ & sm' & SM' & EI'). pose proof (smoothed_one fit lowess o ts ys _ _ E L SM SM') as Q. injection Q as ->. congruence.
  Qed.
  Lemma rescale : forall (f : R -> val) z z' c w, quot (Some 1) (quot (f z') (f z)) = Some w -> quot (Some 1) (quot (f c) (f z')) = quot (quot (Some 1) (quot (f c) (f z))) (Some w).
  Proof.
    intros f z z' c w. unfold quot. destruct (f z') as [b|]; [|discriminate]. destruct (f z) as [a|]; [|discriminate]. destruct (Req_EM_T a 0) as [A|A]; [discriminate|]. destruct (Req_EM_T (b / a) 0) as [B|B]; [discriminate|]. intros Q. injection Q as <-. assert (B0 : b <> 0) by (intros ->; apply B; unfold Rdiv; ring).
    destruct (f c) as [x|]; [|reflexivity]. destruct (Req_EM_T b 0) as [?|_]; [contradiction|]. destruct (Req_EM_T (x / b) 0) as [X|X], (Req_EM_T (x / a) 0) as [Y|Y].
    - reflexivity.
    - exfalso. apply Y. assert (x = 0) by (replace x with (x / b * b) by (field; assumption); rewrite X; ring). subst. unfold Rdiv. ring.
    - exfalso. apply X. assert (x = 0) by (replace x with (x / a * a) by (field; assumption); rewrite Y; ring). subst. unfold Rdiv. ring.
    - assert (x <> 0) by (intros ->; apply X; unfold Rdiv; ring). destruct (Req_EM_T (1 / (b / a)) 0) as [W|W].
      + exfalso. assert (1 = 1 / (b / a) * (b / a)) by (field; split; assumption). rewrite W in *. lra.
      + f_equal. field. repeat split; assumption.
  Qed.
  Lemma renorm_law : forall d o o' means sets T T' z', no_negative d -> made d o means sets T -> made d o' means sets T' -> same_but_norm o o' -> n_norm o' = NInt z' ->
    forall ws j w, row_for T z' ws -> nth_error ws j = Some (Some w) ->
    forall c vs vs' v, row_for T c vs -> row_for T' c vs' -> nth_error vs j = Some v -> nth_error vs' j = Some (quot v (Some w)).
  Proof.
    intros d o o' means sets T T' z' ND E E' SB Z' ws j w RW JW c vs vs' v RC RC' JV. destruct (valid_of _ _ _ _ _ ND E) as (z & V & Z0).
    assert (NM : all_named d /\ all_numeric d) by (apply table_iff in E; [|assumption]; destruct E as (N & M & _); auto). destruct NM as (N & M). assert (EO : errors_ok o) by (unfold valid in V; tauto).
    destruct (entry_law d o means sets T z ND E Z0) as (GZ & fs & L & H & g & m & G & K & FF). destruct (entry_law d o' means sets T' z' ND E' Z') as (GZ' & fs' & L' & H' & g' & m' & G' & K' & FF'). apply (regions_iff d g ND) in G. apply (regions_iff d g' ND) in G'. rewrite G in G'. injection G' as <-. apply (masked_one hist d g means m N M) in K. apply (masked_one hist d g means m' N M) in K'. rewrite K in K'. apply ok_inj in K'. subst m'.
    assert (fs' = fs).
    { clear - FF FF' EO SB. revert fs' FF'. induction FF as [|s f sets fs X FF IH]; intros fs' FF'; inversion FF' as [|? f' ? fs2 X' FF2]; subst; [reflexivity|]. f_equal; [|auto]. destruct X as (EM & sg & ts & ys & SG & D & GF), X' as (_ & sg' & ts' & ys' & SG' & D' & GF'). assert (Q1 : mapR (fun f0 : R * R * img => do v <- signal m (g_row1 g) (g_col1 g) (g_row2 g) (g_col2 g) (snd f0); Ok (fst f0, v)) (snd s) = Ok sg) by (apply signals_ok; auto). assert (Q2 : mapR (fun f0 : R * R * img => do v <- signal m (g_row1 g) (g_col1 g) (g_row2 g) (g_col2 g) (snd f0); Ok (fst f0, v)) (snd s) = Ok sg') by (apply signals_ok; auto). rewrite Q1 in Q2. apply ok_inj in Q2. subst sg'. rewrite D in D'. injection D' as <- <-. apply (gains_unique o ts ys f f' EO GF). destruct o as [a1 a2 a3 a4 a5 a6 a7 a8 a9 a10], o' as [b1 b2 b3 b4 b5 b6 b7 b8 b9 b10]. unfold same_but_norm in SB. cbn [n_min n_max n_frac n_low n_upp n_up1 n_up2 n_lo1 n_lo2] in SB. destruct SB as (-> & -> & -> & -> & -> & -> & -> & -> & ->). exact GF'. }
    subst fs'. apply H in RW. apply H in RC. apply H' in RC'. subst ws vs vs'. rewrite nth_error_map in *. destruct (nth_error fs j) as [f|]; cbn [option_map] in *; [|discriminate]. apply (f_equal (fun x => match x with Some y => y | None => None end)) in JW. apply (f_equal (fun x => match x with Some y => y | None => None end)) in JV. cbn beta iota in JW, JV. f_equal. rewrite <- JV. apply rescale. exact JW.
  Qed.
  (** A linear detector *)
  Lemma linear_law : forall d o means sets T, no_negative d -> made d o means sets T -> ideal fit lowess interp -> (exists a, counts_as (n_low o) (Some a) /\ 0 < a) ->
    (forall g m s sg ts ys, set_out d g -> masked hist d g means m -> In s sets -> signals m g (snd s) sg -> drift sg = Ok (ts, ys) -> linear ts ys) ->
    forall c vs, row_for T c vs -> ones vs.
  Proof.
    intros d o means sets T ND E (I1 & I2 & I3) (a & CA & A0) LN c vs R0. destruct (valid_of _ _ _ _ _ ND E) as (z & V & Z0). assert (EO : errors_ok o) by (unfold valid in V; tauto). destruct (entry_law d o means sets T z ND E Z0) as (GZ & fs & L & H & g & m & G & K & FF). apply H in R0. subst vs.
    assert (X : Forall (fun f : R -> val => forall c, f c = Some 1) fs).
    { assert (LN' : forall s, In s sets -> forall sg ts ys, signals m g (snd s) sg -> drift sg = Ok (ts, ys) -> linear ts ys) by (intros s I sg ts ys SG D; apply (LN g m s sg); assumption). clear - FF LN' I1 I2 I3 EO CA A0. induction FF as [|s f sets fs X FF IH]; [constructor|]. constructor; [|apply IH; intros s' I; apply LN'; right; assumption]. destruct X as (_ & sg & ts & ys & SG & D & LE & NE & sm & SM & EI).
      assert (LI : linear ts ys) by (apply (LN' s (or_introl eq_refl) sg ts ys SG D)).
      destruct (I1 ts ys LI) as (p & FP & TH).
      assert (RR : Forall2 (fun t y => y = on_line p t /\ exists v, v <> 0 /\ y = Some v) ts ys) by (clear - TH; induction TH as [|t y ts ys (v & V0 & -> & Q) TH IH]; constructor; [split; [auto|eauto]|assumption]).
      assert (M0 : misfit ts ys p (Some 0)).
      { apply (misfit_iff ts ys p _ LE). unfold rms. assert (ZZ : Forall (fun v => v = Some 0) (map2 rel_err ys (map (line p) ts))).
        { clear - RR. induction RR as [|t y ts ys (Q & v & V0 & EV) RR IH]; cbn [map map2]; constructor; [|assumption]. rewrite line_eq, <- Q, EV. unfold rel_err, vsub, vdiv. cbn. destruct (Req_EM_T v 0); [contradiction|]. cbn [option_map]. f_equal. replace ((v - v) / v) with 0 by (unfold Rdiv; ring). apply Rabs_R0. }
        assert (NN : map2 rel_err ys (map (line p) ts) <> []) by (destruct RR; [contradiction|cbn [map map2]; discriminate]). set (l := map2 rel_err ys (map (line p) ts)) in *. clearbody l. assert (SQ : Forall (fun v => v = Some 0) (map (fun v => vmul v v) l)) by (clear - ZZ; induction ZZ as [|x l -> ZZ IH]; cbn [map]; constructor; [cbn; f_equal; ring|assumption]).
        assert (S0 : forall k, Forall (fun v => v = Some 0) k -> vsum k = Some 0).
        { intros k F. unfold vsum. clear - F. induction F as [|x k -> F IH]; cbn [fold_right]; [reflexivity|]. rewrite IH. cbn. f_equal. ring. }
        unfold vmean. rewrite (S0 _ SQ). unfold vdiv. cbn [option_map]. destruct (Req_EM_T (INR (List.length (map (fun v => vmul v v) l))) 0) as [Q|Q]; [exfalso; apply NN; rewrite map_length in Q; apply INR_eq in Q || (change 0 with (INR 0) in Q; apply INR_eq in Q); destruct l; [reflexivity|discriminate]|]. cbn [option_map]. f_equal. unfold Rdiv. rewrite Rmult_0_l. symmetry. apply sqrt_0. }
      assert (CW : cutting_of o (Some 0) Whole) by (destruct EO as (_ & (b & CB & _)); exists (Some a), b; split; [assumption|]; split; [assumption|]; exists 0, a; auto).
      assert (RF : refitted fit o ts ys (Ok p)) by (exists p, (Some 0), Whole, ts, ys; cbn [cut_by]; auto 10).
      assert (GS : exists gs, each3 (fun t y g => g = quot y (on_line p t)) ts ys gs /\ ones gs).
      { exists (map2 vdiv ys (map (line p) ts)). split; [apply gains_map; [assumption|reflexivity]|]. clear - RR. induction RR as [|t y ts ys (Q & v & V0 & EV) RR IH]; cbn [map map2]; constructor; [|assumption]. rewrite line_eq, <- Q, EV. unfold vdiv. destruct (Req_EM_T v 0); [contradiction|]. f_equal. field. assumption. }
      destruct GS as (gs & GE & GO). destruct (I2 (n_frac o) gs ys GO) as (r & LR & RO). assert (SM' : smoothed fit lowess o ts ys (Ok r)) by (exists p, gs; auto). pose proof (smoothed_one fit lowess o ts ys _ _ EO LE SM' SM) as Q. injection Q as ->. apply (I3 ys r f RO EI). }
    apply Forall_forall. intros v IV. apply in_map_iff in IV. destruct IV as (f & <- & IF). rewrite Forall_forall in X. rewrite !(X f IF). unfold quot. destruct (Req_EM_T 1 0); [lra|]. destruct (Req_EM_T (1 / 1) 0); [lra|]. f_equal. field.
  Qed.
End Laws.
