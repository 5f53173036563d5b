(** Proofs: position of the mask, interpolation and maps. *)
From Coq Require Import List Arith Bool Reals ZArith String Sorting Lia Lra.
From Verif Require Import Base CombineModel ComboSpec ComboProofs DqModel AngleModel AngleSpec NearModel NearSpec NearProofs FlatModel FlatSpec FlatProofs FlatTopProofs FluxModel FluxSpec FluxProofs FluxBandProofs FluxRunProofs CtModel CtSpec CtProofs CtSetProofs CtDataProofs.
Import ListNotations.
Local Open Scope R_scope.

Lemma mask_iff : forall fpam fsam M0 M1 cor p q, ct_fpm_position fpam fsam M0 M1 cor = Ok (p, q) <-> mask_at fpam fsam M0 M1 cor p q.
Proof.
  intros fpam fsam M0 M1 cor p q. unfold ct_fpm_position, mask_at, moved, times_vec. split.
  - destruct cor as [|h r]; [discriminate|]. destruct (both (c_star h)) as [c|] eqn:C; cbn [bind]; [|discriminate]. destruct (both (c_fpam h)) as [fp|] eqn:FP; cbn [bind]; [|discriminate]. destruct (both (c_fsam h)) as [fs|] eqn:FS; cbn [bind]; [|discriminate]. intros H. injection H as <- <-.
    exists h, r, c, fp, fs. cbn [fst snd]. split; [reflexivity|]. split; [apply both_iff; exact C|]. split; [apply both_iff; exact FP|]. split; [apply both_iff; exact FS|]. repeat split; ring.
  - intros (h & r & c & fp & fs & -> & C & FP & FS & (P1 & P2) & (Q1 & Q2)). apply both_iff in C. apply both_iff in FP. apply both_iff in FS. rewrite C, FP, FS. cbn [bind fst snd]. destruct p as [p1 p2], q as [q1 q2]. cbn [fst snd] in *. f_equal. f_equal; f_equal; lra.
Qed.
Lemma rmin_iff : forall l m, rmin l = Ok m <-> least_of l m.
Proof.
  intros l m. split; [apply rmin_spec|]. intros (I & M). destruct (rmin l) as [m'|e] eqn:E; [|destruct l; [contradiction|discriminate]]. apply rmin_spec in E. destruct E as (I' & M'). f_equal. apply Rle_antisym; [apply M'|apply M]; assumption.
Qed.
Lemma rmax_iff : forall l m, rmax l = Ok m <-> most_of l m.
Proof.
  intros l m. split; [apply rmax_spec|]. intros (I & M). destruct (rmax l) as [m'|e] eqn:E; [|destruct l; [contradiction|discriminate]]. apply rmax_spec in E. destruct E as (I' & M'). f_equal. apply Rle_antisym; [apply M|apply M']; assumption.
Qed.
Lemma most_shift : forall l a m, most_of (map (fun x => x - a) l) m <-> most_of l (a + m).
Proof.
  intros l a m. unfold most_of. split; intros (I & M).
  - apply in_map_iff in I. destruct I as (x & E & X). split; [replace (a + m) with x by lra; exact X|]. intros y Y. specialize (M (y - a) (in_map (fun x => x - a) _ _ Y)). lra.
  - split; [apply in_map_iff; exists (a + m); split; [lra|exact I]|]. intros y Y. apply in_map_iff in Y. destruct Y as (x & <- & X). specialize (M x X). lra.
Qed.
Lemma folded_iff : forall a m v, folded a m v <-> v = pymod a m.
Proof.
  intros a m v. unfold folded, pymod. destruct (Req_EM_T m 0) as [->|M].
  - split; [intros (H & _); apply H; reflexivity|]. intros ->. split; [reflexivity|congruence].
  - split.
    + intros (_ & H). destruct (H M) as (k & b & -> & A & B). f_equal. replace (Int_part (a / m)) with k; [rewrite A; ring|]. replace (a / m) with (b / m + IZR k) by (rewrite A; field; exact M). pose proof (base_Int_part (b / m + IZR k)) as (U1 & U2). assert (L1 : IZR (Int_part (b / m + IZR k)) < IZR (k + 1)) by (rewrite plus_IZR; lra). assert (L2 : IZR (k - 1) < IZR (Int_part (b / m + IZR k))) by (rewrite minus_IZR; lra). apply lt_IZR in L1. apply lt_IZR in L2. lia.
    + intros ->. split; [contradiction|]. intros _. exists (Int_part (a / m)). eexists. split; [reflexivity|]. split; [ring|]. pose proof (base_Int_part (a / m)) as (U1 & U2). replace ((a - m * IZR (Int_part (a / m))) / m) with (a / m - IZR (Int_part (a / m))) by (field; exact M). lra.
Qed.
Lemma ln10 : 0 < ln 10.
Proof. rewrite <- ln_1. apply ln_increasing; lra. Qed.
Lemma scaled_iff : forall logr x v, scaled logr x v <-> v = (if logr then log10 x else Some x).
Proof.
  intros logr x v. unfold scaled, log10. destruct logr; [|reflexivity]. pose proof ln10 as L. destruct (Rlt_dec 0 x) as [P|P].
  - split.
    + intros (_ & H). destruct (H P) as (y & -> & E). f_equal. rewrite E. unfold Rpower. rewrite ln_exp. field. lra.
    + intros ->. split; [lra|]. intros _. eexists. split; [reflexivity|]. unfold Rpower. replace (ln x / ln 10 * ln 10) with (ln x) by (field; lra). symmetry. apply exp_ln. exact P.
  - split; [intros (H & _); apply H; lra|]. intros ->. split; [reflexivity|lra].
Qed.
Lemma shifted_iff : forall c table grid, shifted c table grid <-> grid = map (fun e => ((fst (fst e) - fst c, snd (fst e) - snd c), snd e)) table.
Proof.
  intros c table grid. unfold shifted. apply f2_map. intros e [[gx gy] v]. cbn [fst snd]. unfold AngleSpec.minus. split; [intros (E & ->); rewrite <- E; reflexivity|]. intros E. injection E as -> -> ->. split; reflexivity.
Qed.

(** ** The repair *)
Lemma set_nth_some : forall A (l : list A) i x l', set_nth l i x = Some l' -> (i < List.length l)%nat /\ List.length l' = List.length l /\ forall j, nth_error l' j = if Nat.eqb i j then Some x else nth_error l j.
Proof.
  intros A. induction l as [|a l IH]; intros i x l' H; [destruct i; discriminate|]. destruct i as [|i]; cbn [set_nth] in H.
  - injection H as <-. cbn [List.length]. split; [lia|]. split; [reflexivity|]. intros [|j]; reflexivity.
  - destruct (set_nth l i x) as [m|] eqn:E; [|discriminate]. injection H as <-. destruct (IH i x m E) as (L & LL & N). cbn [List.length]. split; [lia|]. split; [lia|]. intros [|j]; [reflexivity|]. cbn [nth_error Nat.eqb]. apply N.
Qed.
Lemma set_nth_ok : forall A (l : list A) i x, (i < List.length l)%nat -> exists l', set_nth l i x = Some l'.
Proof. intros A. induction l as [|a l IH]; intros i x L; [cbn in L; lia|]. destruct i as [|i]; [eexists; reflexivity|]. cbn [List.length] in L. destruct (IH i x) as (m & M); [lia|]. exists (a :: m). cbn [set_nth]. rewrite M. reflexivity. Qed.
Lemma here_iff : forall t g, here t g = true <-> t = g.
Proof. intros [a b] [c d]. unfold here. cbn [fst snd]. destruct (Req_EM_T a c) as [->|N]; [destruct (Req_EM_T b d) as [->|N]|]; split; congruence. Qed.
(** What has been written when the values [written i] apply. *)
Definition overwritten (W : nat -> R -> Prop) (vs vs' : list val) : Prop :=
  List.length vs' = List.length vs /\ forall i, (forall c, W i c -> nth_error vs' i = Some (Some c)) /\ ((forall c, ~ W i c) -> nth_error vs' i = nth_error vs i).
Lemma over_lt : forall W vs vs' i c, overwritten W vs vs' -> W i c -> (i < List.length vs)%nat.
Proof. intros W vs vs' i c (L & H) w. rewrite <- L. apply nth_error_Some. rewrite (proj1 (H i) c w). discriminate. Qed.
Lemma over_ext : forall W W' vs vs', (forall i c, W i c <-> W' i c) -> overwritten W vs vs' -> overwritten W' vs vs'.
Proof. intros W W' vs vs' E (L & H). split; [exact L|]. intros i. split; [intros c w; apply (proj1 (H i)); apply E; exact w|]. intros n. apply (proj2 (H i)). intros c w. apply (n c). apply E. exact w. Qed.
Lemma over_fun : forall (W : nat -> R -> Prop) vs a b, (forall i, (exists c, W i c) \/ forall c, ~ W i c) -> overwritten W vs a -> overwritten W vs b -> a = b.
Proof.
  intros W vs a b D (LA & A) (LB & B). apply nth_ext with (d := None) (d' := None); [congruence|]. intros i I. assert (I' : (i < List.length b)%nat) by congruence. pose proof (nth_error_nth' a None I) as IA. pose proof (nth_error_nth' b None I') as IB'. destruct (D i) as [(c & w)|n].
  - rewrite (proj1 (A i) c w) in IA. rewrite (proj1 (B i) c w) in IB'. congruence.
  - rewrite (proj2 (A i) n) in IA. rewrite (proj2 (B i) n) in IB'. congruence.
Qed.
Definition placed (k : nat) (grid : list ((R * R) * R)) (t : R * R) (i : nat) (c : R) : Prop := (k <= i)%nat /\ nth_error grid (i - k) = Some (t, c).
Lemma repair_from_ok : forall t grid k vs vs', repair_from k t grid vs = Ok vs' -> overwritten (placed k grid t) vs vs'.
Proof.
  intros t. induction grid as [|[g c] grid IH]; intros k vs vs' H; cbn [repair_from] in H.
  - injection H as <-. split; [reflexivity|]. intros i. split; [intros c (_ & N); destruct (i - k)%nat; discriminate|reflexivity].
  - destruct (here t g) eqn:HG.
    + apply here_iff in HG. subst g. destruct (set_nth vs k (Some c)) as [vs1|] eqn:S1; [|discriminate]. apply set_nth_some in S1. destruct S1 as (L & L1 & N1). apply IH in H. destruct H as (L2 & H). split; [congruence|]. intros i. destruct (H i) as (HA & HB). split.
      * intros d (KI & N). destruct (Nat.eq_dec i k) as [->|NE].
        -- rewrite Nat.sub_diag in N. injection N as <-. rewrite HB; [rewrite N1, Nat.eqb_refl; reflexivity|]. intros e (X & _). lia.
        -- apply HA. split; [lia|]. replace (i - k)%nat with (S (i - S k)) in N by lia. exact N.
      * intros n. rewrite HB.
        -- rewrite N1. destruct (Nat.eqb_spec k i) as [->|]; [|reflexivity]. exfalso. apply (n c). split; [lia|]. rewrite Nat.sub_diag. reflexivity.
        -- intros d (KI & N). apply (n d). split; [lia|]. replace (i - k)%nat with (S (i - S k)) by lia. exact N.
    + assert (NG : t <> g) by (intros E; apply here_iff in E; congruence). apply IH in H. apply (over_ext (placed (S k) grid t)); [|exact H]. intros i d. split.
      * intros (KI & N). split; [lia|]. replace (i - k)%nat with (S (i - S k)) by lia. exact N.
      * intros (KI & N). destruct (Nat.eq_dec i k) as [->|NE]; [rewrite Nat.sub_diag in N; injection N as -> _; congruence|]. split; [lia|]. replace (i - k)%nat with (S (i - S k)) in N by lia. exact N.
Qed.
Lemma repair_from_total : forall t grid k vs, (forall i c, placed k grid t i c -> (i < List.length vs)%nat) -> exists vs', repair_from k t grid vs = Ok vs'.
Proof.
  intros t. induction grid as [|[g c] grid IH]; intros k vs H; cbn [repair_from]; [eexists; reflexivity|].
  assert (H' : forall i d, placed (S k) grid t i d -> (i < List.length vs)%nat) by (intros i d (KI & N); apply (H i d); split; [lia|]; replace (i - k)%nat with (S (i - S k)) by lia; exact N).
  destruct (here t g) eqn:HG; [|apply IH; exact H']. apply here_iff in HG. subst g. destruct (set_nth_ok val vs k (Some c)) as (vs1 & S1); [apply (H k c); split; [lia|]; rewrite Nat.sub_diag; reflexivity|]. rewrite S1. apply IH. apply set_nth_some in S1. destruct S1 as (_ & -> & _). exact H'.
Qed.
Definition written (grid : list ((R * R) * R)) (ts : list (R * R)) (i : nat) (c : R) : Prop := exists t, In t ts /\ nth_error grid i = Some (t, c).
Lemma repair_ok : forall grid ts vs vs', repair ts grid vs = Ok vs' -> overwritten (written grid ts) vs vs'.
Proof.
  intros grid. induction ts as [|t ts IH]; intros vs vs' H; cbn [repair] in H.
  - injection H as <-. split; [reflexivity|]. intros i. split; [intros c (t & [] & _)|reflexivity].
  - destruct (repair_from 0 t grid vs) as [vs1|] eqn:E; cbn [bind] in H; [|discriminate]. apply repair_from_ok in E. apply IH in H. destruct E as (L1 & E). destruct H as (L2 & H). split; [congruence|]. intros i. destruct (E i) as (EA & EB). destruct (H i) as (HA & HB). split.
    + intros c (u & U & N). destruct (in_dec (fun a b => ltac:(destruct (here a b) eqn:X; [left; apply here_iff; exact X|right; intros Y; apply here_iff in Y; congruence]) : {a = b} + {a <> b}) u ts) as [I|NI]; [apply HA; exists u; auto|]. destruct U as [<- | U]; [|contradiction].
      rewrite HB; [apply EA; split; [lia|]; rewrite Nat.sub_0_r; exact N|]. intros d (u & U & N'). rewrite N in N'. injection N' as <- <-. contradiction.
    + intros n. rewrite HB; [apply EB; intros d (_ & N); rewrite Nat.sub_0_r in N; apply (n d); exists t; split; [left; reflexivity|exact N]|]. intros d (u & U & N). apply (n d). exists u. split; [right; exact U|exact N].
Qed.
Lemma repair_total : forall grid ts vs, (forall i c, written grid ts i c -> (i < List.length vs)%nat) -> exists vs', repair ts grid vs = Ok vs'.
Proof.
  intros grid. induction ts as [|t ts IH]; intros vs H; cbn [repair]; [eexists; reflexivity|]. destruct (repair_from_total t grid 0 vs) as (vs1 & E); [intros i c (_ & N); rewrite Nat.sub_0_r in N; apply (H i c); exists t; split; [left; reflexivity|exact N]|]. rewrite E. cbn [bind]. apply repair_from_ok in E. destruct E as (L & _). apply IH. intros i c (u & U & N). rewrite L. apply (H i c). exists u. split; [right; exact U|exact N].
Qed.
Lemma written_dec : forall grid ts i, (exists c, written grid ts i c) \/ forall c, ~ written grid ts i c.
Proof.
  intros grid ts i. destruct (nth_error grid i) as [[g c]|] eqn:N; [|right; intros c (t & _ & E); congruence]. assert (D : {In g ts} + {~ In g ts}). { apply in_dec. intros a b. destruct (here a b) eqn:X; [left; apply here_iff; exact X|right; intros Y; apply here_iff in Y; congruence]. }
  destruct D as [I|NI]; [left; exists c, g; auto|]. right. intros d (t & T & E). rewrite N in E. injection E as -> ->. contradiction.
Qed.
Definition nans (tv : list ((R * R) * val)) : list (R * R) := map fst (filter (fun x => is_nan (snd x)) tv).
Lemma in_nans : forall tv t, In t (nans tv) <-> In (t, None) tv.
Proof.
  intros tv t. unfold nans. rewrite in_map_iff. split; [intros ([u v] & <- & I); apply filter_In in I; cbn [fst snd] in I; destruct I as (I & N); destruct v; [discriminate|exact I]|]. intros I. exists (t, None). split; [reflexivity|]. apply filter_In. split; [exact I|reflexivity].
Qed.
Lemma repaired_iff : forall grid ts vs vs', List.length ts = List.length vs -> (repair (nans (combine ts vs)) grid vs = Ok vs' <-> repaired grid (combine ts vs) vs').
Proof.
  intros grid ts vs vs' LE. set (tv := combine ts vs). assert (LT : List.length tv = List.length vs) by (unfold tv; rewrite combine_length; lia).
  assert (NV : forall i t v, nth_error tv i = Some (t, v) -> nth_error vs i = Some v). { intros i t v N. unfold tv in N. clear - N LE. revert vs i LE N. induction ts as [|a ts IH]; intros [|b vs] i LE N; try discriminate; [destruct i; discriminate|]. destruct i as [|i]; cbn [combine nth_error] in *; [congruence|]. apply (IH vs i); [cbn in LE; lia|exact N]. }
  assert (FW : forall w, overwritten (written grid (nans tv)) vs w -> repaired grid tv w).
  { intros w O. pose proof O as (L & H). split; [congruence|]. split.
    - intros t i c I N. rewrite LT. apply (over_lt _ _ _ i c O). exists t. split; [apply in_nans; exact I|exact N].
    - intros i t v N. destruct (H i) as (HA & HB). split; [intros g c G I; apply HA; exists g; split; [apply in_nans; exact I|exact G]|]. intros n. rewrite HB; [apply (NV i t v N)|]. intros c (g & G & E). apply in_nans in G. exact (n g c E G). }
  split; [intros H; apply FW; apply repair_ok; exact H|]. intros (L & B & H). destruct (repair_total grid (nans tv) vs) as (w & E); [intros i c (t & T & N); rewrite <- LT; apply in_nans in T; exact (B t i c T N)|]. rewrite E. f_equal. apply repair_ok in E. apply (over_fun _ vs w vs' (written_dec grid (nans tv)) E).
  split; [congruence|]. intros i. destruct (nth_error tv i) as [[t v]|] eqn:N.
  - destruct (H i t v N) as (HA & HB). split; [intros c (g & G & X); apply (HA g c X); apply in_nans; exact G|]. intros n. rewrite (NV i t v N). apply HB. intros g c X I. apply (n c). exists g. split; [apply in_nans; exact I|exact X].
  - apply nth_error_None in N. split; [intros c (g & G & X); apply in_nans in G; specialize (B g i c G X); lia|]. intros _. rewrite (proj2 (nth_error_None vs' i)) by lia. symmetry. apply nth_error_None. lia.
Qed.
