(** Laws of the core throughput. *)
From Coq Require Import List Arith Bool Reals ZArith String Sorting Lia Lra.
From Verif Require Import Base CombineModel ComboSpec ComboProofs DqModel AngleModel AngleSpec NearModel NearSpec NearProofs FlatModel FlatSpec FlatProofs FlatTopProofs FluxModel FluxSpec FluxProofs FluxBandProofs FluxRunProofs CtModel CtSpec CtProofs CtSetProofs CtDataProofs CtInterpProofs CtMapProofs.
Import ListNotations.
Local Open Scope R_scope.

(** ** Sums *)
Lemma moment_nil : forall f w m, moment f [] w (Some m) <-> m = 0.
Proof. intros f w m. unfold moment. rewrite total_iff. cbn. split; congruence. Qed.
Lemma moment_cons : forall f q ps w m, moment f (q :: ps) w (Some m) <-> exists v m', value_of f q = Some v /\ moment f ps w (Some m') /\ m = w q * v + m'.
Proof.
  intros f q ps w m. unfold moment. cbn [map]. setoid_rewrite total_iff. cbn [vsum fold_right]. fold (vsum (map (fun q => prod (Some (w q)) (value_of f q)) ps)). destruct (value_of f q) as [v|]; cbn [prod vadd]; [|split; [discriminate|intros (v & m' & E & _); discriminate]]. destruct (vsum _) as [s|]; [|split; [discriminate|intros (v' & m' & _ & E & _); discriminate]].
  split; [intros E; injection E as ->; exists v, s; auto|]. intros (v' & m' & E & F & ->). injection E as <-. injection F as ->. reflexivity.
Qed.
Lemma moment_bounds : forall f w a b ps s m, (forall q, In q ps -> a <= w q <= b) -> (forall q v, In q ps -> value_of f q = Some v -> 0 <= v) -> moment f ps (fun _ => 1) (Some s) -> moment f ps w (Some m) -> 0 <= s /\ a * s <= m <= b * s.
Proof.
  intros f w a b. induction ps as [|q ps IH]; intros s m W V S0 M.
  - apply moment_nil in S0. apply moment_nil in M. subst. lra.
  - apply moment_cons in S0. apply moment_cons in M. destruct S0 as (v & s' & E & S0 & ->). destruct M as (v' & m' & E' & M & ->). rewrite E in E'. injection E' as <-. destruct (IH s' m') as (P & B); [intros r R0; apply W; right; exact R0|intros r u R0; apply V; right; exact R0|exact S0|exact M|]. pose proof (W q (or_introl eq_refl)). pose proof (V q v (or_introl eq_refl) E) as P1. split; [lra|].
    assert (a * v <= w q * v) by (apply Rmult_le_compat_r; lra). assert (w q * v <= b * v) by (apply Rmult_le_compat_r; lra). rewrite !Rmult_plus_distr_l. lra.
Qed.
(** The centroid of a PSF without negative pixels is in the square around its brightest pixel. *)
Lemma centroid_within : forall f r x y, (forall p v, inside_of f p -> value_of f p = Some v -> 0 <= v) -> position f r (Some x) (Some y) ->
  exists p, is_peak f p /\ INR (snd p) - INR r <= x <= INR (snd p) + INR r /\ INR (fst p) - INR r <= y <= INR (fst p) + INR r.
Proof.
  intros f r x y V (p & ps & s & sx & sy & P & SV & S0 & SX & SY & A & B). exists p. split; [exact P|]. pose proof (pos_INR r) as RP.
  assert (S1 : exists s0, s = Some s0). { destruct s as [s0|]; [eexists; reflexivity|]. destruct B as (B & _); [discriminate|]. destruct sx; discriminate. } destruct S1 as (s0 & ->).
  destruct (Req_EM_T s0 0) as [->|NZ]; [destruct (A eq_refl) as (E1 & E2); injection E1 as ->; injection E2 as ->; lra|]. destruct B as (B1 & B2); [intros K; injection K as K; contradiction|].
  destruct sx as [sx|]; [|discriminate]. destruct sy as [sy|]; [|discriminate]. cbn [quot] in B1, B2. destruct (Req_EM_T s0 0); [contradiction|]. injection B1 as ->. injection B2 as ->.
  assert (IN : forall q, In q ps -> close r p q /\ inside_of f q). { apply square_iff in SV. subst ps. intros q Q. unfold square in Q. destruct q as [i j]. apply in_prod_iff in Q. unfold span in Q. rewrite !in_seq in Q. unfold close, inside_of. cbn [fst snd]. lia. }
  assert (V' : forall q v, In q ps -> value_of f q = Some v -> 0 <= v) by (intros q v Q; apply V; apply IN; exact Q).
  assert (I1 : forall a b, (a <= b + r)%nat -> INR a <= INR b + INR r) by (intros a b H; rewrite <- plus_INR; apply le_INR; exact H).
  destruct (moment_bounds f (fun q => INR (snd q)) (INR (snd p) - INR r) (INR (snd p) + INR r) ps s0 sx) as (P0 & X1 & X2); [|exact V'|exact S0|exact SX|].
  { intros q Q. destruct (IN q Q) as ((C1 & C2 & C3 & C4) & _). apply I1 in C3. apply I1 in C4. lra. }
  destruct (moment_bounds f (fun q => INR (fst q)) (INR (fst p) - INR r) (INR (fst p) + INR r) ps s0 sy) as (_ & Y1 & Y2); [|exact V'|exact S0|exact SY|].
  { intros q Q. destruct (IN q Q) as ((C1 & C2 & C3 & C4) & _). apply I1 in C1. apply I1 in C2. lra. }
  assert (P1 : 0 < s0) by lra. assert (P2 := Rinv_0_lt_compat _ P1).
  assert (DIV : forall a m, a * s0 <= m -> a <= m / s0) by (intros a m H; apply (Rmult_le_reg_r s0); [exact P1|]; replace (m / s0 * s0) with m by (field; exact NZ); exact H).
  assert (DIV' : forall b m, m <= b * s0 -> m / s0 <= b) by (intros b m H; apply (Rmult_le_reg_r s0); [exact P1|]; replace (m / s0 * s0) with m by (field; exact NZ); exact H).
  repeat split; auto.
Qed.

(** ** Scaling *)
Lemma brighter_inside : forall k f g p, brighter k f g -> (inside_of g p <-> inside_of f p).
Proof. intros k f g p (A & B & _). unfold inside_of. rewrite A, B. reflexivity. Qed.
Lemma brighter_places : forall k f g, brighter k f g -> places g = places f.
Proof. intros k f g (A & B & _). unfold places. rewrite A, B. reflexivity. Qed.
Lemma brighter_moment : forall k f g w ps m, brighter k f g -> moment f ps w m -> moment g ps w (option_map (Rmult k) m).
Proof.
  intros k f g w ps m (_ & _ & V) M. unfold moment in *. apply total_iff in M. apply total_iff. subst m. induction ps as [|q ps IH]; cbn [map vsum fold_right]; [cbn; f_equal; ring|]. unfold vsum in IH. rewrite <- IH. rewrite V. destruct (value_of f q) as [v|]; [|reflexivity]. cbn [option_map prod]. destruct (fold_right vadd (Some 0) _) as [s|]; [|reflexivity]. cbn [option_map vadd]. f_equal. ring.
Qed.
Lemma brighter_peak : forall k f g p, 0 < k -> brighter k f g -> is_peak f p -> is_peak g p.
Proof.
  intros k f g p K B (I & v & V & M). pose proof B as (_ & _ & VAL). split; [apply (brighter_inside k f g); assumption|]. exists (k * v). split; [rewrite VAL, V; reflexivity|]. intros q w Q W. apply (brighter_inside k f g) in Q; [|exact B]. rewrite VAL in W. destruct (value_of f q) as [u|] eqn:U; [|discriminate]. injection W as <-. destruct (M q u Q U) as (L & S0). split; [apply Rmult_le_compat_l; lra|]. intros H. apply Rmult_lt_compat_l; [exact K|auto].
Qed.
Lemma position_scale : forall k f g r x y, 0 < k -> brighter k f g -> position f r x y -> position g r x y.
Proof.
  intros k f g r x y K B (p & ps & s & sx & sy & P & SV & S0 & SX & SY & A & D). exists p, ps, (option_map (Rmult k) s), (option_map (Rmult k) sx), (option_map (Rmult k) sy). split; [apply (brighter_peak k f g); assumption|]. split; [rewrite (brighter_places k f g B); exact SV|]. do 3 (split; [apply (brighter_moment k f g); assumption|]). split.
  - intros E. apply A. destruct s as [s|]; [|discriminate]. injection E as E. f_equal. apply Rmult_integral in E. lra.
  - intros N. assert (NS : s <> Some 0) by (intros ->; apply N; cbn; f_equal; ring). destruct (D NS) as (-> & ->). destruct s as [s|]; [|destruct sx, sy; split; reflexivity]. assert (s <> 0) by congruence. assert (k * s <> 0) by (intros E; apply Rmult_integral in E; lra).
    split; [destruct sx as [a|]|destruct sy as [a|]]; try reflexivity; cbn [option_map quot]; (destruct (Req_EM_T s 0); [contradiction|]); (destruct (Req_EM_T (k * s) 0); [contradiction|]); f_equal; field; lra.
Qed.
Lemma brighter_core : forall k f g p, 0 < k -> brighter k f g -> (in_core g p <-> in_core f p).
Proof.
  intros k f g p K B. pose proof B as (_ & _ & VAL). unfold in_core. split.
  - intros (v & V & M). rewrite VAL in V. destruct (value_of f p) as [u|] eqn:U; [|discriminate]. injection V as <-. exists u. split; [reflexivity|]. intros q Q. apply (brighter_inside k f g) in Q; [|exact B]. destruct (M q Q) as (w & W & L). rewrite VAL in W. destruct (value_of f q) as [z|]; [|discriminate]. injection W as <-. exists z. split; [reflexivity|]. apply (Rmult_le_reg_l k); [exact K|lra].
  - intros (v & V & M). exists (k * v). rewrite VAL, V. split; [reflexivity|]. intros q Q. apply (brighter_inside k f g) in Q; [|exact B]. destruct (M q Q) as (w & W & L). exists (k * w). rewrite VAL, W. split; [reflexivity|]. replace (2 * (k * v)) with (k * (2 * v)) by ring. apply Rmult_le_compat_l; lra.
Qed.
Lemma sieve_ext : forall A (P Q : A -> Prop) l m, (forall x, P x <-> Q x) -> sieve P l m -> sieve Q l m.
Proof. intros A P Q l m E S0. induction S0; [constructor|apply sieve_in; [apply E; assumption|assumption]|apply sieve_out; [intros H'; rewrite <- E in H'; contradiction|assumption]]. Qed.
Lemma throughput_scale : forall k f g n v, 0 < k -> brighter k f g -> throughput n f v -> throughput (option_map (Rmult k) n) g v /\ throughput n g (option_map (Rmult k) v).
Proof.
  intros k f g n v K B (A & C & s & (ps & xs & SV & X & ->) & ->). assert (CF : core_flux g (k * fold_right Rplus 0 xs)).
  { exists ps, (map (Rmult k) xs). split; [rewrite (brighter_places k f g B); apply (sieve_ext _ (in_core f)); [intros p; symmetry; apply (brighter_core k f g); assumption|exact SV]|]. split.
    - destruct B as (_ & _ & VAL). clear SV. revert xs X. induction ps as [|p ps IH]; intros [|x xs] X; try discriminate; [reflexivity|]. cbn [map] in *. injection X as X1 X2. rewrite VAL, X1, (IH xs X2). reflexivity.
    - clear. induction xs as [|x xs IH]; cbn [map fold_right]; [ring|rewrite <- IH; ring]. }
  pose proof B as (B1 & B2 & _). rewrite <- B1 in A. rewrite <- B2 in C. split; (split; [exact A|]); (split; [exact C|]); exists (k * fold_right Rplus 0 xs); (split; [exact CF|]).
  - destruct n as [n|]; [|reflexivity]. cbn [option_map quot]. destruct (Req_EM_T n 0) as [->|N], (Req_EM_T (k * _) 0) as [E|E]; try reflexivity; [exfalso; apply E; ring|apply Rmult_integral in E; lra|f_equal; field; lra].
  - destruct n as [n|]; [|reflexivity]. cbn [option_map quot]. destruct (Req_EM_T n 0); [reflexivity|]. cbn [option_map]. f_equal. field. assumption.
Qed.

(** ** Throughputs are fractions *)
Lemma sub_sum : forall (g : nat * nat -> R) P l m, (forall q, In q l -> 0 <= g q) -> sieve P l m -> 0 <= fold_right Rplus 0 (map g m) <= fold_right Rplus 0 (map g l).
Proof.
  intros g P l m N S0. induction S0 as [|x l m HP S0 IH|x l m HP S0 IH]; cbn [map fold_right]; [lra| |]; (assert (0 <= g x) by (apply N; left; reflexivity)); (assert (IH' : 0 <= fold_right Rplus 0 (map g m) <= fold_right Rplus 0 (map g l)) by (apply IH; intros q Q; apply N; right; exact Q)); lra.
Qed.
Lemma sieve_sub : forall A (P : A -> Prop) l m x, sieve P l m -> In x m -> In x l /\ P x.
Proof. intros A P l m x S0. induction S0; intros I; [destruct I|destruct I as [<- | I]; [split; [left; reflexivity|assumption]|destruct (IHS0 I); split; [right; assumption|assumption]]|destruct (IHS0 I); split; [right; assumption|assumption]]. Qed.
Lemma throughput_unit : forall f s n v, (forall p w, inside_of f p -> value_of f p = Some w -> 0 <= w) -> total (map (value_of f) (places f)) (Some s) -> 0 < n -> s <= n -> throughput (Some n) f (Some v) -> 0 <= v <= s / n /\ v <= 1.
Proof.
  intros f s n v N T P L (_ & _ & c & (ps & xs & SV & X & ->) & E). cbn [quot] in E. destruct (Req_EM_T n 0); [lra|]. injection E as ->.
  set (g := fun q => match value_of f q with Some w => w | None => 0 end). assert (X' : xs = map g ps). { clear - X. revert xs X. induction ps as [|p ps IH]; intros [|x xs] X; try discriminate; [reflexivity|]. cbn [map] in *. injection X as X1 X2. f_equal; [unfold g; rewrite X1; reflexivity|apply IH; exact X2]. }
  destruct T as (ys & Y & ->). assert (Y' : ys = map g (places f)). { clear - Y. revert ys Y. induction (places f) as [|p ps IH]; intros [|x xs] X; try discriminate; [reflexivity|]. cbn [map] in *. injection X as X1 X2. f_equal; [unfold g; rewrite X1; reflexivity|apply IH; exact X2]. }
  assert (B : 0 <= fold_right Rplus 0 xs <= fold_right Rplus 0 ys). { subst xs ys. apply (sub_sum g (in_core f)); [|exact SV]. intros q Q. unfold g. destruct (value_of f q) as [w|] eqn:W; [|lra]. apply (N q w); [apply spots_in; exact Q|exact W]. }
  assert (P2 := Rinv_0_lt_compat _ P). unfold Rdiv. split; [split; [apply Rmult_le_pos; lra|apply Rmult_le_compat_r; lra]|]. replace 1 with (n * / n) by (field; lra). apply Rmult_le_compat_r; lra.
Qed.
(** A pixel that is not a number empties the core. *)
Lemma nan_core : forall f p n v, inside_of f p -> value_of f p = None -> throughput n f v -> v = quot (Some 0) n.
Proof.
  intros f p n v I N (_ & _ & s & (ps & xs & SV & X & ->) & ->). assert (E : ps = []). { destruct ps as [|q ps]; [reflexivity|]. exfalso. destruct (sieve_sub _ _ _ _ q SV (or_introl eq_refl)) as (_ & w & _ & H). destruct (H p I) as (u & U & _). congruence. } subst ps. destruct xs; [|discriminate]. reflexivity.
Qed.

(** ** A PSF that is symmetric about its brightest pixel *)
Lemma rev_seq : forall n k c, (k + n <= c + 1)%nat -> rev (seq k n) = map (fun i => (c - i)%nat) (seq (c + 1 - k - n) n).
Proof.
  induction n as [|n IH]; intros k c H; [reflexivity|]. rewrite seq_S. rewrite rev_unit. cbn [seq map]. f_equal; [lia|]. rewrite (IH k c) by lia. f_equal. f_equal. lia.
Qed.
Lemma rev_prod : forall (l m : list nat), rev (list_prod l m) = list_prod (rev l) (rev m).
Proof.
  induction l as [|a l IH]; intros m; [reflexivity|]. cbn [list_prod rev]. rewrite rev_app_distr, IH, <- map_rev. assert (E : forall (u v w : list nat), list_prod (u ++ v) w = list_prod u w ++ list_prod v w) by (induction u as [|x u IHu]; intros v w; [reflexivity|]; cbn [app list_prod]; rewrite IHu, app_assoc; reflexivity). rewrite E. cbn [list_prod]. rewrite app_nil_r. reflexivity.
Qed.
Lemma map_prod : forall (g h : nat -> nat) l m, list_prod (map g l) (map h m) = map (fun q => (g (fst q), h (snd q))) (list_prod l m).
Proof. intros g h. induction l as [|a l IH]; intros m; [reflexivity|]. cbn [map list_prod]. rewrite map_app, IH, !map_map. reflexivity. Qed.
Lemma span_mid : forall n k r, (r <= k)%nat -> (k + r < n)%nat -> span n k r = seq (k - r) (2 * r + 1).
Proof. intros n k r A B. unfold span. f_equal. lia. Qed.
Lemma square_rev : forall f p r, (r <= fst p)%nat -> (fst p + r < rows f)%nat -> (r <= snd p)%nat -> (snd p + r < cols f)%nat ->
  rev (square f p r) = map (fun q => ((2 * fst p - fst q)%nat, (2 * snd p - snd q)%nat)) (square f p r).
Proof.
  intros f p r A B D E. unfold square. rewrite rev_prod, !span_mid by assumption. rewrite (rev_seq (2 * r + 1) (fst p - r) (2 * fst p)) by lia. rewrite (rev_seq (2 * r + 1) (snd p - r) (2 * snd p)) by lia.
  replace (2 * fst p + 1 - (fst p - r) - (2 * r + 1))%nat with (fst p - r)%nat by lia. replace (2 * snd p + 1 - (snd p - r) - (2 * r + 1))%nat with (snd p - r)%nat by lia. apply (map_prod (fun i => (2 * fst p - i)%nat) (fun i => (2 * snd p - i)%nat)).
Qed.
Definition val0 (f : img) (q : nat * nat) : R := match value_of f q with Some v => v | None => 0 end.
Lemma moment_val : forall f w ps m, moment f ps w (Some m) -> m = fold_right Rplus 0 (map (fun q => w q * val0 f q) ps).
Proof.
  intros f w. induction ps as [|q ps IH]; intros m M; [apply moment_nil in M; exact M|]. apply moment_cons in M. destruct M as (v & m' & V & M & ->). cbn [map fold_right]. rewrite <- (IH m' M). unfold val0. rewrite V. reflexivity.
Qed.
Lemma sum_rev : forall l, fold_right Rplus 0 (rev l) = fold_right Rplus 0 l.
Proof.
  assert (A : forall u v, fold_right Rplus 0 (u ++ v) = fold_right Rplus 0 u + fold_right Rplus 0 v) by (induction u as [|x u IH]; intros v; cbn [app fold_right]; [ring|rewrite IH; ring]). induction l as [|x l IH]; [reflexivity|]. cbn [rev]. rewrite A, IH. cbn. ring.
Qed.
Lemma symmetric_sum : forall f p r (w : nat * nat -> R) c, (r <= fst p)%nat -> (fst p + r < rows f)%nat -> (r <= snd p)%nat -> (snd p + r < cols f)%nat -> symmetric f p r ->
  (forall q, close r p q -> w q + w ((2 * fst p - fst q)%nat, (2 * snd p - snd q)%nat) = 2 * c) ->
  fold_right Rplus 0 (map (fun q => w q * val0 f q) (square f p r)) = c * fold_right Rplus 0 (map (fun q => 1 * val0 f q) (square f p r)).
Proof.
  intros f p r w c A B D E SY W. set (rf := fun q : nat * nat => ((2 * fst p - fst q)%nat, (2 * snd p - snd q)%nat)).
  assert (CL : forall q, In q (square f p r) -> close r p q) by (intros [i j] Q; unfold square in Q; apply in_prod_iff in Q; unfold span in Q; rewrite !in_seq in Q; unfold close; cbn [fst snd]; lia).
  assert (E2 : fold_right Rplus 0 (map (fun q => w q * val0 f q) (square f p r)) = fold_right Rplus 0 (map (fun q => (2 * c - w q) * val0 f q) (square f p r))).
  { rewrite <- sum_rev, <- map_rev, square_rev by assumption. fold rf. rewrite map_map. f_equal. apply map_ext_in. intros q Q. apply CL in Q. pose proof (W q Q) as WQ. unfold val0. rewrite (SY q Q). fold rf in WQ |- *. unfold rf in *. replace (w _) with (2 * c - w q) by lra. reflexivity. }
  assert (E3 : fold_right Rplus 0 (map (fun q => (2 * c - w q) * val0 f q) (square f p r)) = 2 * c * fold_right Rplus 0 (map (fun q => 1 * val0 f q) (square f p r)) - fold_right Rplus 0 (map (fun q => w q * val0 f q) (square f p r))) by (clear; induction (square f p r) as [|q l IH]; cbn [map fold_right]; [ring|rewrite IH; ring]).
  lra.
Qed.
Lemma symmetric_position : forall f p r x y, is_peak f p -> (r <= fst p)%nat -> (fst p + r < rows f)%nat -> (r <= snd p)%nat -> (snd p + r < cols f)%nat -> symmetric f p r -> position f r (Some x) (Some y) -> x = INR (snd p) /\ y = INR (fst p).
Proof.
  intros f p r x y P A B D E SY (p' & ps & s & sx & sy & P' & SV & S0 & SX & SYY & HA & HB). assert (p' = p) by (apply (peak_one f); assumption). subst p'. apply square_iff in SV. subst ps.
  destruct s as [s|]; [|destruct HB as (HB & _); [discriminate|]; destruct sx; discriminate]. destruct (Req_EM_T s 0) as [->|NZ]; [destruct (HA eq_refl) as (E1 & E2); injection E1 as ->; injection E2 as ->; auto|]. destruct HB as (B1 & B2); [congruence|]. destruct sx as [sx|]; [|discriminate]. destruct sy as [sy|]; [|discriminate]. cbn [quot] in B1, B2. destruct (Req_EM_T s 0); [contradiction|]. injection B1 as ->. injection B2 as ->.
  apply moment_val in S0. apply moment_val in SX. apply moment_val in SYY. split.
  - rewrite SX. rewrite (symmetric_sum f p r (fun q => INR (snd q)) (INR (snd p))); [rewrite <- S0; field; exact NZ|assumption..|]. intros q (_ & _ & Q1 & Q2). cbn [snd]. rewrite <- plus_INR, <- (mult_INR 2). f_equal. lia.
  - rewrite SYY. rewrite (symmetric_sum f p r (fun q => INR (fst q)) (INR (fst p))); [rewrite <- S0; field; exact NZ|assumption..|]. intros q (Q1 & Q2 & _). cbn [fst]. rewrite <- plus_INR, <- (mult_INR 2). f_equal. lia.
Qed.
Lemma centroid_fails : forall f r e, centroid_with_roi f r = Raise e <-> e = ValueError /\ forall p, inside_of f p -> value_of f p = None.
Proof.
  intros f r e. rewrite <- brightest_fails. unfold centroid_with_roi. destruct (brightest f) as [p|e']; cbn [bind]; [|split; intros H; injection H as ->; reflexivity]. destruct (is_zero _); split; discriminate.
Qed.
