(** Proofs about the flat fields: slices, sky, residuals, painting. *)
From Coq Require Import List Arith Bool Reals ZArith Lia Lra String Ascii Permutation.
From Verif Require Import Base CombineModel CombineSpec CombineProofs ComboSpec ComboProofs FindModel FindProofs FlatModel FlatSpec.
Import ListNotations.
Local Open Scope R_scope.

Lemma bound_start : forall n k, bound n k = start n k.
Proof. intros n k. unfold bound, start, norm. destruct (k <? 0)%Z; lia. Qed.
Lemma bound_extent : forall n lo hi, (bound n hi - bound n lo)%nat = extent n lo hi.
Proof. intros n lo hi. unfold bound, extent, norm. destruct (lo <? 0)%Z, (hi <? 0)%Z; lia. Qed.
Lemma within_iff : forall n lo hi r, (bound n lo <= r < bound n hi)%nat <-> within n lo hi r.
Proof. intros n lo hi r. unfold bound, within, norm. destruct (lo <? 0)%Z, (hi <? 0)%Z; lia. Qed.
Lemma nanmedian_of : forall l, median_of l (nanmedian l).
Proof. intros l. exact (nanmedian_spec l). Qed.
Lemma is_zero_iff : forall v, is_zero v = true <-> v = Some 0.
Proof. intros [x|]; cbn; [|split; discriminate]. destruct (Req_EM_T x 0) as [->|N]; [split; reflexivity|]. split; [discriminate|intros H; injection H as ->; congruence]. Qed.
Lemma disc_iff : forall rad i k, in_disc rad i k = true <-> disc rad i k.
Proof. intros rad i k. unfold in_disc, disc. destruct (Rlt_dec _ rad) as [H|H]; split; try discriminate; auto; contradiction. Qed.
Lemma index_combine : forall {A} (l : list A), index l = combine (seq 0 (List.length l)) l.
Proof. reflexivity. Qed.

Lemma mates_block : forall {A} N (l : list A) k j, (1 <= k)%nat -> List.length l = (N * k)%nat -> (j < List.length l)%nat -> mates N l j (firstn k (skipn (j / k * k) l)).
Proof.
  intros A N l k j K L J. pose proof (Nat.div_mod j k ltac:(lia)) as D. pose proof (Nat.mod_upper_bound j k ltac:(lia)) as U. assert (Q : (j / k < N)%nat) by (apply Nat.div_lt_upper_bound; lia).
  assert (B : (j / k * k + k <= List.length l)%nat) by nia. assert (LM : List.length (firstn k (skipn (j / k * k) l)) = k) by (rewrite firstn_length, skipn_length; lia).
  exists (firstn (j / k * k) l), (skipn k (skipn (j / k * k) l)), (j / k)%nat. rewrite LM. split; [rewrite firstn_skipn, firstn_skipn; reflexivity|]. rewrite firstn_length. split; [exact L|]. split; nia.
Qed.
(** [mates] leaves no choice. *)
Lemma mates_one : forall {A} N (l : list A) j m m', mates N l j m -> mates N l j m' -> (1 <= N)%nat -> m = m'.
Proof.
  intros A N l j m m' (x & y & k & E & L & X & J) (x' & y' & k' & E' & L' & X' & J') P. assert (LE : List.length m = List.length m') by nia. rewrite <- LE in *. assert (KE : k = k') by nia. subst k'.
  assert (firstn (List.length x) l = x) as F1 by (rewrite E, firstn_app, Nat.sub_diag, firstn_all, firstn_O, app_nil_r; reflexivity).
  assert (firstn (List.length x') l = x') as F2 by (rewrite E', firstn_app, Nat.sub_diag, firstn_all, firstn_O, app_nil_r; reflexivity).
  assert (XE : x = x') by (rewrite <- F1, <- F2; f_equal; lia). subst x'. rewrite E' in E. apply app_inv_head in E.
  assert (G1 : firstn (List.length m) (m ++ y) = m) by (rewrite firstn_app, Nat.sub_diag, firstn_all, firstn_O, app_nil_r; reflexivity). rewrite <- E, LE in G1. rewrite firstn_app, Nat.sub_diag, firstn_all, firstn_O, app_nil_r in G1. symmetry. exact G1.
Qed.

(** ** Mean flat *)
Lemma mean_value : forall l, mean_of l (nanmean l).
Proof.
  intros l. unfold nanmean, mean_of. destruct (somes l) as [|x t] eqn:E; [reflexivity|]. split; [discriminate|]. unfold rsum. field. apply not_0_INR. discriminate.
Qed.
Lemma somes_map : forall (h : R -> R) l, somes (map (fun v => option_map h v) l) = map h (somes l).
Proof. induction l as [|[x|] l IH]; cbn; [reflexivity| |]; rewrite IH; reflexivity. Qed.
Lemma sum_nonneg : forall l, (forall x, In x l -> 0 <= x) -> 0 <= rsum l.
Proof. induction l as [|x l IH]; intros H; cbn; [lra|]. pose proof (H x (or_introl eq_refl)). assert (0 <= rsum l) by (apply IH; intros y Y; apply H; right; exact Y). unfold rsum in *. lra. Qed.
Lemma error_value : forall n l, (1 <= n)%nat -> error_of n l (option_map (fun s => s / sqrt (INR n)) (nanstd l)).
Proof.
  intros n l N. unfold nanstd. pose proof (mean_value l) as M. destruct (nanmean l) as [m|] eqn:E; cbn [mean_of] in M; [|exact M]. pose proof (mean_value (map (fun v => option_map (fun x => (x - m) ^ 2) v) l)) as V. destruct (nanmean (map (fun v => option_map (fun x => (x - m) ^ 2) v) l)) as [v|] eqn:EV; cbn [option_map error_of mean_of] in *; rewrite somes_map in V.
  - assert (NP : 0 < INR n) by (apply lt_0_INR; lia). assert (SP : 0 < sqrt (INR n)) by (apply sqrt_lt_R0; exact NP).
    assert (VP : 0 <= v). { destruct V as (NE & V). assert (LP : 0 < INR (List.length (map (fun x => (x - m) ^ 2) (somes l)))) by (apply lt_0_INR; destruct (map (fun x => (x - m) ^ 2) (somes l)); [congruence|cbn; lia]). assert (SN : 0 <= rsum (map (fun x => (x - m) ^ 2) (somes l))) by (apply sum_nonneg; intros x X; apply in_map_iff in X; destruct X as (u & <- & _); apply pow2_ge_0). unfold rsum in SN. rewrite <- V in SN. destruct (Rle_dec 0 v) as [G|G]; [exact G|]. exfalso. assert (v * INR (List.length (map (fun x => (x - m) ^ 2) (somes l))) < 0) by nra. lra. }
    split; [apply Rmult_le_pos; [apply sqrt_pos|left; apply Rinv_0_lt_compat; exact SP]|]. exists m. split; [exact M|]. replace ((sqrt v / sqrt (INR n)) ^ 2 * INR n) with v; [exact V|]. unfold Rdiv. rewrite Rpow_mult_distr, pow2_sqrt by exact VP. rewrite pow_inv, pow2_sqrt by lra. field. lra.
  - destruct (somes l) as [|x t] eqn:ES; [destruct M; congruence|discriminate V].
Qed.

(** ** Kernel *)
Lemma kernel_value : forall width h w r c, pix (raster_kernel width (h, w)) r c = Some (if Rle_dec 2 width then (if Rle_dec (radial (h, w) r c) (width / 2) then 1 else 0) else 0).
Proof.
  intros width h w r c. cbn [raster_kernel pix]. assert (RN : 0 <= radial (h, w) r c) by apply sqrt_pos. destruct (Rle_dec (radial (h, w) r c) (width / 2)) as [A|A]; destruct (Rlt_dec (width / 2) _) as [B|B]; destruct (Rle_dec 2 width); try reflexivity; try lra.
Qed.

Section Proofs.
Variable centre : img -> Z * Z.
Variable gauss : img -> img.
Notation cy f := (fst (centre f)).
Notation cx f := (snd (centre f)).
Notation frame_box a f := (around (a_up a) (cy (f_img f)) (cx (f_img f))).

(** ** Sky *)
Lemma annulus_iff : forall lo hi f p, in_annulus lo hi (cy f) (cx f) p = true <-> annulus centre lo hi f p.
Proof. intros lo hi f p. unfold in_annulus, annulus. destruct (Rle_dec lo _) as [A|A]; [destruct (Rlt_dec _ hi) as [B|B]|]; split; try discriminate; try tauto; auto. Qed.
Lemma sky_ok : forall lo hi f, sky_of centre lo hi f (sky lo hi (cy f) (cx f) f).
Proof. intros lo hi f. exists (filter (in_annulus lo hi (cy f) (cx f)) (spots f)). split; [apply (sieve_filter _ _ _ (annulus_iff lo hi f)); reflexivity|apply nanmedian_of]. Qed.
Definition keeps (a : args) (rad : R) (f g : frame) : Prop := cleaned centre a rad (f_img f) (f_img g) /\ f_target g = f_target f /\ f_ext g = f_ext f.
Lemma prepare_ok : forall a o rad l, (o = Some rad \/ a_annulus a = None) -> exists m, prepare centre a o l = (m, Ok (combine m (map (fun f => frame_box a f) l))) /\ Forall2 (keeps a rad) l m.
Proof.
  intros a o rad l H. induction l as [|f l (m & IH & F)]; [exists []; split; [reflexivity|constructor]|]. cbn [prepare]. unfold prepared. rewrite IH. destruct (centre (f_img f)) as (yc, xc) eqn:EC. unfold keeps in *. 
  destruct (a_annulus a) as [(rin, rout)|] eqn:EA.
  - destruct H as [->|H]; [|discriminate H]. eexists (_ :: m). split; [cbn [bind combine map]; rewrite EC; cbn [fst snd]; reflexivity|]. constructor; [|exact F]. unfold cleaned. rewrite EA. cbn [f_img f_target f_ext subtract rows cols pix]. repeat split. eexists. split; [|reflexivity].
    pose proof (sky_ok (rin * rad) (rout * rad) (f_img f)) as S. rewrite EC in S. exact S.
  - eexists (_ :: m). split; [cbn [bind combine map]; rewrite EC; cbn [fst snd]; reflexivity|]. constructor; [|exact F]. unfold cleaned. rewrite EA. auto.
Qed.
Lemma prepare_bad : forall a f l, a_annulus a <> None -> prepare centre a None (f :: l) = (f :: l, Raise TypeError).
Proof. intros a f l H. cbn [prepare]. unfold prepared. destruct (centre (f_img f)). destruct (a_annulus a) as [(?, ?)|]; [reflexivity|congruence]. Qed.
Lemma cleaned_shape : forall a rad f g, cleaned centre a rad f g -> rows g = rows f /\ cols g = cols f.
Proof. intros a rad f g H. unfold cleaned in H. destruct (a_annulus a) as [(?, ?)|]; [tauto|]. rewrite H. auto. Qed.

(** ** Crops *)
Definition crop_of (up : Z) (q : img * img) : img := crop (around up (cy (fst q)) (cx (fst q))) (snd q).
Definition shaped (q : img * img) : Prop := rows (snd q) = rows (fst q) /\ cols (snd q) = cols (fst q).
Lemma crop_shape : forall up q, shaped q -> (rows (crop_of up q), cols (crop_of up q)) = extents centre up (fst q).
Proof. intros up q (R & C). unfold crop_of, crop, around, extents. cbn [rows cols ymin ymax xmin xmax]. rewrite !bound_extent, R, C. reflexivity. Qed.
Lemma crop_pix : forall up q i k, pix (crop_of up q) i k = snippet centre up q i k.
Proof. intros up q i k. unfold crop_of, crop, around, snippet. cbn [pix ymin xmin]. rewrite !bound_start. reflexivity. Qed.
Definition alike_q (up : Z) (l : list (img * img)) : Prop := forall p q, In p l -> In q l -> extents centre up (fst p) = extents centre up (fst q).
Lemma same_iff : forall f g, same f g = true <-> (rows f, cols f) = (rows g, cols g).
Proof. intros f g. unfold same. rewrite andb_true_iff, !Nat.eqb_eq. split; [intros (-> & ->); reflexivity|intros H; injection H; auto]. Qed.
Lemma all_same : forall up q l, Forall shaped (q :: l) -> (forallb (same (crop_of up q)) (map (crop_of up) (q :: l)) = true <-> alike_q up (q :: l)).
Proof.
  intros up q l S. rewrite Forall_forall in S. rewrite forallb_forall. split.
  - intros H. assert (K : forall p, In p (q :: l) -> extents centre up (fst p) = extents centre up (fst q)). { intros p P. specialize (H _ (in_map (crop_of up) _ _ P)). apply same_iff in H. rewrite (crop_shape up q (S q (or_introl eq_refl))), (crop_shape up p (S p P)) in H. symmetry. exact H. } intros p p' P P'. rewrite (K p P), (K p' P'). reflexivity.
  - intros H x X. apply in_map_iff in X. destruct X as (p & <- & P). apply same_iff. rewrite (crop_shape up q (S q (or_introl eq_refl))), (crop_shape up p (S p P)). apply H; [left; reflexivity|exact P].
Qed.
(** The residual of frame [j]. *)
Definition residual (up : Z) (l : list (img * img)) (N : nat) (jq : nat * (img * img)) : img :=
  divide (crop_of up (snd jq)) (gauss (matched (map (crop_of up) l) (List.length l / N) (fst jq / (List.length l / N)))).
Lemma index_map : forall {A B} (h : A -> B) l, index (map h l) = map (fun p => (fst p, h (snd p))) (index l).
Proof. intros A B h l. unfold index. rewrite map_length. generalize 0%nat as k. induction l as [|x l IH]; intros k; cbn [List.length seq combine map fst snd]; [reflexivity|]. f_equal. apply IH. Qed.
Lemma residuals_cases : forall up l N, l <> [] -> Forall shaped l ->
  (residuals gauss (map (crop_of up) l) N = Ok (map (residual up l N) (index l)) /\ alike_q up l /\ N <> 0%nat /\ (exists k, List.length l = (N * k)%nat))
  \/ (residuals gauss (map (crop_of up) l) N = Raise PyException /\ alike_q up l /\ N = 0%nat)
  \/ (residuals gauss (map (crop_of up) l) N = Raise ValueError /\ (alike_q up l -> N <> 0%nat /\ ~ exists k, List.length l = (N * k)%nat)).
Proof.
  intros up l N NL S. destruct l as [|q l]; [congruence|]. pose proof (all_same up q l S) as AS. unfold residuals. cbn [map]. change (crop_of up q :: map (crop_of up) l) with (map (crop_of up) (q :: l)). destruct (forallb (same (crop_of up q)) (map (crop_of up) (q :: l))) eqn:E.
  - pose proof (proj1 AS eq_refl) as A. destruct (Nat.eqb N 0) eqn:EN; [apply Nat.eqb_eq in EN; right; left; auto|]. apply Nat.eqb_neq in EN. rewrite map_length. destruct (Nat.eqb (List.length (q :: l) mod N) 0) eqn:EM.
    + apply Nat.eqb_eq in EM. left. split; [|split; [exact A|split; [exact EN|exists (List.length (q :: l) / N)%nat; pose proof (Nat.div_mod (List.length (q :: l)) N EN); lia]]]. f_equal. rewrite index_map, map_map. apply map_ext. intros (j, p). reflexivity.
    + apply Nat.eqb_neq in EM. right; right. split; [reflexivity|]. intros _. split; [exact EN|]. intros (k & K). apply EM. rewrite K, Nat.mul_comm. apply Nat.mod_mul. exact EN.
  - right; right. split; [reflexivity|]. intros A. apply AS in A. discriminate A.
Qed.
Lemma residual_value : forall up l N j q n r c, Forall shaped l -> alike_q up l -> N <> 0%nat -> (exists k, List.length l = (N * k)%nat) -> nth_error l j = Some q ->
  value_at centre gauss N up n l j q r c (pix (residual up l N (j, q)) (r - start n (cy (fst q) - up)) (c - start n (cx (fst q) - up))).
Proof.
  intros up l N j q n r c S A NZ (k & K) J. assert (JL : (j < List.length l)%nat) by (apply nth_error_Some; congruence). assert (KE : (List.length l / N)%nat = k) by (rewrite K, Nat.mul_comm; apply Nat.div_mul; exact NZ). assert (K1 : (1 <= k)%nat) by (destruct k; lia).
  exists (firstn k (skipn (j / k * k) l)), (matched (map (crop_of up) l) (List.length l / N) (j / (List.length l / N))). rewrite KE.
  split; [apply mates_block; assumption|]. destruct l as [|p l]; [destruct j; discriminate J|]. cbn [map matched rows cols]. split.
  - rewrite (crop_shape up p (proj1 (Forall_forall _ _) S p (or_introl eq_refl))). apply A; [left; reflexivity|exact (nth_error_In _ _ J)].
  - split.
    + intros i m. cbn [pix]. change (crop_of up p :: map (crop_of up) l) with (map (crop_of up) (p :: l)). rewrite skipn_map, firstn_map, map_map. replace (map (fun q' => snippet centre up q' i m) (firstn k (skipn (j / k * k) (p :: l)))) with (map (fun x => pix (crop_of up x) i m) (firstn k (skipn (j / k * k) (p :: l)))) by (apply map_ext; intros x; apply crop_pix). apply nanmedian_of.
    + unfold residual. cbn [fst snd]. rewrite KE. cbn [divide pix map]. rewrite crop_pix. reflexivity.
Qed.

(** ** Painting *)
Definition sized (up : Z) (n : nat) (q : img * img) : Prop :=
  extents centre up (fst q) = (extent n (cy (fst q) - up) (cy (fst q) + up), extent n (cx (fst q) - up) (cx (fst q) + up)).
Definition item (up : Z) (V : nat * (img * img) -> img) (jq : nat * (img * img)) : box * img := (around up (cy (fst (snd jq))) (cx (fst (snd jq))), V jq).
Lemma covers_iff : forall n up rad f r c, ((Nat.leb (bound n (cy f - up)) r && Nat.ltb r (bound n (cy f + up)) && Nat.leb (bound n (cx f - up)) c && Nat.ltb c (bound n (cx f + up)) && in_disc rad (r - bound n (cy f - up)) (c - bound n (cx f - up)))%bool = true) <-> covers centre n up rad f r c.
Proof.
  intros n up rad f r c. rewrite !andb_true_iff, !Nat.leb_le, !Nat.ltb_lt, disc_iff. unfold covers. rewrite <- !within_iff, !bound_start. tauto.
Qed.
Lemma sieve_cons : forall {A} (P : A -> Prop) x l m, sieve P (x :: l) m <-> (P x /\ exists t, m = x :: t /\ sieve P l t) \/ (~ P x /\ sieve P l m).
Proof. intros A P x l m. split; [intros H; inversion H; subst; [left; eauto|right; auto]|intros [(H & t & -> & S)|(H & S)]; [apply sieve_in|apply sieve_out]; assumption]. Qed.
Lemma paint_ok : forall n rad full b f, (rows f, cols f) = ((bound n (ymax b) - bound n (ymin b))%nat, (bound n (xmax b) - bound n (xmin b))%nat) <-> exists full', paint n rad full b f = Ok full'.
Proof.
  intros n rad full b f. unfold paint. cbv zeta. split.
  - intros E. injection E as -> ->. rewrite !Nat.eqb_refl. cbn [andb]. eexists. reflexivity.
  - intros (full' & H). destruct (Nat.eqb (rows f) _ && Nat.eqb (cols f) _)%bool eqn:E; [|discriminate H]. apply andb_true_iff in E. rewrite !Nat.eqb_eq in E. destruct E as (-> & ->). reflexivity.
Qed.
Lemma paint_raise : forall n rad full b f e, paint n rad full b f = Raise e -> e = ValueError.
Proof. intros n rad full b f e H. unfold paint in H. cbv zeta in H. destruct (Nat.eqb (rows f) _ && Nat.eqb (cols f) _)%bool; [discriminate H|congruence]. Qed.
Definition carried (up : Z) (V : nat * (img * img) -> img) (jq : nat * (img * img)) : Prop := (rows (V jq), cols (V jq)) = extents centre up (fst (snd jq)).
Lemma item_sized : forall n up V jq rad full, carried up V jq -> (sized up n (snd jq) <-> exists full', paint n rad full (fst (item up V jq)) (snd (item up V jq)) = Ok full').
Proof.
  intros n up V jq rad full C. rewrite <- paint_ok. unfold item. cbn [fst snd around ymin ymax xmin xmax]. rewrite C, !bound_extent. reflexivity.
Qed.
Lemma paint_all_ok : forall n up rad V L full, Forall (carried up V) L -> Forall (fun jq => sized up n (snd jq)) L -> exists full', paint_all n rad full (map (item up V) L) = Ok full'.
Proof.
  intros n up rad V L. induction L as [|jq L IH]; intros full C S; cbn [map paint_all]; [eexists; reflexivity|]. inversion C as [|? ? C1 C2]; inversion S as [|? ? S1 S2]; subst. destruct (proj1 (item_sized n up V jq rad full C1) S1) as (full' & P). unfold item in *. cbn [fst snd] in P. rewrite P. cbn [bind]. exact (IH full' C2 S2).
Qed.
Lemma paint_all_bad : forall n up rad V L full e, Forall (carried up V) L -> paint_all n rad full (map (item up V) L) = Raise e -> e = ValueError /\ ~ Forall (fun jq => sized up n (snd jq)) L.
Proof.
  intros n up rad V L. induction L as [|jq L IH]; intros full e C H; cbn [map paint_all] in H; [discriminate H|]. inversion C as [|? ? C1 C2]; subst. unfold item at 1 in H. cbn match in H. match type of H with bind ?x _ = _ => destruct x as [full'|e'] eqn:P end; cbn [bind] in H.
  - destruct (IH full' e C2 H) as (-> & N). split; [reflexivity|]. intros F. inversion F; subst. contradiction.
  - injection H as ->. split; [exact (paint_raise _ _ _ _ _ _ P)|]. intros F. inversion F as [|? ? S1 S2]; subst. destruct (proj1 (item_sized n up V jq rad full C1) S1) as (full' & P'). unfold item in P'. cbn [fst snd] in P'. congruence.
Qed.
Lemma paint_all_spec : forall n up rad V r c L full full' vs0, paint_all n rad full (map (item up V) L) = Ok full' -> settled vs0 (full r c) ->
  exists ch, sieve (fun jq => covers centre n up rad (fst (snd jq)) r c) L ch /\
    settled (vs0 ++ map (fun jq => pix (V jq) (r - start n (cy (fst (snd jq)) - up)) (c - start n (cx (fst (snd jq)) - up))) ch) (full' r c).
Proof.
  intros n up rad V r c L. induction L as [|jq L IH]; intros full full' vs0 H S; cbn [map paint_all] in H.
  - injection H as <-. exists []. split; [constructor|]. cbn [map]. rewrite app_nil_r. exact S.
  - change (item up V jq) with (around up (cy (fst (snd jq))) (cx (fst (snd jq))), V jq) in H. cbn match in H. destruct (paint n rad full _ (V jq)) as [full1|] eqn:P; cbn [bind] in H; [|discriminate H].
    unfold paint in P. cbv zeta in P. destruct (Nat.eqb (rows (V jq)) _ && Nat.eqb (cols (V jq)) _)%bool; [|discriminate P]. assert (F1 : full1 r c = _) by (injection P as P; rewrite <- P; reflexivity). clear P. cbn [around ymin ymax xmin xmax] in F1.
    pose proof (covers_iff n up rad (fst (snd jq)) r c) as CI. match type of F1 with _ = (if ?b then _ else _) => destruct b eqn:EB end.
    + pose proof (proj1 CI eq_refl) as CV. set (x := pix (V jq) (r - bound n (cy (fst (snd jq)) - up)) (c - bound n (cx (fst (snd jq)) - up))) in *. assert (S1 : settled (vs0 ++ [x]) (full1 r c)). { rewrite F1. destruct (is_zero (full r c)) eqn:Z; [apply is_zero_iff in Z; rewrite Z in S; apply st_first; exact S|]. apply st_next; [exact S|]. intros K. apply is_zero_iff in K. congruence. }
      destruct (IH full1 full' (vs0 ++ [x]) H S1) as (ch & SV & ST). exists (jq :: ch). split; [apply sieve_in; assumption|]. cbn [map]. rewrite <- app_assoc in ST. cbn [app] in ST. unfold x in ST. rewrite !bound_start in ST. exact ST.
    + rewrite <- F1 in S. destruct (IH full1 full' vs0 H S) as (ch & SV & ST). exists ch. split; [apply sieve_out; [|exact SV]|exact ST]. intros K. apply CI in K. congruence.
Qed.
Lemma paint_all_sized : forall n up rad V L full full', Forall (carried up V) L -> paint_all n rad full (map (item up V) L) = Ok full' -> forall jq, In jq L -> sized up n (snd jq).
Proof.
  intros n up rad V L. induction L as [|x L IH]; intros full full' C H jq I; [destruct I|]. cbn [map paint_all] in H. inversion C as [|? ? C1 C2]; subst. unfold item at 1 in H. cbn match in H. match type of H with bind ?x _ = _ => destruct x as [full1|e'] eqn:P end; cbn [bind] in H; [|discriminate H].
  destruct I as [<-|I]; [|exact (IH _ _ C2 H jq I)]. apply (item_sized n up V x rad full C1). exists full1. exact P.
Qed.
End Proofs.
Lemma combine_seq_nth : forall {A} (l : list A) k j x, In (k + j, x)%nat (combine (seq k (List.length l)) l) <-> nth_error l j = Some x.
Proof.
  induction l as [|y l IH]; intros k j x; cbn [List.length seq combine]; [split; [intros []|destruct j; discriminate]|]. destruct j as [|j]; cbn [nth_error In].
  - split; [intros [H|H]; [congruence|apply in_combine_l, in_seq in H; lia]|intros H; injection H as ->; left; f_equal; lia].
  - rewrite <- (IH (S k) j x). replace (S k + j)%nat with (k + S j)%nat by lia. split; [intros [H|H]; [injection H; lia|exact H]|auto].
Qed.
