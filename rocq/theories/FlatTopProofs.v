(** Consequences of the specification of the flat fields. *)
From Coq Require Import List Arith Bool Reals ZArith Lia Lra String Ascii Permutation FunctionalExtensionality.
From Verif Require Import Base CombineModel CombineSpec CombineProofs ComboSpec ComboProofs FindModel FindProofs FlatModel FlatSpec FlatProofs FlatRunProofs.
Import ListNotations.
Local Open Scope R_scope.

Lemma sieve_one : forall {A} (P : A -> Prop) l m m', sieve P l m -> sieve P l m' -> m = m'.
Proof.
  intros A P l m m' H. revert m'. induction H as [|x l m X H IH|x l m X H IH]; intros m' K; inversion K; subst; try reflexivity; try contradiction; [f_equal; apply IH; assumption|apply IH; assumption].
Qed.
Lemma median_one : forall l v w, median_of l v -> median_of l w -> v = w.
Proof.
  assert (NM : forall m, ~ is_median [] m) by (intros m (s & _ & _ & [(k & ? & ? & L & _)|(k & L & _)]); cbn in L; lia).
  intros l [v|] [w|] H K; cbn in *; [f_equal; exact (is_median_unique _ _ _ H K)| | |reflexivity].
  - rewrite K in H. destruct (NM _ H).
  - rewrite H in K. destruct (NM _ K).
Qed.
Lemma settled_one : forall vs v, settled vs v -> forall w, settled vs w -> v = w.
Proof.
  intros vs v H. induction H as [|l x H IH|l a x H IH N]; intros w K.
  - inversion K as [|l x _ E|l a x _ _ E]; [reflexivity| |]; destruct l; discriminate E.
  - inversion K as [E|l' x' H' E EV|l' a' x' H' N' E EV].
    + destruct l; discriminate E.
    + apply app_inj_tail in E. destruct E as (-> & ->). congruence.
    + apply app_inj_tail in E. destruct E as (-> & ->). destruct N'. symmetry. exact (IH _ H').
  - inversion K as [E|l' x' H' E EV|l' a' x' H' N' E EV].
    + destruct l; discriminate E.
    + apply app_inj_tail in E. destruct E as (-> & ->). destruct N. exact (IH _ H').
    + apply app_inj_tail in E. destruct E as (-> & ->). rewrite (IH _ H'). reflexivity.
Qed.
Lemma settled_some : forall vs, exists v, settled vs v.
Proof.
  intros vs. induction vs as [|x vs IH] using rev_ind; [exists (Some 0); constructor|]. destruct IH as (v & IH). destruct (is_zero v) eqn:Z; [apply is_zero_iff in Z; subst v; exists x; constructor; exact IH|]. exists (halfway x v). constructor; [exact IH|]. intros E. apply is_zero_iff in E. congruence.
Qed.
Lemma img_ext : forall f g, rows f = rows g -> cols f = cols g -> (forall r c, pix f r c = pix g r c) -> f = g.
Proof. intros (r, c, p) (r', c', p') R C H. cbn in *. subst. f_equal. apply functional_extensionality. intros i. apply functional_extensionality. exact (H i). Qed.
Lemma labelled_one : forall h x y, labelled h x -> labelled h y -> x = y.
Proof.
  intros h x y (_ & A & B & C & D) (_ & A' & B' & C' & D'). apply functional_extensionality. intros k. destruct (string_dec k "DATATYPE"); [subst; congruence|]. destruct (string_dec k "BUNIT"); [subst; congruence|]. destruct (string_dec k "DATALVL"); [subst; congruence|]. rewrite D, D'; auto.
Qed.
Lemma border_one : forall a n p q, border_is a n p -> border_is a n q -> p = q.
Proof. intros a n p q [H|(H & H')] [K|(K & K')]; try congruence. lia. Qed.

Section Top.
Variable centre : img -> Z * Z.
Variable gauss : img -> img.
Lemma cleaned_one : forall a rad f g g', cleaned centre a rad f g -> cleaned centre a rad f g' -> g = g'.
Proof.
  intros a rad f g g' H K. unfold cleaned in *. destruct (a_annulus a) as [(rin, rout)|]; [|congruence]. destruct H as (R & C & s & (ps & SV & M) & V). destruct K as (R' & C' & s' & (ps' & SV' & M') & V'). pose proof (sieve_one _ _ _ _ SV SV') as <-. pose proof (median_one _ _ _ M M') as <-.
  apply img_ext; [congruence|congruence|]. intros r c. rewrite V, V'. reflexivity.
Qed.
Lemma after_one : forall a rad l l1 l2 h1 h2, after centre a rad l l1 h1 -> after centre a rad l l2 h2 -> l1 = l2 /\ h1 = h2.
Proof.
  intros a rad l l1 l2 h1 h2 (F & x & f & x' & g & E & E1 & M & G & L) (F' & y & f' & y' & g' & E' & E2 & M' & G' & L'). rewrite E in E'. apply app_inj_tail in E'. destruct E' as (<- & <-). pose proof (labelled_one _ _ _ L L') as HH. split; [|exact HH].
  assert (X : map f_ext l1 = map f_ext l2) by (rewrite E1, E2, !map_app, M, M'; cbn [map]; rewrite G, G', HH; reflexivity). clear -F F' X. revert l2 F' X. induction F as [|u v l l1 (C & T) F IH]; intros l2 F' X; inversion F' as [|? v' ? l2' (C' & T') F2]; subst; [reflexivity|]. cbn [map] in X. f_equal; [|apply IH; [assumption|congruence]].
  pose proof (cleaned_one _ _ _ _ _ C C') as I. destruct v as (vi, vt, ve), v' as (wi, wt, we). cbn in *. f_equal; congruence.
Qed.
Lemma value_one : forall N up n l j q r c v w, (1 <= N)%nat -> value_at centre gauss N up n l j q r c v -> value_at centre gauss N up n l j q r c w -> v = w.
Proof.
  intros N up n l j q r c v w P (ms & M & A & B & D & E) (ms' & M' & A' & B' & D' & E'). pose proof (mates_one _ _ _ _ _ A A' P) as <-. assert (M = M'). { apply img_ext; try congruence. intros i k. exact (median_one _ _ _ (D i k) (D' i k)). } subst M'. congruence.
Qed.
Lemma values_one : forall N up n l r c ch vs ws, (1 <= N)%nat -> Forall2 (fun jq x => value_at centre gauss N up n l (fst jq) (snd jq) r c x) ch vs -> Forall2 (fun jq x => value_at centre gauss N up n l (fst jq) (snd jq) r c x) ch ws -> vs = ws.
Proof. intros N up n l r c ch vs ws P F. revert ws. induction F as [|x y ch vs V F IH]; intros ws K; inversion K; subst; [reflexivity|]. f_equal; [eapply value_one; eassumption|apply IH; assumption]. Qed.
Lemma pixel_one : forall N up n rad npix l r c v w, (1 <= N)%nat -> pixel_of centre gauss N up n rad npix l r c v -> pixel_of centre gauss N up n rad npix l r c w -> v = w.
Proof.
  intros N up n rad npix l r c v w P (A & B) (A' & B'). destruct (Rlt_dec npix (sqrt ((INR c - INR n / 2) ^ 2 + (INR r - INR n / 2) ^ 2))) as [L|L]; [rewrite A, A' by exact L; reflexivity|]. apply Rnot_lt_le in L. destruct (B L) as (ch & vs & x & S & F & T & Z & NZ). destruct (B' L) as (ch' & vs' & x' & S' & F' & T' & Z' & NZ').
  pose proof (sieve_one _ _ _ _ S S') as <-. pose proof (values_one _ _ _ _ _ _ _ _ _ P F F') as <-. pose proof (settled_one _ _ T _ T') as <-. destruct (is_zero x) eqn:E; [apply is_zero_iff in E; rewrite Z, Z' by exact E; reflexivity|]. assert (x <> Some 0) by (intros Q; apply is_zero_iff in Q; congruence). rewrite NZ, NZ' by assumption. reflexivity.
Qed.
Lemma flat_one : forall a l l1 l2 p q, flat_of centre gauss a l l1 p -> flat_of centre gauss a l l2 q -> l1 = l2 /\ p = q.
Proof.
  intros a l l1 l2 p q [(f0 & planet & band & rad & n & pad & ims & HD & P & B & RD & MK & SZ & BD & AF & NG & K & AL & FT & IM & SQ & SE & ZE & OUT & INN)] [(f0' & planet' & band' & rad' & n' & pad' & ims' & HD' & P' & B' & RD' & MK' & SZ' & BD' & AF' & NG' & K' & AL' & FT' & IM' & SQ' & SE' & ZE' & OUT' & INN')].
  assert (f0' = f0) by congruence. subst f0'. pose proof (planet_one _ _ _ _ P P') as <-. pose proof (radius_one _ _ _ _ RD RD') as <-. pose proof (size_one _ _ _ _ SZ SZ') as <-. pose proof (border_one _ _ _ _ BD BD') as <-. destruct (after_one _ _ _ _ _ _ _ AF AF') as (<- & EH). split; [reflexivity|]. rewrite <- IM in IM'. subst ims'. destruct SQ, SQ', SE, SE'.
  destruct p as (d, e, h), q as (d', e', h'). cbn [p_data p_err p_ext] in *. f_equal; [|apply img_ext; try congruence; intros r c; rewrite ZE, ZE'; reflexivity|exact EH].
  apply img_ext; try congruence. intros r c. destruct (le_lt_dec pad r) as [R1|R1]; [destruct (lt_dec r (pad + n)) as [R2|R2]; [destruct (le_lt_dec pad c) as [C1|C1]; [destruct (lt_dec c (pad + n)) as [C2|C2]|]|]|]; try (rewrite OUT, OUT' by (unfold inner; lia); reflexivity).
  specialize (INN (r - pad) (c - pad) ltac:(lia) ltac:(lia))%nat. specialize (INN' (r - pad) (c - pad) ltac:(lia) ltac:(lia))%nat. replace (pad + (r - pad))%nat with r in * by lia. replace (pad + (c - pad))%nat with c in * by lia. exact (pixel_one _ _ _ _ _ _ _ _ _ _ NG INN INN').
Qed.
Ltac same_facts :=
  repeat match goal with
  | H : hd_error ?l = Some ?f, K : hd_error ?l = Some ?g |- _ => tryif constr_eq f g then fail else (assert (g = f) by congruence; subst g)
  | H : planet_is ?a ?f ?s, K : planet_is ?a ?f ?t |- _ => tryif constr_eq s t then fail else (pose proof (planet_one _ _ _ _ H K); first [subst t|subst s])
  | H : band_is ?a ?f ?s, K : band_is ?a ?f ?t |- _ => tryif constr_eq s t then fail else (pose proof (band_one _ _ _ _ H K); first [subst t|subst s])
  | H : radius_is ?a ?f ?s, K : radius_is ?a ?f ?t |- _ => tryif constr_eq s t then fail else (pose proof (radius_one _ _ _ _ H K); first [subst t|subst s])
  | H : size_is ?a ?f ?s, K : size_is ?a ?f ?t |- _ => tryif constr_eq s t then fail else (pose proof (size_one _ _ _ _ H K); first [subst t|subst s])
  end.
Lemma mask_not_empty : forall a, a_mask a = None -> ~ mask_known a ""%string.
Proof. intros a E [K|(t & [K|K])]; [congruence|discriminate K|discriminate K]. Qed.
Ltac clash :=
  exfalso; same_facts;
  try (match goal with H : forall s, ~ planet_is _ _ s, K : planet_is _ _ _ |- _ => exact (H _ K) end);
  try (match goal with H : forall s, ~ band_is _ _ s, K : band_is _ _ _ |- _ => exact (H _ K) end);
  try (match goal with H : forall s, ~ radius_is _ _ s, K : radius_is _ _ _ |- _ => exact (H _ K) end);
  try (match goal with H : mask_known ?a ""%string, K : a_mask ?a = None |- _ => exact (mask_not_empty _ K H) end);
  try (match goal with H : a_mask ?a = None -> ""%string <> ""%string, K : a_mask ?a = None |- _ => exact (H K eq_refl) end);
  try (match goal with K : radius_is ?a ?p ?r |- _ => assert (~ forall rad, ~ radius_is a p rad) by (intros ZZ; exact (ZZ _ K)) end);
  try tauto.
Lemma fails_one : forall a l e, fails centre a l e -> forall e', fails centre a l e' -> e = e'.
Proof.
  intros a l e H e' K. destruct H; destruct K; subst; try reflexivity; try discriminate; try clash.
  destruct l1; discriminate.
Qed.
Lemma flat_not_fails : forall a l l' p e, flat_of centre gauss a l l' p -> ~ fails centre a l e.
Proof.
  intros a l l' p e [(f0 & planet & band & rad & n & pad & ims & HD & P & B & RD & MK & SZ & BD & AF & NG & K & AL & FT & REST)] F. clear REST.
  destruct F; subst; try discriminate; try clash; try (exfalso; same_facts; lia).
  destruct AF as [_ (x & g & x' & g' & E & _ & _ & G & (L & _))]. apply app_inj_tail in E. destruct E as (_ & <-). contradiction.
Qed.
Lemma onsky_flat : forall a l l' p, onsky centre gauss a l = (l', Ok p) <-> flat_of centre gauss a l l' p.
Proof.
  intros a l l' p. split; [apply onsky_ok|]. intros H. destruct (onsky centre gauss a l) as (l2, [q|e]) eqn:E.
  - destruct (flat_one _ _ _ _ _ _ H (onsky_ok _ _ _ _ _ _ E)) as (-> & ->). reflexivity.
  - destruct (flat_not_fails _ _ _ _ _ H (onsky_raise _ _ _ _ _ _ E)).
Qed.
Lemma onsky_fails : forall a l e, snd (onsky centre gauss a l) = Raise e <-> fails centre a l e.
Proof.
  intros a l e. destruct (onsky centre gauss a l) as (l2, [q|x]) eqn:E; cbn [snd].
  - split; [discriminate|]. intros F. destruct (flat_not_fails _ _ _ _ _ (onsky_ok _ _ _ _ _ _ E) F).
  - pose proof (onsky_raise _ _ _ _ _ _ E) as F. split; [intros H; injection H as <-; exact F|]. intros K. f_equal. exact (fails_one _ _ _ F _ K).
Qed.
(** ** Sizes *)
Lemma size_default : forall a l l' p n, a_size a = Some n -> a_pad a = None -> onsky centre gauss a l = (l', Ok p) -> rows (p_data p) = (if le_lt_dec n (Z.to_nat 1024) then Z.to_nat 2048 - n else n)%nat.
Proof.
  intros a l l' p n S B H. apply onsky_ok in H. destruct H as [(f0 & planet & band & rad & n' & pad & ims & _ & _ & _ & _ & _ & SZ & BD & _ & _ & _ & _ & _ & _ & (SQ & _) & _)]. destruct SZ as [SZ|(SZ & _)]; [|congruence]. assert (n' = n) by congruence. subst n'. destruct BD as [BD|(_ & BD)]; [congruence|]. destruct (le_lt_dec n (Z.to_nat 1024)); lia.
Qed.
(** ** The value given as the radius of the mask *)
Lemma mask_value : forall a b x y l, a_mask a = Some x -> a_mask b = Some y -> a_planet a = a_planet b -> a_band a = a_band b -> a_up a = a_up b -> a_size a = a_size b -> a_groups a = a_groups b ->
  a_rad a = a_rad b -> a_npix a = a_npix b -> a_pad a = a_pad b -> a_annulus a = a_annulus b -> onsky centre gauss a l = onsky centre gauss b l.
Proof.
  intros (pl, bd, up, sz, gr, mk, rd, np, pd, an) (pl', bd', up', sz', gr', mk', rd', np', pd', an') x y l. cbn. intros -> -> -> -> -> -> -> -> -> -> ->. destruct l as [|f0 l]; [reflexivity|]. rewrite !onsky_eq. unfold params. cbn [a_planet a_band a_mask a_rad band_mask]. destruct (match pl' with Some p => Ok p | None => getkey (f_target f0) end) as [s|e]; cbn [bind]; [|reflexivity]. destruct (match bd' with Some b => Ok b | None => getkey (f_ext f0 "CFAMNAME"%string) end) as [t|e]; cbn [bind]; [|reflexivity].
  unfold body, combine_rasters. cbn [a_groups a_npix].
  assert (PR : forall o m, prepare centre (mkargs pl' bd' up' sz' gr' (Some x) rd' np' pd' an') o m = prepare centre (mkargs pl' bd' up' sz' gr' (Some y) rd' np' pd' an') o m) by (intros o; induction m as [|f m IH]; [reflexivity|cbn [prepare]; rewrite IH; reflexivity]).
  rewrite PR. reflexivity.
Qed.
(** ** Discs *)
Lemma within_inside : forall n lo hi r, (0 <= lo <= hi)%Z -> (hi <= Z.of_nat n)%Z -> (within n lo hi r <-> (lo <= Z.of_nat r < hi)%Z).
Proof. intros n lo hi r L H. unfold within, norm. destruct (Z.ltb_spec lo 0); [lia|]. destruct (Z.ltb_spec hi 0); lia. Qed.
Lemma start_inside : forall n lo, (0 <= lo <= Z.of_nat n)%Z -> start n lo = Z.to_nat lo.
Proof. intros n lo H. unfold start, norm. destruct (Z.ltb_spec lo 0); lia. Qed.
Lemma covers_disc : forall n up rad f r c, inside centre n up f ->
  (covers centre n up rad f r c <-> (- up <= Z.of_nat r - fst (centre f) < up)%Z /\ (- up <= Z.of_nat c - snd (centre f) < up)%Z
     /\ sqrt ((INR c - IZR (snd (centre f)) - (rad + 5 - IZR up)) ^ 2 + (INR r - IZR (fst (centre f)) - (rad + 5 - IZR up)) ^ 2) < rad).
Proof.
  intros n up rad f r c (A & B & C & D & U). unfold covers. rewrite !within_inside by lia. rewrite !start_inside by lia. unfold disc.
  assert (E : forall k m, (m - up <= Z.of_nat k)%Z -> (0 <= m - up)%Z -> INR (k - Z.to_nat (m - up)) - rad - 5 = INR k - IZR m - (rad + 5 - IZR up)).
  { intros k m K M. rewrite minus_INR by lia. rewrite (INR_IZR_INZ (Z.to_nat (m - up))), Z2Nat.id by lia. rewrite minus_IZR. ring. }
  split; intros (X & Y & Z); (split; [lia|split; [lia|]]); [rewrite <- !E by lia; exact Z|rewrite !E by lia; exact Z].
Qed.
Lemma small_root : forall x y, 0 < y -> (sqrt x < y <-> x < y * y).
Proof.
  intros x y Y. destruct (Rle_dec 0 x) as [X|X].
  - split; intros H.
    + rewrite <- (sqrt_def x X). pose proof (sqrt_pos x). nra.
    + rewrite <- (sqrt_square y) by lra. apply sqrt_lt_1; nra.
  - rewrite sqrt_neg_0 by lra. split; intros; [nra|lra].
Qed.
Lemma covers_centred : forall n up f r c, inside centre n up f -> (5 < up)%Z ->
  (covers centre n up (IZR up - 5) f r c <-> sqrt ((INR c - IZR (snd (centre f))) ^ 2 + (INR r - IZR (fst (centre f))) ^ 2) < IZR up - 5).
Proof.
  intros n up f r c I U. apply IZR_lt in U. rewrite (covers_disc _ _ _ _ _ _ I). replace (IZR up - 5 + 5 - IZR up) with 0 by ring. rewrite !Rminus_0_r. split; [tauto|]. intros H. split; [|split; [|exact H]]; apply small_root in H; [|lra| |lra].
  - assert (K : -IZR up < INR r - IZR (fst (centre f)) < IZR up) by (set (u := INR c - IZR (snd (centre f))) in *; set (w := INR r - IZR (fst (centre f))) in *; pose proof (pow2_ge_0 u); cbn [pow] in *; split; nra). rewrite INR_IZR_INZ, <- minus_IZR in K. destruct K as (K1 & K2). rewrite <- opp_IZR in K1. apply lt_IZR in K1, K2. lia.
  - assert (K : -IZR up < INR c - IZR (snd (centre f)) < IZR up) by (set (u := INR c - IZR (snd (centre f))) in *; set (w := INR r - IZR (fst (centre f))) in *; pose proof (pow2_ge_0 w); cbn [pow] in *; split; nra). rewrite INR_IZR_INZ, <- minus_IZR in K. destruct K as (K1 & K2). rewrite <- opp_IZR in K1. apply lt_IZR in K1, K2. lia.
Qed.
Lemma covers_uranus : forall n f, inside centre n 55 f -> exists r c r' c',
  sqrt ((INR c - IZR (snd (centre f))) ^ 2 + (INR r - IZR (fst (centre f))) ^ 2) < 65 /\ ~ covers centre n 55 65 f r c
  /\ 65 < sqrt ((INR c' - IZR (snd (centre f))) ^ 2 + (INR r' - IZR (fst (centre f))) ^ 2) /\ covers centre n 55 65 f r' c'.
Proof.
  intros n f I. pose proof I as (A & B & C & D & _). exists (Z.to_nat (fst (centre f) - 50)), (Z.to_nat (snd (centre f))), (Z.to_nat (fst (centre f) + 54)), (Z.to_nat (snd (centre f) + 54)). rewrite !(covers_disc _ _ _ _ _ _ I). rewrite !INR_IZR_INZ, !Z2Nat.id by lia. rewrite minus_IZR, !plus_IZR. set (y := IZR (fst (centre f))). set (x := IZR (snd (centre f))).
  split; [apply small_root; nra|]. split; [intros (_ & _ & H); apply small_root in H; nra|]. split; [|split; [lia|split; [lia|apply small_root; nra]]].
  apply Rnot_le_lt. intros H. destruct (Rle_lt_or_eq_dec _ _ H) as [L|L]; [apply small_root in L; nra|]. assert (Q : sqrt ((x + 54 - x) ^ 2 + (y + 54 - y) ^ 2) * sqrt ((x + 54 - x) ^ 2 + (y + 54 - y) ^ 2) = (x + 54 - x) ^ 2 + (y + 54 - y) ^ 2) by (apply sqrt_def; nra). rewrite L in Q. nra.
Qed.
(** ** A planet near the first row *)
Lemma edge_lost : forall n up rad f r c, (0 <= fst (centre f) < up)%Z -> (2 * up <= Z.of_nat n)%Z -> (2 * up <= Z.of_nat (rows f))%Z -> fst (extents centre up f) = 0%nat /\ ~ covers centre n up rad f r c.
Proof.
  intros n up rad f r c C N R. unfold extents, extent, covers, within, norm. cbn [fst]. destruct (Z.ltb_spec (fst (centre f) - up) 0); [|lia]. destruct (Z.ltb_spec (fst (centre f) + up) 0); [lia|]. split; lia.
Qed.
End Top.
(** ** Weights *)
Lemma settled_bounds : forall lo hi xs v, 0 < lo -> xs <> [] -> settled (map Some xs) v -> (forall x, In x xs -> lo <= x <= hi) -> exists w, v = Some w /\ lo <= w <= hi.
Proof.
  intros lo hi xs v P N H B. destruct xs as [|x0 t]; [congruence|]. clear N. revert v H B. induction t as [|x t IH] using rev_ind; intros v H B.
  - pose proof (settled_one _ _ (st_first [] (Some x0) st_none) _ H) as <-. exists x0. split; [reflexivity|]. apply B. left. reflexivity.
  - rewrite app_comm_cons, map_app in H. cbn [map] in H. assert (B' : forall y, In y (x0 :: t) -> lo <= y <= hi) by (intros y Y; apply B; rewrite app_comm_cons; apply in_or_app; auto). assert (Bx : lo <= x <= hi) by (apply B; rewrite app_comm_cons; apply in_or_app; right; left; reflexivity).
    destruct (settled_some (map Some (x0 :: t))) as (u & U). destruct (IH _ U B') as (w & -> & L). assert (K : settled (map Some (x0 :: t) ++ [Some x]) (halfway (Some x) (Some w))) by (apply st_next; [exact U|intros E; injection E as ->; lra]). pose proof (settled_one _ _ K _ H) as <-. exists ((x + w) / 2). split; [reflexivity|lra].
Qed.
Lemma settled_step : forall xs x v w, xs <> [] -> (forall y, In y xs -> 0 < y) -> settled (map Some xs) (Some w) -> settled (map Some (xs ++ [x])) v -> v = Some ((x + w) / 2).
Proof.
  intros xs x v w N P H K. rewrite map_app in K. cbn [map] in K. apply (settled_one _ _ K). apply (st_next _ (Some w) (Some x)); [exact H|]. intros E. injection E as ->.
  assert (exists lo hi, 0 < lo /\ forall y, In y xs -> lo <= y <= hi) as (lo & hi & L & B).
  { clear -P N. induction xs as [|a t IH]; [congruence|]. destruct t as [|b t]; [exists a, a; split; [apply P; left; reflexivity|intros y [<-|[]]; lra]|]. destruct IH as (lo & hi & L & B); [discriminate|intros y Y; apply P; right; exact Y|]. exists (Rmin lo a), (Rmax hi a). split; [apply Rmin_pos; [exact L|apply P; left; reflexivity]|]. intros y [<-|Y]; [split; [apply Rmin_r|apply Rmax_r]|]. destruct (B y Y). split; [eapply Rle_trans; [apply Rmin_l|lra]|eapply Rle_trans; [|apply Rmax_l]; lra]. }
  destruct (settled_bounds lo hi xs (Some 0) L N H B) as (w & W & Q). injection W as <-. lra.
Qed.
Lemma weight_last : forall k, weight (S k) (S k) = 1 / 2.
Proof. intros k. unfold weight. rewrite Nat.sub_diag. cbn [Nat.add pow]. lra. Qed.
Lemma rsum_app : forall l m, rsum (l ++ m) = rsum l + rsum m.
Proof. intros l m. induction l as [|x l IH]; cbn [app rsum fold_right] in *; [unfold rsum; cbn; lra|]. unfold rsum in *. rewrite IH. lra. Qed.
Lemma rsum_half : forall (f g : nat -> R) s, (forall i, In i s -> f i = g i / 2) -> rsum (map f s) = rsum (map g s) / 2.
Proof. intros f g s H. induction s as [|i s IH]; cbn [map rsum fold_right]; [lra|]. rewrite H by (left; reflexivity). unfold rsum in *. rewrite IH by (intros j J; apply H; right; exact J). lra. Qed.
Lemma settled_weights : forall xs v, xs <> [] -> (forall x, In x xs -> 0 < x) -> settled (map Some xs) v ->
  v = Some (rsum (map (fun i => weight (List.length xs - 1) i * nth i xs 0) (seq 0 (List.length xs)))).
Proof.
  intros xs v N P H. destruct xs as [|x0 t]; [congruence|]. clear N. revert v P H. induction t as [|x t IH] using rev_ind; intros v P H.
  - pose proof (settled_one _ _ (st_first [] (Some x0) st_none) _ H) as <-. cbn. f_equal. lra.
  - destruct (settled_some (map Some (x0 :: t))) as (w & W). assert (P' : forall y, In y (x0 :: t) -> 0 < y) by (intros y Y; apply P; rewrite app_comm_cons; apply in_or_app; auto). pose proof (IH w P' W) as ->. rewrite app_comm_cons in H. assert (NE : x0 :: t <> []) by discriminate. rewrite (settled_step _ _ _ _ NE P' W H). f_equal. rewrite app_comm_cons, app_length. cbn [List.length]. set (k := List.length t).
    replace (S k + 1)%nat with (S (S k)) by lia. rewrite (seq_S (S k) 0), map_app, rsum_app. cbn [map Nat.add]. replace (S (S k) - 1)%nat with (S k) by lia. replace (S k - 1)%nat with k by lia.
    rewrite (rsum_half (fun i => weight (S k) i * nth i ((x0 :: t) ++ [x]) 0) (fun i => weight k i * nth i (x0 :: t) 0)).
    + unfold rsum. cbn [fold_right]. rewrite app_nth2 by (cbn [List.length]; lia). cbn [List.length]. fold k. replace (S k - S k)%nat with 0%nat by lia. cbn [nth]. rewrite weight_last. lra.
    + intros i I. apply in_seq in I. rewrite app_nth1 by (cbn [List.length]; fold k; lia). unfold weight. destruct i as [|i]; [cbn [pow]; lra|]. replace (S k - S i + 1)%nat with (S (k - S i + 1)) by lia. cbn [pow]. lra.
Qed.
Lemma weights_sum : forall k, rsum (map (weight k) (seq 0 (S k))) = 1.
Proof.
  induction k as [|k IH]; [cbn; lra|]. rewrite (seq_S (S k) 0), map_app, rsum_app. rewrite (rsum_half (weight (S k)) (weight k)), IH.
  - unfold rsum. cbn [map fold_right Nat.add]. rewrite weight_last. lra.
  - intros i I. apply in_seq in I. unfold weight. destruct i as [|i]; [cbn [pow]; lra|]. replace (S k - S i + 1)%nat with (S (k - S i + 1)) by lia. cbn [pow]. lra.
Qed.
(** ** Mean flat *)
Lemma mean_flat : forall l f e, create_flatfield l = Ok (f, e) -> exists f0 t, l = f0 :: t /\ rows f = rows f0 /\ cols f = cols f0 /\ rows e = rows f0 /\ cols e = cols f0
  /\ forall r c, mean_of (map (fun g => pix g r c) l) (pix f r c) /\ error_of (List.length l) (map (fun g => pix g r c) l) (pix e r c).
Proof.
  intros l f e H. destruct l as [|f0 t]; [discriminate H|]. cbn [create_flatfield] in H. injection H as <- <-. exists f0, t. cbn [rows cols pix]. repeat (split; [reflexivity|]). intros r c. split; [apply mean_value|apply (error_value (List.length (f0 :: t))); cbn; lia].
Qed.
Lemma kernel_flat : forall width h w r c, exists v, pix (raster_kernel width (h, w)) r c = Some v /\ (v = 0 \/ v = 1)
  /\ (v = 1 <-> 2 <= width /\ sqrt ((INR c - INR w / 2 - 1) ^ 2 + (INR r - INR h / 2 - 1) ^ 2) <= width / 2).
Proof.
  intros width h w r c. rewrite kernel_value. unfold radial. cbn [fst snd]. eexists. split; [reflexivity|]. destruct (Rle_dec 2 width); [destruct (Rle_dec _ (width / 2))|]; split; try (auto; fail); split; intros; try lra; try tauto.
Qed.
