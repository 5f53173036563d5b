(** Proofs on the nearest-neighbour lookups. *)
From Coq Require Import List Arith Bool Reals ZArith String Lia Lra.
From Verif Require Import Base DqModel AngleModel AngleSpec AngleProofs SortGroupProofs ComboSpec ComboProofs NearModel NearSpec.
Import ListNotations.
Local Open Scope R_scope.

(** ** argmin *)
Definition least (l : list R) (i : nat) : Prop := exists v, nth_error l i = Some v /\ forall j w, nth_error l j = Some w -> v <= w /\ ((j < i)%nat -> v < w).
Lemma argmin_from_spec : forall l pre best v, nth_error pre best = Some v -> (forall j w, nth_error pre j = Some w -> v <= w /\ ((j < best)%nat -> v < w)) -> least (pre ++ l) (argmin_from best v (List.length pre) l).
Proof.
  induction l as [|x l IH]; intros pre best v N M; cbn [argmin_from].
  - rewrite app_nil_r. exists v. auto.
  - replace (pre ++ x :: l) with ((pre ++ [x]) ++ l) by (rewrite <- app_assoc; reflexivity). replace (Datatypes.S (List.length pre)) with (List.length (pre ++ [x])) by (rewrite app_length; cbn; lia).
    assert (LB : (best < List.length pre)%nat) by (apply nth_error_Some; congruence). destruct (Rlt_dec x v) as [L|L]; apply IH.
    + rewrite nth_error_app2, Nat.sub_diag by lia. reflexivity.
    + intros j w J. apply nth_snoc in J. destruct J as [J|[-> ->]]; [pose proof (M j w J); split; [lra|intros _; lra]|split; [lra|lia]].
    + rewrite nth_error_app1 by exact LB. exact N.
    + intros j w J. apply nth_snoc in J. destruct J as [J|[-> ->]]; [exact (M j w J)|split; [lra|lia]].
Qed.
Lemma least_fun : forall l i j, least l i -> least l j -> i = j.
Proof. intros l i j (v & V & A) (w & W & B). destruct (Nat.lt_trichotomy i j) as [L|[L|L]]; [|exact L|]; exfalso; destruct (A j w W), (B i v V); specialize (H0); specialize (H2); try lra; [specialize (H2 L)|specialize (H0 L)]; lra. Qed.
Lemma argmin_iff : forall l i, argmin l = Ok i <-> least l i.
Proof.
  intros [|x l] i; cbn [argmin]; [split; [discriminate|intros (v & V & _); destruct i; discriminate V]|].
  assert (G : least (x :: l) (argmin_from 0 x 1 l)).
  { apply (argmin_from_spec l [x] 0 x eq_refl). intros [|[|j]] w W; cbn in W; try discriminate W. injection W as <-. split; [lra|lia]. }
  split; [intros H; injection H as <-; exact G|]. intros H. f_equal. exact (least_fun _ _ _ G H).
Qed.
Lemma argmin_total : forall l, l <> [] -> exists i, argmin l = Ok i.
Proof. intros [|x l] H; [congruence|]. eexists. reflexivity. Qed.
Lemma least_map : forall A (d : A -> R) l i, least (map d l) i <-> exists a, nearest_of d l i a.
Proof.
  intros A d l i. unfold least, nearest_of. split.
  - intros (v & V & M). rewrite nth_error_map in V. destruct (nth_error l i) as [a|] eqn:A0; [|discriminate V]. injection V as <-. exists a. split; [reflexivity|]. intros j b B. apply (M j (d b)). rewrite nth_error_map, B. reflexivity.
  - intros (a & A0 & M). exists (d a). split; [rewrite nth_error_map, A0; reflexivity|]. intros j w W. rewrite nth_error_map in W. destruct (nth_error l j) as [b|] eqn:B; [|discriminate W]. injection W as <-. exact (M j b B).
Qed.
Lemma nearest_ext : forall A (d d' : A -> R) l i a, (forall x, d x = d' x) -> (nearest_of d l i a <-> nearest_of d' l i a).
Proof. intros A d d' l i a E. unfold nearest_of. split; intros (N & M); (split; [exact N|]); intros j b B; [rewrite <- !E|rewrite !E]; exact (M j b B). Qed.
Lemma pick_iff : forall A (l : list A) i x, pick l i = Ok x <-> nth_error l i = Some x.
Proof. intros A l i x. unfold pick. destruct (nth_error l i); split; congruence. Qed.
Lemma argmin_pick : forall A B (d : A -> R) (l : list A) (m : list B) p, (bind (argmin (map d l)) (fun i => pick m i) = Ok p) <-> exists i a, nearest_of d l i a /\ nth_error m i = Some p.
Proof.
  intros A B d l m p. split.
  - destruct (argmin (map d l)) as [i|e] eqn:E; cbn [bind]; [|discriminate]. intros H. apply argmin_iff in E. apply (least_map A d l i) in E. destruct E as (a & E). apply pick_iff in H. exists i, a. auto.
  - intros (i & a & N & H). rewrite (proj2 (argmin_iff _ i)) by (apply least_map; exists a; exact N). cbn [bind]. apply pick_iff. exact H.
Qed.

(** ** get_1d_ct and get_closest_psf *)
Theorem ct_iff : forall table h seps out, get_1d_ct table h seps true = Ok out <->
  exists x y, starx h = Some x /\ stary h = Some y /\ fst out = seps /\
    Forall2 (fun sep ct => exists i e, nearest_of (fun e => Rabs (sep - dist (x + default0 (det0x h) + / 2, y + default0 (det0y h) + / 2) (fst e))) table i e /\ ct = snd e) seps (snd out).
Proof.
  intros table h seps (s & cts). unfold get_1d_ct. destruct (starx h) as [x|]; cbn [getkey bind]; [|split; [discriminate|intros (? & ? & ? & _); discriminate]].
  destruct (stary h) as [y|]; cbn [getkey bind]; [|split; [discriminate|intros (? & ? & _ & ? & _); discriminate]].
  set (c := (x + default0 (det0x h) + / 2, y + default0 (det0y h) + / 2)).
  assert (ONE : forall sep ct, (do i <- argmin (map (fun s => Rabs (sep - s)) (map (fun e => sqrt ((fst (fst e) - fst c) ^ 2 + (snd (fst e) - snd c) ^ 2)) table)); do e <- pick table i; Ok (snd e)) = Ok ct
     <-> exists i e, nearest_of (fun e => Rabs (sep - dist c (fst e))) table i e /\ ct = snd e).
  { intros sep ct. rewrite map_map. set (d := fun e : R * R * R => Rabs (sep - sqrt ((fst (fst e) - fst c) ^ 2 + (snd (fst e) - snd c) ^ 2))).
    split.
    - destruct (argmin (map d table)) as [i|] eqn:E; cbn [bind]; [|discriminate]. destruct (pick table i) as [e|] eqn:P; cbn [bind]; [|discriminate]. intros H. injection H as <-. apply argmin_iff in E. apply (least_map _ d table i) in E. destruct E as (e' & E). apply pick_iff in P. pose proof (proj1 E). assert (e' = e) by congruence. subst e'. exists i, e. split; [exact E|reflexivity].
    - intros (i & e & N & ->). rewrite (proj2 (argmin_iff _ i)) by (apply least_map; exists e; exact N). cbn [bind]. rewrite (proj2 (pick_iff _ table i e) (proj1 N)). reflexivity. }
  change (x + default0 (det0x h) + / 2) with (fst c). change (y + default0 (det0y h) + / 2) with (snd c). fold c. split.
  - intros H. destruct (mapR _ seps) as [l|] eqn:M; cbn [bind] in H; [|discriminate H]. injection H as <- <-. exists x, y. split; [reflexivity|]. split; [reflexivity|]. split; [reflexivity|]. apply mapR_iff in M. eapply Forall2_impl; [|exact M]. intros sep ct _ E. apply ONE. exact E.
  - intros (x' & y' & EX & EY & E & F). injection EX as <-. injection EY as <-. cbn [fst snd] in E, F. subst s. rewrite (proj2 (mapR_iff _ _ _ seps cts)); [reflexivity|]. eapply Forall2_impl; [|exact F]. intros sep ct _ Q. apply ONE. exact Q.
Qed.
Theorem ct_other : forall table h seps x y, starx h = Some x -> stary h = Some y -> get_1d_ct table h seps false = Raise NotImplementedError.
Proof. intros table h seps x y X Y. unfold get_1d_ct. rewrite X, Y. reflexivity. Qed.
Theorem ct_total : forall table h seps x y, starx h = Some x -> stary h = Some y -> (table <> [] \/ seps = []) -> exists cts, get_1d_ct table h seps true = Ok (seps, cts).
Proof.
  intros table h seps x y X Y H. destruct H as [NE | ->]; [|exists []; unfold get_1d_ct; rewrite X, Y; reflexivity].
  assert (G : exists cts, Forall2 (fun sep ct => exists i e, nearest_of (fun e => Rabs (sep - dist (x + default0 (det0x h) + / 2, y + default0 (det0y h) + / 2) (fst e))) table i e /\ ct = snd e) seps cts).
  { induction seps as [|s seps (cts & IH)]; [exists []; constructor|]. destruct (argmin_total (map (fun e => Rabs (s - dist (x + default0 (det0x h) + / 2, y + default0 (det0y h) + / 2) (fst e))) table)) as (i & E); [destruct table; [congruence|discriminate]|].
    apply argmin_iff in E. apply (least_map _ (fun e => Rabs (s - dist (x + default0 (det0x h) + / 2, y + default0 (det0y h) + / 2) (fst e))) table i) in E. destruct E as (e & E). exists (snd e :: cts). constructor; [exists i, e; auto|exact IH]. }
  destruct G as (cts & G). exists cts. apply ct_iff. exists x, y. auto.
Qed.
Theorem psf_iff : forall P (positions : list (R * R)) (psfs : list P) cenx ceny dx dy p,
  get_closest_psf positions psfs cenx ceny dx dy = Ok p <-> exists i q, nearest_of (fun q => dist (cenx + dx + / 2, ceny + dy + / 2) q) positions i q /\ nth_error psfs i = Some p.
Proof.
  intros P positions psfs cenx ceny dx dy p. unfold get_closest_psf. rewrite argmin_pick. split; intros (i & q & N & H); exists i, q; (split; [|exact H]).
  - eapply nearest_ext; [|exact N]. intros x. unfold dist. cbn [fst snd]. f_equal. ring.
  - eapply nearest_ext; [|exact N]. intros x. unfold dist. cbn [fst snd]. f_equal. ring.
Qed.
Theorem injected_iff : forall P (positions : list (R * R)) (psfs : list P) h roll sep pa p,
  injected_psf positions psfs h roll sep pa = Ok p <-> exists x y i q, starx h = Some x /\ stary h = Some y
   /\ nearest_of (fun q => dist (x + (- sep * sin (rad (pa - roll))) + / 2, y + sep * cos (rad (pa - roll)) + / 2) q) positions i q /\ nth_error psfs i = Some p.
Proof.
  intros P positions psfs h roll sep pa p. unfold injected_psf. destruct (starx h) as [x|]; cbn [getkey bind]; [|split; [discriminate|intros (? & ? & ? & ? & ? & _); discriminate]].
  destruct (stary h) as [y|]; cbn [getkey bind]; [|split; [discriminate|intros (? & ? & ? & ? & _ & ? & _); discriminate]]. rewrite psf_iff.
  unfold seppa2dxdy. cbn [fst snd]. split.
  - intros (i & q & N & H). exists x, y, i, q. auto.
  - intros (x' & y' & i & q & EX & EY & N & H). injection EX as <-. injection EY as <-. exists i, q. auto.
Qed.
Theorem crop_ignored : forall P (positions : list (R * R)) (psfs : list P) h h' roll sep pa, starx h = starx h' -> stary h = stary h' -> injected_psf positions psfs h roll sep pa = injected_psf positions psfs h' roll sep pa.
Proof. intros P positions psfs h h' roll sep pa X Y. unfold injected_psf. rewrite X, Y. reflexivity. Qed.

(** ** Rounding *)
Lemma rint_rounds : forall x, rounds x (rint x).
Proof.
  intros x. unfold rounds, rint. destruct (base_Int_part x) as (A & B). set (z := Int_part x) in *. clearbody z.
  destruct (Rlt_dec (x - IZR z) (/ 2)) as [L|L]; [rewrite Rabs_pos_eq by lra; split; lra|]. destruct (Rlt_dec (/ 2) (x - IZR z)) as [L'|L'].
  - rewrite plus_IZR. rewrite Rabs_left1 by lra. split; [lra|]. intros E. exfalso. lra.
  - destruct (Z.even z) eqn:EV; [rewrite Rabs_pos_eq by lra; split; [lra|intros _; apply Z.even_spec; exact EV]|].
    rewrite plus_IZR. rewrite Rabs_left1 by lra. split; [lra|]. intros _. apply Z.even_spec. rewrite Z.even_add, EV. reflexivity.
Qed.
Lemma rounds_fun : forall x y z, rounds x y -> rounds x z -> y = z.
Proof.
  assert (G : forall x y z, rounds x y -> rounds x z -> (y < z)%Z -> False).
  { intros x y z (A & A') (B & B') L. assert (D : IZR y + 1 <= IZR z) by (rewrite <- plus_IZR; apply IZR_le; lia).
    assert (U : x - IZR y <= / 2) by (eapply Rle_trans; [apply Rle_abs|exact A]). assert (V : - / 2 <= x - IZR z) by (pose proof (Rle_abs (- (x - IZR z))) as Q; rewrite Rabs_Ropp in Q; lra).
    assert (EY : x - IZR y = / 2) by lra. assert (EZ : x - IZR z = - / 2) by lra. assert (Z1 : IZR z = IZR (y + 1)) by (rewrite plus_IZR; lra). apply eq_IZR in Z1. subst z.
    rewrite EY in A'. rewrite EZ in B'. rewrite Rabs_pos_eq in A' by lra. rewrite Rabs_left1 in B' by lra. destruct (A' eq_refl) as (p & P). destruct (B' ltac:(lra)) as (q & Q). lia. }
  intros x y z A B. destruct (Z.lt_trichotomy y z) as [L|[L|L]]; [destruct (G x y z A B L)|exact L|destruct (G x z y B A L)].
Qed.
Lemma rounds_iff : forall x z, rounds x z <-> rint x = z.
Proof. intros x z. split; [intros H; exact (rounds_fun x _ _ (rint_rounds x) H)|intros <-; apply rint_rounds]. Qed.

(** ** All the smallest *)
Lemma zmin_spec : forall l m, zmin l = Some m <-> In m l /\ forall x, In x l -> (m <= x)%Z.
Proof.
  assert (G : forall l a, let m := fold_left Z.min l a in (In m (a :: l)) /\ forall x, In x (a :: l) -> (m <= x)%Z).
  { induction l as [|b l IH]; intros a; cbn [fold_left]; [split; [left; reflexivity|intros x [<-|[]]; lia]|]. destruct (IH (Z.min a b)) as (I & M). cbv zeta. split.
    - destruct I as [I|I]; [|right; right; exact I]. rewrite <- I. destruct (Z.min_spec a b) as [(_ & ->)|(_ & ->)]; [left; reflexivity|right; left; reflexivity].
    - intros x X. pose proof (M (Z.min a b) (or_introl eq_refl)). destruct X as [<-|[<-|X]]; [lia|lia|]. apply M. right. exact X. }
  intros [|a l] m; cbn [zmin]; [split; [discriminate|intros ([] & _)]|]. destruct (G l a) as (I & M). cbv zeta in I, M. split.
  - intros H. injection H as <-. auto.
  - intros (I' & M'). f_equal. apply Z.le_antisymm; [apply M; exact I'|apply M'; exact I].
Qed.
Lemma argwhere_in : forall l i, In i (argwhere_min l) <-> exists z, nth_error l i = Some z /\ forall j z', nth_error l j = Some z' -> (z <= z')%Z.
Proof.
  intros l i. unfold argwhere_min. destruct (zmin l) as [m|] eqn:E.
  - apply zmin_spec in E. destruct E as (I & M). rewrite filter_In, in_seq. split.
    + intros (_ & H). destruct (nth_error l i) as [z|]; [|discriminate H]. apply Z.eqb_eq in H. subst z. exists m. split; [reflexivity|]. intros j z' J. apply M. exact (nth_error_In _ _ J).
    + intros (z & N & L). split; [split; [lia|]; cbn; apply nth_error_Some; congruence|]. rewrite N. apply Z.eqb_eq. apply In_nth_error in I. destruct I as (j & J). pose proof (L j m J). pose proof (M z (nth_error_In _ _ N)). lia.
  - destruct l as [|x l]; [|discriminate E]. split; [intros []|]. intros (z & N & _). destruct i; discriminate N.
Qed.
Lemma argwhere_sorted : forall l, Sorted.StronglySorted lt (argwhere_min l).
Proof.
  intros l. unfold argwhere_min. destruct (zmin l); [|constructor]. generalize (seq_NoDup (List.length l) 0). intros _.
  assert (G : forall n a, Sorted.StronglySorted lt (seq a n)). { induction n as [|n IH]; intros a; cbn; constructor; [apply IH|]. apply Forall_forall. intros x I. apply in_seq in I. lia. }
  specialize (G (List.length l) 0%nat). induction G as [|x m G IH F]; cbn [filter]; [constructor|]. destruct (match nth_error l x with Some _ => _ | None => _ end); [|exact IH]. constructor; [exact IH|]. apply Forall_forall. intros y I. apply filter_In in I. rewrite Forall_forall in F. apply F. tauto.
Qed.
Lemma argwhere_nonempty : forall l, l <> [] -> argwhere_min l <> [].
Proof.
  intros l NE E. destruct (zmin l) as [m|] eqn:Z; [|destruct l; [congruence|discriminate Z]]. apply zmin_spec in Z. destruct Z as (I & M). apply In_nth_error in I. destruct I as (j & J).
  assert (X : In j (argwhere_min l)) by (apply argwhere_in; exists m; split; [exact J|intros k z' K; apply M; exact (nth_error_In _ _ K)]). rewrite E in X. destruct X.
Qed.

(** ** GetPSF *)
Lemma radius_far : forall p, radius p = far p.
Proof. intros (x & y). unfold radius, far, dist. cbn [fst snd]. f_equal. ring. Qed.
Lemma far0 : forall p, far p = 0 <-> p = (0, 0).
Proof.
  intros (x & y). rewrite <- radius_far. unfold radius. cbn [fst snd]. split.
  - intros H. apply sqrt_eq_0 in H; [|pose proof (pow2_ge_0 x); pose proof (pow2_ge_0 y); lra]. assert (x = 0 /\ y = 0) as (-> & ->); [|reflexivity]. pose proof (pow2_ge_0 x). pose proof (pow2_ge_0 y). split; [destruct (Req_dec x 0)|destruct (Req_dec y 0)]; try assumption; exfalso; [pose proof (pow_nonzero x 2 H2)|pose proof (pow_nonzero y 2 H2)]; lra.
  - intros H. injection H as -> ->. replace (0 ^ 2 + 0 ^ 2) with 0 by ring. apply sqrt_0.
Qed.

Lemma azimuth_is : forall p, azimuth p (arctan2 (snd p) (fst p)).
Proof.
  intros (x & y). cbn [fst snd]. unfold azimuth. cbn [fst snd]. split; [apply arctan2_range|]. destruct (arctan2_polar y x) as (X & Y). rewrite <- radius_far. unfold radius. cbn [fst snd]. split; [exact X|]. split; [exact Y|].
  intros E. injection E as -> ->. unfold arctan2. repeat (destruct (Rlt_dec _ _); [lra|]). reflexivity.
Qed.
Lemma azimuth_fun : forall p a b, azimuth p a -> azimuth p b -> a = b.
Proof.
  intros p a b ((A1 & A2) & AX & AY & AZ) ((B1 & B2) & BX & BY & BZ). destruct (Req_dec (far p) 0) as [Z|NZ]; [apply far0 in Z; rewrite AZ, BZ by exact Z; reflexivity|].
  assert (CO : cos a = cos b) by (apply Rmult_eq_reg_l with (far p); [congruence|exact NZ]). assert (SI : sin a = sin b) by (apply Rmult_eq_reg_l with (far p); [congruence|exact NZ]).
  destruct (unique_angle a b SI CO) as (n & E). pose proof PI_RGT_0 as PP. assert (L1 : -1 < IZR n) by nra. assert (L2 : IZR n < 1) by nra. apply lt_IZR in L1, L2. assert (n = 0%Z) by lia. subst n. lra.
Qed.
Lemma azimuth_iff : forall p a, azimuth p a <-> a = arctan2 (snd p) (fst p).
Proof. intros p a. split; [intros H; exact (azimuth_fun p a _ H (azimuth_is p))|intros ->; apply azimuth_is]. Qed.

Section Psf.
Variable P : Type.
Variable average : P -> P -> P.
Variable grid : list (R * R).
Variable psfs : list P.
Variable t : R * R.
Definition dr (g : R * R) : Z := rint (10 * Rabs (radius t - radius g) / 10).
Lemma radial_iff : forall i z, radial_step grid t i z <-> nth_error (map dr grid) i = Some z.
Proof.
  intros i z. unfold radial_step. rewrite nth_error_map. destruct (nth_error grid i) as [g|]; cbn [option_map]; [|split; [intros (? & ? & _); discriminate|discriminate]].
  assert (E : forall z, rounds (Rabs (far t - far g)) z <-> dr g = z). { intros z'. rewrite rounds_iff. unfold dr. rewrite !radius_far. replace (10 * Rabs (far t - far g) / 10) with (Rabs (far t - far g)) by field. reflexivity. }
  split; [intros (g' & G & H); injection G as <-; f_equal; apply E; exact H|intros H; injection H as H; exists g; split; [reflexivity|apply E; exact H]].
Qed.
Definition near_idx : list nat := argwhere_min (map dr grid).
Lemma near_iff : forall i, In i near_idx <-> radially_near grid t i.
Proof.
  intros i. unfold near_idx. rewrite argwhere_in. unfold radially_near, smallest. split.
  - intros (z & N & M). split; [rewrite <- (map_length dr); apply nth_error_Some; congruence|]. exists z. split; [apply radial_iff; exact N|]. intros j z' _ J. apply (M j). apply radial_iff. exact J.
  - intros (_ & z & N & M). exists z. split; [apply radial_iff; exact N|]. intros j z' J. apply (M j z'); [rewrite <- (map_length dr); apply nth_error_Some; congruence|apply radial_iff; exact J].
Qed.
Definition az (i : nat) : Z := match nth_error grid i with Some g => rint (Rabs (arctan2 (snd t) (fst t) - arctan2 (snd g) (fst g)) / (1 / 10 / radius t)) | None => 0%Z end.
Lemma angular_iff : radius t <> 0 -> forall i z, (i < List.length grid)%nat -> (angular_step grid t i z <-> az i = z).
Proof.
  intros NZ i z L. unfold angular_step, az. destruct (nth_error grid i) as [g|] eqn:G; [|apply nth_error_None in G; lia].
  assert (E : Rabs (arctan2 (snd t) (fst t) - arctan2 (snd g) (fst g)) / (1 / 10 / radius t) = 10 * far t * Rabs (arctan2 (snd t) (fst t) - arctan2 (snd g) (fst g))) by (rewrite <- radius_far; field; exact NZ).
  rewrite E. rewrite <- rounds_iff. split.
  - intros (g' & a & b & G' & A & B & H). injection G' as <-. apply azimuth_iff in A, B. subst a b. exact H.
  - intros H. exists g, (arctan2 (snd t) (fst t)), (arctan2 (snd g) (fst g)). split; [reflexivity|]. split; [apply azimuth_is|]. split; [apply azimuth_is|exact H].
Qed.
Lemma near_lt : forall i, In i near_idx -> (i < List.length grid)%nat.
Proof. intros i I. apply near_iff in I. exact (proj1 I). Qed.
Lemma az_iff : radius t <> 0 -> forall i, (exists j, In j (argwhere_min (map az near_idx)) /\ nth_error near_idx j = Some i) <-> angularly_near grid t i.
Proof.
  intros NZ i. unfold angularly_near, smallest. split.
  - intros (j & J & N). apply argwhere_in in J. destruct J as (z & Z & M). rewrite nth_error_map, N in Z. cbn [option_map] in Z. injection Z as Z. pose proof (nth_error_In _ _ N) as I. split; [apply near_iff; exact I|]. exists z. split; [apply angular_iff; [exact NZ|exact (near_lt i I)|exact Z]|].
    intros k z' K A. apply near_iff in K. apply (angular_iff NZ k z' (near_lt k K)) in A. apply In_nth_error in K. destruct K as (m & K). apply (M m z'). rewrite nth_error_map, K. cbn [option_map]. congruence.
  - intros (RN & z & A & M). apply near_iff in RN. pose proof (near_lt i RN) as L. apply (angular_iff NZ i z L) in A. pose proof RN as RN'. apply In_nth_error in RN. destruct RN as (j & N). exists j. split; [|exact N]. apply argwhere_in. exists z. split; [rewrite nth_error_map, N; cbn [option_map]; congruence|].
    intros k z' K. rewrite nth_error_map in K. destruct (nth_error near_idx k) as [m|] eqn:E; [|discriminate K]. cbn [option_map] in K. injection K as K. pose proof (nth_error_In _ _ E) as I. apply (M m z'); [apply near_iff; exact I|]. apply angular_iff; [exact NZ|exact (near_lt m I)|exact K].
Qed.
Lemma sorted_nth : forall (l : list nat) i j a b, Sorted.StronglySorted lt l -> nth_error l i = Some a -> nth_error l j = Some b -> (i < j)%nat -> (a < b)%nat.
Proof.
  intros l i j a b H. revert i j. induction H as [|x l H IH F]; intros [|i] [|j] A B L; cbn in A, B; try discriminate; try lia.
  - injection A as <-. rewrite Forall_forall in F. apply F. exact (nth_error_In _ _ B).
  - exact (IH i j A B ltac:(lia)).
Qed.
Theorem psf_at_iff : forall p, psf_at average grid psfs t = Ok p <-> chosen grid average psfs t p.
Proof.
  intros p. unfold psf_at. fold dr. fold near_idx. pose proof (argwhere_sorted (map dr grid)) as SO. fold near_idx in SO. pose proof near_iff as NI. unfold chosen.
  assert (NEQ : forall i j : nat, nth_error near_idx i <> None -> nth_error near_idx i = nth_error near_idx j -> i = j).
  { intros i j N E. destruct (nth_error near_idx i) as [a|] eqn:A; [|congruence]. symmetry in E. destruct (Nat.lt_trichotomy i j) as [L|[L|L]]; [|exact L|]; [pose proof (sorted_nth _ i j a a SO A E L)|pose proof (sorted_nth _ j i a a SO E A L)]; lia. }
  destruct near_idx as [|i0 [|i1 rest]] eqn:EN.
  - split; [discriminate|]. intros [(i & U & _)|(_ & (j & k & _ & J & _) & _)]; [destruct (proj2 (NI i) (proj2 (U i) eq_refl))|destruct (proj2 (NI j) J)].
  - rewrite pick_iff. split.
    + intros H. left. exists i0. split; [|exact H]. intros j. rewrite <- NI. cbn. intuition.
    + intros [(i & U & H)|(_ & (j & k & NE & J & K) & _)]; [|apply NI in J, K; cbn in J, K; intuition congruence]. assert (i = i0) by (symmetry; apply U; apply NI; left; reflexivity). subst i. exact H.
  - assert (TWO : i0 <> i1) by (inversion SO as [|? ? _ F]; subst; inversion F; lia). fold (az) in *.
    destruct (Req_EM_T (radius t) 0) as [Z|NZ].
    { split; [discriminate|]. intros [(i & U & _)|(NZ & _)]; [|rewrite <- radius_far in NZ; contradiction]. exfalso. apply TWO. transitivity i; [apply U; apply NI; left; reflexivity|symmetry; apply U; apply NI; right; left; reflexivity]. }
    change (map _ (i0 :: i1 :: rest)) with (map az (i0 :: i1 :: rest)). pose proof (az_iff NZ) as AI. rewrite EN in AI. pose proof (argwhere_sorted (map az (i0 :: i1 :: rest))) as SA.
    assert (ALL : forall j, In j (argwhere_min (map az (i0 :: i1 :: rest))) -> exists i, nth_error (i0 :: i1 :: rest) j = Some i).
    { intros j J. apply argwhere_in in J. destruct J as (z & Z & _). rewrite nth_error_map in Z. destruct (nth_error (i0 :: i1 :: rest) j) as [i|]; [exists i; reflexivity|discriminate Z]. }
    assert (MANY : exists j k, j <> k /\ radially_near grid t j /\ radially_near grid t k) by (exists i0, i1; split; [exact TWO|]; split; apply NI; cbn; tauto).
    assert (NOTONE : forall i, ~ (forall j, radially_near grid t j <-> j = i)). { intros i U. apply TWO. transitivity i; [apply U; apply NI; left; reflexivity|symmetry; apply U; apply NI; right; left; reflexivity]. }
    destruct (argwhere_min (map az (i0 :: i1 :: rest))) as [|j [|k [|k' more]]] eqn:EA.
    + exfalso. revert EA. apply argwhere_nonempty. discriminate.
    + destruct (ALL j (or_introl eq_refl)) as (i & I). rewrite (proj2 (pick_iff _ _ j i) I). cbn [bind]. rewrite pick_iff.
      assert (U : forall m, angularly_near grid t m <-> m = i). { intros m. rewrite <- AI. split; [intros (j' & [<-|[]] & N); congruence|intros ->; exists j; split; [left; reflexivity|exact I]]. }
      split.
      * intros H. right. rewrite <- radius_far. split; [exact NZ|]. split; [exact MANY|]. left. exists i. auto.
      * intros [(i' & U' & _)|(_ & _ & [(i' & U' & H)|(a & b & _ & _ & L & U' & _)])]; [destruct (NOTONE i' U')| |].
        -- assert (i' = i) by (apply U; apply U'; reflexivity). subst i'. exact H.
        -- assert (a = i) by (apply U; apply U'; left; reflexivity). assert (b = i) by (apply U; apply U'; right; reflexivity). lia.
    + destruct (ALL j (or_introl eq_refl)) as (i & I). destruct (ALL k (or_intror (or_introl eq_refl))) as (i' & I'). rewrite (proj2 (pick_iff _ _ j i) I). cbn [bind]. rewrite (proj2 (pick_iff _ _ k i') I'). cbn [bind].
      assert (JK : (j < k)%nat) by (inversion SA as [|? ? _ F]; subst; inversion F; assumption). assert (LT : (i < i')%nat) by exact (sorted_nth _ j k i i' SO I I' JK).
      assert (U : forall m, angularly_near grid t m <-> m = i \/ m = i'). { intros m. rewrite <- AI. split; [intros (j' & [<-|[<-|[]]] & N); [left|right]; congruence|intros [-> | ->]; [exists j|exists k]; (split; [cbn; tauto|assumption])]. }
      split.
      * destruct (pick psfs i) as [a|] eqn:PA; cbn [bind]; [|discriminate]. destruct (pick psfs i') as [b|] eqn:PB; cbn [bind]; [|discriminate]. intros H. injection H as <-. apply pick_iff in PA, PB. right. rewrite <- radius_far. split; [exact NZ|]. split; [exact MANY|]. right. exists i, i', a, b. auto.
      * intros [(m & U' & _)|(_ & _ & [(m & U' & H)|(m & m' & a & b & L & U' & HA & HB & ->)])]; [destruct (NOTONE m U')| |].
        -- exfalso. assert (i = m) by (apply U'; apply U; left; reflexivity). assert (i' = m) by (apply U'; apply U; right; reflexivity). lia.
        -- assert (M1 : m = i \/ m = i') by (apply U; apply U'; left; reflexivity). assert (M2 : m' = i \/ m' = i') by (apply U; apply U'; right; reflexivity). assert (m = i) by lia. assert (m' = i') by lia. subst m m'. rewrite (proj2 (pick_iff _ _ i a) HA), (proj2 (pick_iff _ _ i' b) HB). reflexivity.
    + split; [discriminate|]. intros H. exfalso.
      destruct (ALL j (or_introl eq_refl)) as (a & A). destruct (ALL k (or_intror (or_introl eq_refl))) as (b & B). destruct (ALL k' (or_intror (or_intror (or_introl eq_refl)))) as (c & C0).
      assert (JK : (j < k < k')%nat) by (inversion SA as [|? ? SA' F]; subst; inversion F; subst; inversion SA' as [|? ? _ F']; subst; inversion F'; subst; lia).
      pose proof (sorted_nth _ j k a b SO A B ltac:(lia)). pose proof (sorted_nth _ k k' b c SO B C0 ltac:(lia)).
      assert (NA : angularly_near grid t a) by (apply AI; exists j; split; [cbn; tauto|exact A]). assert (NB : angularly_near grid t b) by (apply AI; exists k; split; [cbn; tauto|exact B]). assert (NC : angularly_near grid t c) by (apply AI; exists k'; split; [cbn; tauto|exact C0]).
      destruct H as [(m & U' & _)|(_ & _ & [(m & U' & _)|(m & m' & _ & _ & _ & U' & _)])]; [destruct (NOTONE m U')| |].
      * apply U' in NA, NB. lia.
      * apply U' in NA, NB, NC. lia.
Qed.
Theorem psf_at_error : grid <> [] -> List.length psfs = List.length grid -> forall e, psf_at average grid psfs t = Raise e -> e = ValueError.
Proof.
  intros NE LE e. unfold psf_at. fold dr. fold near_idx. pose proof near_lt as NL. assert (NN : near_idx <> []) by (apply argwhere_nonempty; destruct grid; [congruence|discriminate]).
  assert (PK : forall i, In i near_idx -> exists a, pick psfs i = Ok a). { intros i I. unfold pick. pose proof (NL i I). destruct (nth_error psfs i) as [a|] eqn:A; [exists a; reflexivity|apply nth_error_None in A; lia]. }
  destruct near_idx as [|i0 [|i1 rest]] eqn:EN; [congruence| |].
  - destruct (PK i0 (or_introl eq_refl)) as (a & ->). discriminate.
  - destruct (Req_EM_T (radius t) 0) as [Z|NZ]; [congruence|]. change (map _ (i0 :: i1 :: rest)) with (map az (i0 :: i1 :: rest)).
    assert (ALL : forall j, In j (argwhere_min (map az (i0 :: i1 :: rest))) -> exists i, pick (i0 :: i1 :: rest) j = Ok i /\ In i (i0 :: i1 :: rest)).
    { intros j J. apply argwhere_in in J. destruct J as (z & Z & _). rewrite nth_error_map in Z. unfold pick. destruct (nth_error (i0 :: i1 :: rest) j) as [i|] eqn:I; [exists i; split; [reflexivity|exact (nth_error_In _ _ I)]|discriminate Z]. }
    destruct (argwhere_min (map az (i0 :: i1 :: rest))) as [|j [|k [|k' more]]]; try congruence.
    + destruct (ALL j (or_introl eq_refl)) as (i & -> & I). cbn [bind]. destruct (PK i I) as (a & ->). discriminate.
    + destruct (ALL j (or_introl eq_refl)) as (i & -> & I). cbn [bind]. destruct (ALL k (or_intror (or_introl eq_refl))) as (i' & -> & I'). cbn [bind]. destruct (PK i I) as (a & ->). cbn [bind]. destruct (PK i' I') as (b & ->). discriminate.
Qed.
End Psf.

(** ** The whole request *)
Lemma rmin_spec : forall l m, rmin l = Ok m -> In m l /\ forall x, In x l -> m <= x.
Proof.
  assert (G : forall l a, let m := fold_left Rmin l a in (In m (a :: l)) /\ forall x, In x (a :: l) -> m <= x).
  { induction l as [|b l IH]; intros a; cbn [fold_left]; [split; [left; reflexivity|intros x [<-|[]]; lra]|]. destruct (IH (Rmin a b)) as (I & M). cbv zeta. split.
    - destruct I as [I|I]; [|right; right; exact I]. rewrite <- I. unfold Rmin. destruct (Rle_dec a b); [left; reflexivity|right; left; reflexivity].
    - intros x X. pose proof (M (Rmin a b) (or_introl eq_refl)). pose proof (Rmin_l a b). pose proof (Rmin_r a b). destruct X as [<-|[<-|X]]; [lra|lra|]. apply M. right. exact X. }
  intros [|a l] m H; [discriminate H|]. injection H as <-. apply G.
Qed.
Lemma rmax_spec : forall l m, rmax l = Ok m -> In m l /\ forall x, In x l -> x <= m.
Proof.
  assert (G : forall l a, let m := fold_left Rmax l a in (In m (a :: l)) /\ forall x, In x (a :: l) -> x <= m).
  { induction l as [|b l IH]; intros a; cbn [fold_left]; [split; [left; reflexivity|intros x [<-|[]]; lra]|]. destruct (IH (Rmax a b)) as (I & M). cbv zeta. split.
    - destruct I as [I|I]; [|right; right; exact I]. rewrite <- I. unfold Rmax. destruct (Rle_dec a b); [right; left; reflexivity|left; reflexivity].
    - intros x X. pose proof (M (Rmax a b) (or_introl eq_refl)). pose proof (Rmax_l a b). pose proof (Rmax_r a b). destruct X as [<-|[<-|X]]; [lra|lra|]. apply M. right. exact X. }
  intros [|a l] m H; [discriminate H|]. injection H as <-. apply G.
Qed.
Lemma sieve_twice : forall A (l : list A) (f g : A -> bool) (Q : A -> Prop) m, (forall x, f x && g x = true <-> Q x) -> (sieve Q l m <-> m = filter g (filter f l)).
Proof.
  intros A l f g Q m E. assert (F : filter g (filter f l) = filter (fun x => f x && g x) l). { clear. induction l as [|x l IH]; [reflexivity|]. cbn [filter]. destruct (f x); cbn [filter andb]; [destruct (g x); rewrite IH; reflexivity|exact IH]. }
  rewrite F. apply sieve_filter. exact E.
Qed.
Theorem get_psf_iff : forall P (average : P -> P -> P) positions psfs fpm xs ys out ts,
  get_psf average positions psfs fpm xs ys true = Ok (out, ts) <->
  let grid := map (fun p => (fst p - fst fpm, snd p - snd fpm)) positions in
  List.length xs = List.length ys /\ sieve (in_range grid) (combine xs ys) ts /\ ts <> [] /\ Forall2 (chosen grid average psfs) ts out.
Proof.
  intros P average positions psfs fpm xs ys out ts. cbv zeta. unfold get_psf. set (grid := map _ positions). destruct (Nat.eqb_spec (List.length xs) (List.length ys)) as [LE|LE]; cbn [negb]; [|split; [discriminate|intros (H & _); contradiction]].
  destruct (rmin (map radius grid)) as [lo|e] eqn:LO; cbn [bind].
  2:{ split; [discriminate|]. intros (_ & SV & NE & _). exfalso. destruct grid as [|g0 gr]; [|discriminate LO]. apply NE. clear - SV. remember (combine xs ys) as l eqn:E. clear E. induction SV as [|x l m HP SV IH|x l m HP SV IH]; [reflexivity| |exact IH]. destruct HP as ((g & [] & _) & _). }
  destruct (rmax (map radius grid)) as [hi|e] eqn:HI; cbn [bind]. 2:{ exfalso. destruct grid; [discriminate LO|discriminate HI]. }
  set (f := fun t => if Rle_dec lo (radius t) then true else false). set (g := fun t => if Rle_dec (radius t) hi then true else false).
  assert (SV : forall m, sieve (in_range grid) (combine xs ys) m <-> m = filter g (filter f (combine xs ys))).
  { intros m. apply sieve_twice. intros t. unfold f, g, in_range. destruct (rmin_spec _ _ LO) as (ILO & MLO). destruct (rmax_spec _ _ HI) as (IHI & MHI). apply in_map_iff in ILO, IHI. destruct ILO as (gl & GL & IL). destruct IHI as (gh & GH & IH). split.
    - destruct (Rle_dec lo (radius t)); [|discriminate]. destruct (Rle_dec (radius t) hi); [|discriminate]. intros _. split; [exists gl|exists gh]; rewrite <- !radius_far; (split; [assumption|lra]).
    - intros ((a & IA & A) & (b & IB & B)). rewrite <- !radius_far in A, B. pose proof (MLO _ (in_map radius _ _ IA)). pose proof (MHI _ (in_map radius _ _ IB)). destruct (Rle_dec lo (radius t)); [|lra]. destruct (Rle_dec (radius t) hi); [reflexivity|lra]. }
  set (t1 := filter f (combine xs ys)) in *. set (t2 := filter g t1) in *. split.
  - destruct (Nat.eqb_spec (List.length t1) 0); [discriminate|]. destruct (Nat.eqb_spec (List.length t2) 0) as [|N2]; [discriminate|]. destruct (mapR _ t2) as [o|] eqn:M; cbn [bind]; [|discriminate]. intros H. injection H as <- <-.
    split; [exact LE|]. split; [apply SV; reflexivity|]. split; [intros E; rewrite E in N2; apply N2; reflexivity|]. apply mapR_iff in M. eapply Forall2_impl; [|exact M]. intros t p _ H. apply psf_at_iff. exact H.
  - intros (_ & S0 & NE & F). apply SV in S0. subst ts. destruct (Nat.eqb_spec (List.length t1) 0) as [E1|]; [exfalso; apply NE; destruct t1 eqn:T1; [reflexivity|discriminate E1]|]. destruct (Nat.eqb_spec (List.length t2) 0) as [E2|]; [exfalso; apply NE; destruct t2; [reflexivity|discriminate E2]|].
    rewrite (proj2 (mapR_iff _ _ _ t2 out)); [reflexivity|]. eapply Forall2_impl; [|exact F]. intros t p _ H. apply psf_at_iff. exact H.
Qed.
Theorem get_psf_error : forall P (average : P -> P -> P) positions psfs fpm xs ys polar e, List.length psfs = List.length positions -> get_psf average positions psfs fpm xs ys polar = Raise e -> e = ValueError.
Proof.
  intros P average positions psfs fpm xs ys polar e LE. unfold get_psf. set (grid := map _ positions). assert (LG : List.length psfs = List.length grid) by (unfold grid; rewrite map_length; exact LE).
  destruct (Nat.eqb _ _); cbn [negb]; [|congruence]. destruct grid as [|g0 gr] eqn:EG; [cbn; congruence|]. destruct (rmin _) as [lo|] eqn:LO; [|discriminate LO]. cbn [bind]. destruct (Nat.eqb _ 0); [congruence|]. destruct (rmax _) as [hi|] eqn:HI; [|discriminate HI]. cbn [bind]. destruct (Nat.eqb _ 0); [congruence|]. destruct polar; [|congruence].
  rewrite <- EG in *. clear LO HI. generalize (filter (fun t => if Rle_dec (radius t) hi then true else false) (filter (fun t => if Rle_dec lo (radius t) then true else false) (combine xs ys))). intros l.
  destruct (mapR (psf_at average grid psfs) l) as [o|e'] eqn:M; cbn [bind]; [discriminate|]. intros H. injection H as <-.
  revert e' M. induction l as [|t l IH]; intros e' M; cbn [mapR] in M; [discriminate M|]. destruct (psf_at average grid psfs t) as [p|e2] eqn:PA; cbn [bind] in M.
  - destruct (mapR _ l) as [o|e3] eqn:M3; cbn [bind] in M; [discriminate M|]. injection M as <-. exact (IH e3 eq_refl).
  - injection M as <-. apply (psf_at_error P average grid psfs t) with (e := e2); [rewrite EG; discriminate|exact LG|exact PA].
Qed.
