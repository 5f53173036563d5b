(** Proofs about the photometric steps. *)
From Coq Require Import List Arith Bool QArith String Reals Qreals Lia Lra Lqa.
From Verif Require Import Base CosmicModel DqModel DarkModel DarkProofs UnitsModel UnitsSpec.
Import ListNotations.
Local Open Scope list_scope.
Local Open Scope nat_scope.

Lemma mapR_all : forall A B (step : A -> result B) (P : A -> Prop) (Rl : A -> B -> Prop) l,
  (forall x, P x -> exists y, step x = Ok y /\ Rl x y) -> Forall P l -> exists out, mapR step l = Ok out /\ Forall2 Rl l out.
Proof.
  intros A B step P Rl l H F. induction F as [|x t Hx F IH]; [exists []; split; [reflexivity|constructor]|].
  destruct IH as (out & E & G). destruct (H x Hx) as (y & Ey & Hy). exists (y :: out). cbn. rewrite Ey. cbn. rewrite E.
  split; [reflexivity|constructor; assumption].
Qed.

Lemma quad_some : forall a b, exists e, quad (Some a) (Some b) = Some e /\ (0 <= e)%R /\ (e * e = a * a + b * b)%R.
Proof.
  intros a b. cbn. eexists. split; [reflexivity|]. split; [apply sqrt_pos|]. apply sqrt_sqrt.
  assert (A1 := Rle_0_sqr a). assert (A2 := Rle_0_sqr b). unfold Rsqr in A1, A2. Lra.lra.
Qed.
Lemma quad_none_l : forall b, quad None b = None.
Proof. reflexivity. Qed.
Lemma quad_none_r : forall a, quad a None = None.
Proof. intros [a|]; reflexivity. Qed.

Lemma nth_lt : forall A (l : list A) i, i < List.length l -> exists v, nth_error l i = Some v.
Proof. intros A l i H. destruct (nth_error l i) eqn:E; [eexists; reflexivity|]. apply nth_error_None in E. lia. Qed.
Lemma nth_some_lt : forall A (l : list A) i v, nth_error l i = Some v -> i < List.length l.
Proof. intros A l i v E. apply nth_error_Some. rewrite E. discriminate. Qed.

(** * convert_to_electrons *)
Lemma electrons_spec : forall n k s f, well_formed n f -> exists o, electrons_frame k s f = Ok o /\ converted n k s f o.
Proof.
  intros n k s f (Ld & Fe & NE). unfold electrons_frame. destruct (u_err f) as [|l0 rest] eqn:EE; [contradiction|].
  inversion Fe as [|l0' r' L0 Fr]; subst.
  destruct (zipR_spec _ _ _ (fun e d => quad (rmul (Some k) e) (rmul d (Some s))) l0 (u_data f)) as (e0 & Ez & Lz & Nz); [lia|].
  rewrite Ez. cbn [bind]. eexists. split; [reflexivity|].
  split; [split; reflexivity|]. split.
  { split; [cbn; rewrite map_length; reflexivity|]. split; [|discriminate]. cbn. constructor; [lia|].
    apply Forall_forall. intros l I. apply in_map_iff in I. destruct I as (x & <- & I). rewrite map_length. exact (proj1 (Forall_forall _ _) Fr x I). }
  split; [cbn; rewrite map_length, EE; reflexivity|]. cbn [u_err u_data set_u]. split; [|split; [|split]].
  - intros i d e [Hd (l & r & El & He)]. rewrite EE in El. injection El as <- <-.
    destruct (quad_some (k * e) (d * s)) as (e' & Eq & Pos & Sq). exists e'. split; [|split; [exact Pos|exact Sq]].
    split; [cbn; rewrite nth_error_map, Hd; reflexivity|]. exists e0, (map (map (fun _ => Some 0%R)) rest). split; [reflexivity|].
    rewrite Nz, He, Hd. cbn [lift2 rmul]. rewrite Eq. reflexivity.
  - intros i Hd. split; [rewrite nth_error_map, Hd; reflexivity|]. exists e0. split; [reflexivity|]. rewrite Nz, Hd.
    destruct (nth_lt _ l0 i) as [v Ev]; [apply nth_some_lt in Hd; lia|]. rewrite Ev. cbn [lift2 rmul]. rewrite quad_none_r. reflexivity.
  - intros i (l & El & Hl). rewrite EE in El. injection El as <-. exists e0. split; [reflexivity|]. rewrite Nz, Hl.
    destruct (nth_lt _ (u_data f) i) as [v Ev]; [apply nth_some_lt in Hl; lia|]. rewrite Ev. reflexivity.
  - intros j i Hj Hj2 Hi. rewrite EE in Hj2. destruct j as [|j]; [lia|]. cbn in Hj2.
    destruct (nth_lt _ rest j) as [l El]; [lia|]. exists (map (fun _ => Some 0%R) l). cbn. rewrite nth_error_map, El. split; [reflexivity|].
    rewrite nth_error_map. destruct (nth_lt _ l i) as [v Ev]; [|rewrite Ev; reflexivity].
    rewrite (proj1 (Forall_forall _ _) Fr l (nth_error_In _ _ El)). lia.
Qed.

(** * Layers *)
Lemma add_error_spec : forall track e n layers, List.length e = n -> Forall (fun l => List.length l = n) layers -> layers <> [] ->
  exists l0' l0 rest, layers = l0 :: rest /\ add_error track e n layers = Ok (l0' :: rest ++ (if track then [e] else []))
    /\ List.length l0' = n /\ (forall i, nth_error l0' i = lift2 quad (nth_error l0 i) (nth_error e i)).
Proof.
  intros track e n layers Le F NE. destruct layers as [|l0 rest]; [contradiction|]. inversion F; subst.
  destruct (zipR_spec _ _ _ quad l0 e) as (o & E & L & N); [lia|].
  exists o, l0, rest. split; [reflexivity|]. unfold add_error. rewrite Nat.eqb_refl. cbn [negb]. rewrite E. cbn [bind].
  split; [reflexivity|]. split; [lia|exact N].
Qed.
Lemma rescale_spec : forall s n layers, List.length s = n -> Forall (fun l => List.length l = n) layers ->
  exists out, rescale s n layers = Ok out
    /\ Forall2 (fun l o => List.length o = n /\ forall i, nth_error o i = lift2 rmul (nth_error l i) (nth_error s i)) layers out.
Proof.
  intros s n layers Ls F. unfold rescale. rewrite Ls, Nat.eqb_refl. cbn [negb]. apply (mapR_all _ _ _ (fun l => List.length l = n)); [|exact F].
  intros l Hl. destruct (zipR_spec _ _ _ rmul l s) as (o & E & L & N); [lia|]. exists o. split; [exact E|]. split; [lia|exact N].
Qed.
Lemma Forall2_nth : forall A B (P : A -> B -> Prop) l m j x, Forall2 P l m -> nth_error l j = Some x -> exists y, nth_error m j = Some y /\ P x y.
Proof.
  intros A B P l m j x F. revert j. induction F as [|a b l m H F IH]; intros [|j] E; try discriminate E.
  - injection E as <-. exists b. split; [reflexivity|exact H].
  - exact (IH j E).
Qed.
Lemma Forall2_len : forall A B (P : A -> B -> Prop) l m, Forall2 P l m -> List.length l = List.length m.
Proof. intros A B P l m F. induction F; cbn; lia. Qed.

(** * divide_by_exptime *)
Lemma Q2R_nz : forall t, ~ (t == 0)%Q -> Q2R t <> 0%R.
Proof. intros t H E. apply H. apply eqR_Qeq. rewrite E. symmetry. apply RMicromega.Q2R_0. Qed.

Lemma exptime_spec : forall n f t, well_formed n f -> u_t f = Some t -> ~ (t == 0)%Q -> exists o, exptime_frame f = Ok o /\ per_second n f o.
Proof.
  intros n f t (Ld & Fe & NE) Et Nz. unfold exptime_frame. rewrite Et. cbn [getkey bind].
  destruct (Qeq_bool t 0) eqn:Z; [apply Qeq_bool_iff in Z; contradiction|].
  assert (NR := Q2R_nz t Nz).
  set (sc := map (fun _ => rmul (Some (/ Q2R t)%R) (Some 1%R)) (u_data f)).
  assert (Nsc : forall i, i < n -> nth_error sc i = Some (Some (/ Q2R t * 1)%R)).
  { intros i Hi. unfold sc. rewrite nth_error_map. destruct (nth_lt _ (u_data f) i) as [v Ev]; [lia|]. rewrite Ev. reflexivity. }
  rewrite Ld. destruct (rescale_spec sc n (u_err f)) as (e & Ee & F2); [unfold sc; rewrite map_length; exact Ld|exact Fe|]. rewrite Ee. cbn [bind].
  eexists. split; [reflexivity|]. split; [split; reflexivity|]. split.
  { split; [cbn; rewrite map_length; exact Ld|]. split.
    - cbn. clear - F2. induction F2 as [|l o ls os [H _] F IH]; constructor; assumption.
    - cbn. destruct (u_err f); [contradiction|]. inversion F2. discriminate. }
  split; [cbn; symmetry; exact (Forall2_len _ _ _ _ _ F2)|]. exists t. split; [exact Et|]. split; [exact Nz|]. cbn [u_data u_err set_u].
  split; [|split; [|split]].
  - intros i d Hd. rewrite nth_error_map, Hd. cbn [option_map rdiv]. destruct (Req_EM_T (Q2R t) 0); [contradiction|]. eexists. split; [reflexivity|].
    field. exact NR.
  - intros i Hd. rewrite nth_error_map, Hd. reflexivity.
  - intros j i x (l & El & Hl). destruct (Forall2_nth _ _ _ _ _ j l F2 El) as (o & Eo & Lo & No). 
    assert (Hi : i < n) by (apply nth_some_lt in Hl; rewrite (proj1 (Forall_forall _ _) Fe l (nth_error_In _ _ El)) in Hl; exact Hl).
    exists (x * (/ Q2R t * 1))%R. split; [exists o; split; [exact Eo|]; rewrite No, Hl, (Nsc i Hi); reflexivity|]. field. exact NR.
  - intros j i (l & El & Hl). destruct (Forall2_nth _ _ _ _ _ j l F2 El) as (o & Eo & Lo & No).
    assert (Hi : i < n) by (apply nth_some_lt in Hl; rewrite (proj1 (Forall_forall _ _) Fe l (nth_error_In _ _ El)) in Hl; exact Hl).
    exists o. split; [exact Eo|]. rewrite No, Hl, (Nsc i Hi). reflexivity.
Qed.
Lemma exptime_rejects : forall f, (u_t f = None \/ exists t, u_t f = Some t /\ (t == 0)%Q) -> exists e, exptime_frame f = Raise e.
Proof.
  intros f [H|(t & H & Z)]; unfold exptime_frame; rewrite H; cbn [getkey bind]; [eexists; reflexivity|].
  rewrite (proj2 (Qeq_bool_iff t 0) Z). eexists. reflexivity.
Qed.

(** * flat_division *)
Lemma flat_spec : forall track n flat ferr f, well_formed n f -> List.length flat = n -> List.length ferr = n ->
  exists o, flat_frame track flat ferr f = Ok o /\ flattened track n flat ferr f o.
Proof.
  intros track n flat ferr f (Ld & Fe & NE) Lf Ls. unfold flat_frame.
  destruct (zipR_spec _ _ _ rdiv (u_data f) flat) as (new & E1 & L1 & N1); [lia|]. rewrite E1. cbn [bind]. rewrite Ld.
  set (sc := map (rdiv (Some 1%R)) flat).
  destruct (rescale_spec sc n (u_err f)) as (e1 & E2 & F2); [unfold sc; rewrite map_length; exact Lf|exact Fe|]. rewrite E2. cbn [bind].
  destruct (zipR_spec _ _ _ rmul (u_data f) ferr) as (dfe & E3 & L3 & N3); [lia|]. rewrite E3. cbn [bind].
  destruct (zipR_spec _ _ _ rdiv dfe (map (fun x => rmul x x) flat)) as (term & E4 & L4 & N4); [rewrite map_length; lia|]. rewrite E4. cbn [bind].
  assert (Fe1 : Forall (fun l => List.length l = n) e1) by (clear - F2; induction F2 as [|l o ls os [H _] F IH]; constructor; assumption).
  assert (NE1 : e1 <> []) by (destruct (u_err f); [contradiction|]; inversion F2; discriminate).
  destruct (add_error_spec track term n e1 ltac:(lia) Fe1 NE1) as (l0' & l0 & rest & Ee1 & E5 & L5 & N5). rewrite E5. cbn [bind].
  assert (Len : List.length (u_err f) = S (List.length rest)) by (rewrite (Forall2_len _ _ _ _ _ F2), Ee1; reflexivity).
  eexists. split; [reflexivity|]. split; [split; reflexivity|].
  assert (TERM : forall i d w s, nth_error (u_data f) i = Some (Some d) -> nth_error flat i = Some (Some w) -> nth_error ferr i = Some (Some s) -> w <> 0%R ->
     nth_error term i = Some (Some (d * s / (w * w))%R)).
  { intros i d w s Hd Hw Hs NW. rewrite N4, N3, Hd, Hs, nth_error_map, Hw. cbn [lift2 option_map rmul rdiv].
    destruct (Req_EM_T (w * w) 0) as [Z|Z]; [|reflexivity]. exfalso. apply Rmult_integral in Z. tauto. }
  split.
  { split; [cbn; lia|]. split; [|discriminate]. cbn. constructor; [exact L5|]. rewrite Ee1 in Fe1. inversion Fe1; subst. apply Forall_app. split; [assumption|].
    destruct track; constructor; [lia|constructor]. }
  split. { cbn. rewrite app_length, Len. destruct track; cbn; lia. }
  cbn [u_data u_err set_u]. split; [|split; [|split]].
  - intros i d e w s [Hd (q0 & qr & Eq & He)] Hw Hs NW.
    rewrite Eq in F2. rewrite Ee1 in F2. inversion F2 as [|q0' o0 qr' or' [Lo No] Fr]; subst.
    destruct (quad_some (e * (1 / w)) (d * s / (w * w))) as (e' & Eqe & Pos & Sq).
    exists (d / w)%R, e'. split; [|split; [field; exact NW|split; [exact Pos|rewrite Sq; field; exact NW]]].
    split.
    + cbn. rewrite N1, Hd, Hw. cbn [lift2 rdiv]. destruct (Req_EM_T w 0); [contradiction|reflexivity].
    + exists l0', (rest ++ (if track then [term] else [])). split; [reflexivity|]. rewrite N5, No, He. unfold sc. rewrite nth_error_map, Hw. cbn [option_map rdiv lift2].
      destruct (Req_EM_T w 0); [contradiction|]. cbn [lift2 rmul]. rewrite (TERM i d w s Hd Hw Hs NW). cbn [lift2]. rewrite Eqe. reflexivity.
  - intros i w Hw Hi H. rewrite N1, Hw. destruct (nth_lt _ (u_data f) i) as [v Ev]; [lia|]. rewrite Ev. cbn [lift2]. f_equal.
    destruct H as [-> | ->]; destruct v as [v|]; try reflexivity. cbn. destruct (Req_EM_T 0 0); [reflexivity|contradiction].
  - intros j i x w Hj (l & El & Hl) Hw NW. destruct (Forall2_nth _ _ _ _ _ j l F2 El) as (o & Eo & Lo & No). rewrite Ee1 in Eo. destruct j as [|j]; [lia|]. cbn in Eo.
    exists (x * (1 / w))%R. split; [|field; exact NW]. exists o. split; [cbn; rewrite nth_error_app1 by (apply nth_error_Some; rewrite Eo; discriminate); exact Eo|].
    rewrite No, Hl. unfold sc. rewrite nth_error_map, Hw. cbn [option_map rdiv]. destruct (Req_EM_T w 0); [contradiction|reflexivity].
  - intros -> i d w s Hd Hw Hs NW. exists (d * s / (w * w))%R. split; [|field; exact NW]. exists term. rewrite Len. cbn. split; [|exact (TERM i d w s Hd Hw Hs NW)].
    rewrite nth_error_app2 by lia. rewrite Nat.sub_diag. reflexivity.
Qed.

(** * add_photon_noise *)
Lemma noise_gain_iff : forall h g, noise_gain h g <-> em_gain_noise h = g.
Proof.
  intros h g. unfold noise_gain, em_gain_noise. destruct (h_gm h) as [m|].
  - split; [intros [E|[E _]]; [injection E as ->; reflexivity|discriminate]|intros ->; left; reflexivity].
  - fold (card0 (h_ga h)) (card0 (h_gc h)). cbv zeta. destruct (Qle_bool (card0 (h_ga h)) 0) eqn:L; cbn [negb].
    + apply Qle_bool_iff in L. split.
      * intros [E|(_ & [[P _]|[_ ->]])]; [discriminate| |reflexivity]. exfalso. Lqa.lra.
      * intros <-. right. split; [reflexivity|right; split; [exact L|reflexivity]].
    + assert (P : (0 < card0 (h_ga h))%Q).
      { apply Qnot_le_lt. intros H. apply Qle_bool_iff in H. rewrite H in L. discriminate. }
      split.
      * intros [E|(_ & [[_ ->]|[H _]])]; [discriminate|reflexivity|]. exfalso. Lqa.lra.
      * intros <-. right. split; [reflexivity|left; split; [exact P|reflexivity]].
Qed.

Lemma photon_spec : forall track n f, well_formed n f -> exists o, photon_frame track f = Ok o /\ noisy track n f o.
Proof.
  intros track n f (Ld & Fe & NE). unfold photon_frame.
  set (phot := if excess_noise (u_cr f) then map (rmul (Some (sqrt 2))) (map rsqrt (u_data f)) else map rsqrt (u_data f)).
  assert (Lp : List.length phot = n) by (unfold phot; destruct (excess_noise (u_cr f)); rewrite ?map_length; exact Ld).
  rewrite Ld. destruct (add_error_spec track phot n (u_err f) Lp Fe NE) as (l0' & l0 & rest & Ee & E & L & N). cbv zeta. rewrite E. cbn [bind].
  eexists. split; [reflexivity|]. split; [split; reflexivity|]. rewrite Ee in Fe. inversion Fe as [|l0a ra L0 Fr]; subst l0a ra.
  split. { split; [exact Ld|]. split; [|discriminate]. cbn. constructor; [exact L|]. apply Forall_app. split; [exact Fr|]. destruct track; constructor; [exact Lp|constructor]. }
  split; [reflexivity|]. split; [cbn; rewrite Ee, app_length; destruct track; cbn; lia|]. cbn [u_data u_err set_u].
  assert (EX : forall g, noise_gain (u_cr f) g -> excess_noise (u_cr f) = true <-> (1 < g)%Q).
  { intros g Hg. apply noise_gain_iff in Hg. unfold excess_noise. rewrite Hg, negb_true_iff. split.
    - intros H. apply Qnot_le_lt. intros H2. apply Qle_bool_iff in H2. rewrite H2 in H. discriminate.
    - intros H. destruct (Qle_bool g 1) eqn:L2; [apply Qle_bool_iff in L2; exfalso; Lqa.lra|reflexivity]. }
  split; [|split].
  - intros i d e g [Hd (q0 & qr & Eq & He)] Hg Pd. rewrite Ee in Eq. injection Eq as <- <-. specialize (EX g Hg).
    assert (PH : nth_error phot i = Some (Some (if excess_noise (u_cr f) then sqrt 2 * sqrt d else sqrt d)%R)).
    { unfold phot. destruct (excess_noise (u_cr f)); rewrite ?nth_error_map, Hd; cbn [option_map rsqrt rmul];
        (destruct (Rlt_dec d 0) as [Hlt|Hlt]; [exfalso; Lra.lra|reflexivity]). }
    destruct (quad_some e (if excess_noise (u_cr f) then sqrt 2 * sqrt d else sqrt d)) as (e' & Eqe & Pos & Sq).
    exists e'. split; [split; [exact Hd|]; exists l0', (rest ++ (if track then [phot] else [])); split; [reflexivity|]; rewrite N, He, PH; cbn [lift2]; rewrite Eqe; reflexivity|].
    split; [exact Pos|]. assert (S2 := sqrt_sqrt 2 ltac:(Lra.lra)). assert (Sd := sqrt_sqrt d Pd). split; intros Hgt.
    + rewrite (proj2 EX Hgt) in Sq. rewrite Sq. replace (sqrt 2 * sqrt d * (sqrt 2 * sqrt d))%R with ((sqrt 2 * sqrt 2) * (sqrt d * sqrt d))%R by ring. rewrite S2, Sd. reflexivity.
    + destruct (excess_noise (u_cr f)); [exfalso; assert (1 < g)%Q by (apply EX; reflexivity); Lqa.lra|]. rewrite Sq, Sd. reflexivity.
  - intros i d Hd Neg. exists l0'. split; [reflexivity|]. rewrite N.
    destruct (nth_lt _ l0 i) as [v Ev]; [apply nth_some_lt in Hd; lia|]. rewrite Ev.
    assert (PH : nth_error phot i = Some None).
    { unfold phot. destruct (excess_noise (u_cr f)); rewrite ?nth_error_map, Hd; cbn [option_map rsqrt rmul];
        (destruct (Rlt_dec d 0) as [Hlt|Hlt]; [reflexivity|contradiction]). }
    rewrite PH. cbn [lift2]. rewrite quad_none_r. reflexivity.
  - intros j i v Hj (l & El & Hl). rewrite Ee in El. destruct j as [|j]; [lia|]. cbn in El. exists l. split; [|exact Hl].
    cbn. rewrite nth_error_app1 by (apply nth_error_Some; rewrite El; discriminate). exact El.
Qed.

(** * Datasets *)
Lemma convert_all : forall n k s fs, Forall (well_formed n) fs -> exists out, convert_to_electrons k s fs = Ok out /\ Forall2 (converted n k s) fs out.
Proof. intros n k s fs. apply mapR_all. exact (electrons_spec n k s). Qed.
Lemma flat_all : forall track n flat ferr fs, List.length flat = n -> List.length ferr = n -> Forall (well_formed n) fs ->
  exists out, flat_division track flat ferr fs = Ok out /\ Forall2 (flattened track n flat ferr) fs out.
Proof. intros track n flat ferr fs L1 L2. apply mapR_all. intros f W. exact (flat_spec track n flat ferr f W L1 L2). Qed.
Lemma photon_all : forall track n fs, Forall (well_formed n) fs -> exists out, add_photon_noise track fs = Ok out /\ Forall2 (noisy track n) fs out.
Proof. intros track n fs. apply mapR_all. exact (photon_spec track n). Qed.
Lemma exptime_all : forall n fs, Forall (well_formed n) fs -> Forall (fun f => exists t, u_t f = Some t /\ ~ (t == 0)%Q) fs ->
  exists out, divide_by_exptime fs = Ok out /\ Forall2 (per_second n) fs out.
Proof.
  intros n fs F1 F2. apply (mapR_all _ _ exptime_frame (fun f => well_formed n f /\ exists t, u_t f = Some t /\ ~ (t == 0)%Q)).
  - intros f [W (t & E & N)]. exact (exptime_spec n f t W E N).
  - apply Forall_forall. intros f I. split; [exact (proj1 (Forall_forall _ _) F1 f I)|exact (proj1 (Forall_forall _ _) F2 f I)].
Qed.
Lemma exptime_fails : forall fs, Exists (fun f => u_t f = None \/ exists t, u_t f = Some t /\ (t == 0)%Q) fs -> exists e, divide_by_exptime fs = Raise e.
Proof.
  intros fs H. unfold divide_by_exptime. induction H as [f l H|f l H IH]; cbn.
  - destruct (exptime_rejects f H) as [e E]. rewrite E. exists e. reflexivity.
  - destruct (exptime_frame f); cbn; [|eexists; reflexivity]. destruct IH as [e E]. rewrite E. exists e. reflexivity.
Qed.

(** * Relative errors and signal-to-noise *)
Lemma convert_relative : forall n k s f o i d e e', converted n k s f o -> pixel f i d e -> pixel o i (d * k) e' -> d <> 0%R -> k <> 0%R ->
  (relative e' (d * k) = relative e d + relative s k)%R.
Proof.
  intros n k s f o i d e e' (_ & _ & _ & H & _) Hf Ho Nd Nk. destruct (H i d e Hf) as (x & Hx & _ & Sq).
  destruct Ho as [_ (l & r & El & He)], Hx as [_ (l' & r' & El' & Hx)]. rewrite El in El'. injection El' as <- <-. rewrite He in Hx. injection Hx as <-.
  unfold relative. rewrite Sq. field. split; assumption.
Qed.
Lemma flat_relative : forall track n flat ferr f o i d e w s d' e', flattened track n flat ferr f o -> pixel f i d e ->
  nth_error flat i = Some (Some w) -> nth_error ferr i = Some (Some s) -> pixel o i d' e' -> d <> 0%R -> w <> 0%R ->
  (relative e' d' = relative e d + relative s w)%R.
Proof.
  intros track n flat ferr f o i d e w s d' e' (_ & _ & _ & H & _) Hf Hw Hs Ho Nd Nw. destruct (H i d e w s Hf Hw Hs Nw) as (x & y & Hx & Ex & _ & Sq).
  destruct Ho as [Hd (l & r & El & He)], Hx as [Hd' (l' & r' & El' & Hy)]. rewrite El in El'. injection El' as <- <-. rewrite He in Hy. injection Hy as <-.
  rewrite Hd in Hd'. injection Hd' as <-. unfold relative. rewrite <- Ex in *. assert (Nd2 : d' <> 0%R) by (intros ->; apply Nd; ring).
  assert (Sq2 : (e' * e' = (e * e * (w * w) + d' * w * (d' * w) * (s * s)) / (w * w * (w * w)))%R).
  { rewrite <- Sq. field. exact Nw. }
  rewrite Sq2. field. split; assumption.
Qed.
Lemma layers_lost : forall n k s f j i x, well_formed n f -> 0 < j -> layer_px f j i (Some x) -> x <> 0%R ->
  exists o, convert_to_electrons k s [f] = Ok [o] /\ layer_px o j i (Some 0%R).
Proof.
  intros n k s f j i x W Hj (l & El & Hl) _. destruct (electrons_spec n k s f W) as (o & E & C). exists o. split.
  - unfold convert_to_electrons. cbn. rewrite E. reflexivity.
  - destruct C as (_ & _ & _ & _ & _ & _ & H). apply H; [exact Hj|exact (nth_some_lt _ _ _ _ El)|].
    destruct W as (_ & F & _). rewrite <- (proj1 (Forall_forall _ _) F l (nth_error_In _ _ El)). exact (nth_some_lt _ _ _ _ Hl).
Qed.
