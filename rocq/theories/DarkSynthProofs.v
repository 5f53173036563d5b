(** Proofs about the master darks, part 3: build_synthesized_dark and
    dark_subtraction. *)
From Coq Require Import List Arith Bool QArith ZArith String Reals Qreals Lia Lqa Lra.
From Verif Require Import Base FloatModel CosmicModel DqModel GeomModel GeomSpec GeomProofs DarkModel DarkSpec DarkProofs DarkTradProofs.
Import ListNotations.
Local Open Scope list_scope.
Local Open Scope nat_scope.

Lemma em_gain_iff : forall h g, em_gain h = Ok g <-> gain_is h g.
Proof.
  intros h g. unfold em_gain, gain_is. destruct (h_gm h) as [m|].
  - split; [intros E; injection E as ->; left; reflexivity|]. intros [E|[E _]]; [injection E as ->; reflexivity|discriminate].
  - split.
    + intros E. right. split; [reflexivity|]. destruct (h_ga h) as [a|]; cbn in E; [|discriminate]. exists a. split; [reflexivity|].
      destruct (Qle_bool a 0) eqn:L; cbn in E.
      * right. split; [apply Qle_bool_iff; exact L|]. destruct (h_gc h); cbn in E; [injection E as ->; reflexivity|discriminate].
      * left. injection E as ->. split; [|reflexivity]. apply Qnot_le_lt. intros H. apply Qle_bool_iff in H. rewrite H in L. discriminate.
    + intros [E|(_ & a & Ea & H)]; [discriminate|]. rewrite Ea. cbn [getkey bind]. destruct H as [[P ->]|[P Ec]].
      * destruct (Qle_bool a 0) eqn:L; [apply Qle_bool_iff in L; exfalso; Lqa.lra|reflexivity].
      * rewrite (proj2 (Qle_bool_iff a 0) P). cbn. rewrite Ec. reflexivity.
Qed.

Lemma neg_iff : forall v, flt v (Fin 0) = false <-> not_negative v.
Proof.
  intros [q|neg|]; cbn; [|destruct neg; cbn; split; congruence|tauto].
  rewrite negb_false_iff. apply Qle_bool_iff.
Qed.

Lemma synth_data_nan : forall g t f d c, f = NaN \/ d = NaN \/ c = NaN -> synth_data g t f d c = NaN.
Proof.
  intros g t f d c H. unfold synth_data. destruct H as [->|[->| ->]].
  - reflexivity.
  - cbn. destruct (fdiv f (Fin g)); reflexivity.
  - destruct (fadd (fdiv f (Fin g)) (fmul (Fin t) d)); reflexivity.
Qed.

Section Synth.
Variable rg : regions.
Variable a : area.
Variable si : section.
Hypothesis RI : region_of rg "SCI" "image" a si.
Hypothesis FI : fits a si.
Let nr := Z.to_nat (a_rows a).
Let nc := Z.to_nat (a_cols a).
Lemma area_pos : (0 <= a_rows a)%Z /\ (0 <= a_cols a)%Z.
Proof. unfold fits in FI. lia. Qed.
Lemma area_get : get_area rg "SCI" = Ok a.
Proof. unfold get_area. rewrite (proj1 RI). reflexivity. Qed.

Variables (F C D : list (list fl)) (fe ce de : list (list (option R))) (fq cq dq : list (list N)).
Variable nm : noisemaps.

Variables tk c k : Q.
Variable fs : list dkf.
Variable f0 : dkf.
Variable rest : list dkf.
Hypothesis FS : fs = f0 :: rest.
Hypothesis KEY : Forall (fun f => has_key (k_hdr f) tk c k) fs.
Variables g t : Q.
Hypothesis GAIN : gain_is (h_cr (k_hdr f0)) g.
Hypothesis TIME : h_t (k_hdr f0) = Some t.

Lemma crop_full : forall A (x : list (list A)), crop rg true x = Ok x.
Proof. reflexivity. Qed.
Lemma has_shape_ok : forall A (x : list (list A)), rect x nr nc -> has_shape (a_rows a) (a_cols a) x = true.
Proof. intros A x H. apply has_shape_rect; [exact (proj1 area_pos)|exact (proj2 area_pos)|exact H]. Qed.

(** The core computation on maps of any common shape. *)
Definition synth_core (g t : Q) (F C D : list (list fl)) (fe ce de : list (list (option R))) (fq cq dq : list (list N)) : result dark :=
  do fd <- zip2 (fun x y => (x, y)) F D;
  do data <- zip2 (fun p z => synth_data g t (fst p) (snd p) z) fd C;
  do fde <- zip2 (fun x y => (x, y)) fe de;
  do err <- zip2 (fun p z => synth_err g t (fst p) (snd p) z) fde ce;
  do fdq <- zip2 N.lor fq dq;
  do q <- zip2 N.lor fdq cq;
  Ok (mkdark data err q).

Definition pw (g t : Q) (F C D : list (list fl)) (fe ce de : list (list (option R))) (fq cq dq : list (list N)) (d : dark) r c : Prop :=
  at2 (dk_data d) r c = lift2 (fun p z => synth_data g t (fst p) (snd p) z) (lift2 (fun x y => (x, y)) (at2 F r c) (at2 D r c)) (at2 C r c)
  /\ at2 (dk_err d) r c = lift2 (fun p z => synth_err g t (fst p) (snd p) z) (lift2 (fun x y => (x, y)) (at2 fe r c) (at2 de r c)) (at2 ce r c)
  /\ at2 (dk_dq d) r c = lift2 N.lor (lift2 N.lor (at2 fq r c) (at2 dq r c)) (at2 cq r c).

Lemma core_spec : forall g t mr mc F C D fe ce de fq cq dq,
  rect F mr mc -> rect C mr mc -> rect D mr mc -> rect fe mr mc -> rect ce mr mc -> rect de mr mc -> rect fq mr mc -> rect cq mr mc -> rect dq mr mc ->
  exists d, synth_core g t F C D fe ce de fq cq dq = Ok d /\ dark_shape mr mc d /\ forall r c, pw g t F C D fe ce de fq cq dq d r c.
Proof.
  intros g' t' mr mc F' C' D' fe' ce' de' fq' cq' dq' R1 R2 R3 R4 R5 R6 R7 R8 R9. unfold synth_core.
  destruct (zip2_spec _ _ _ (fun x y => (x, y)) F' D' mr mc R1 R3) as (o1 & E1 & Q1 & N1). rewrite E1. cbn [bind].
  destruct (zip2_spec _ _ _ (fun p z => synth_data g' t' (fst p) (snd p) z) o1 C' mr mc Q1 R2) as (o2 & E2 & Q2 & N2). rewrite E2. cbn [bind].
  destruct (zip2_spec _ _ _ (fun x y => (x, y)) fe' de' mr mc R4 R6) as (o3 & E3 & Q3 & N3). rewrite E3. cbn [bind].
  destruct (zip2_spec _ _ _ (fun p z => synth_err g' t' (fst p) (snd p) z) o3 ce' mr mc Q3 R5) as (o4 & E4 & Q4 & N4). rewrite E4. cbn [bind].
  destruct (zip2_spec _ _ _ N.lor fq' dq' mr mc R7 R9) as (o5 & E5 & Q5 & N5). rewrite E5. cbn [bind].
  destruct (zip2_spec _ _ _ N.lor o5 cq' mr mc Q5 R8) as (o6 & E6 & Q6 & N6). rewrite E6. cbn [bind].
  eexists. split; [reflexivity|]. split; [split; [exact Q2|split; [exact Q4|exact Q6]]|].
  intros r c'. unfold pw. cbn [dk_data dk_err dk_dq]. rewrite N2, N1, N4, N3, N6, N5. auto.
Qed.

Hypothesis GE1 : (1 <= g)%Q.

Lemma pw_synth : forall F C D fe ce de fq cq dq d r c, pw g t F C D fe ce de fq cq dq d r c ->
  (exists v, at2 F r c = Some v) -> (exists v, at2 C r c = Some v) -> (exists v, at2 D r c = Some v) ->
  (exists v, at2 fe r c = Some v) -> (exists v, at2 ce r c = Some v) -> (exists v, at2 de r c = Some v) ->
  synth_pixel g t F C D fe ce de fq cq dq d r c.
Proof.
  intros F' C' D' fe' ce' de' fq' cq' dq' d r c' (H1 & H2 & H3) [f Ef] [cc Ec] [dd Ed] [xf Exf] [xc Exc] [xd Exd]. unfold synth_pixel.
  rewrite H1, H2, H3, Ef, Ec, Ed, Exf, Exc, Exd. cbn [lift2 fst snd].
  assert (G0 : ~ (g == 0)%Q) by Lqa.lra.
  split; [|split; [|split; [|split]]].
  - intros x y z Hx Hy Hz. injection Hx as ->. injection Hy as ->. injection Hz as ->. unfold synth_data. cbn [fdiv fmul].
    unfold qzero. destruct (Qeq_bool g 0) eqn:Z; [apply Qeq_bool_iff in Z; contradiction|]. cbn [fadd].
    eexists. split; [reflexivity|]. field. exact G0.
  - intros H. f_equal. apply synth_data_nan. destruct H as [H|[H|H]]; injection H as ->; auto.
  - intros x y z Hx Hy Hz. injection Hx as ->. injection Hy as ->. injection Hz as ->. unfold synth_err. eexists. split; [reflexivity|].
    split; [apply sqrt_pos|].
    assert (GR : (Q2R g <> 0)%R).
    { intros Z. apply G0. apply eqR_Qeq. rewrite Z. symmetry. apply RMicromega.Q2R_0. }
    set (G := Q2R g) in *. set (T := Q2R t) in *.
    assert (P1 := Rle_0_sqr (x / G)). assert (P2 := Rle_0_sqr (T * z)). assert (P3 := Rle_0_sqr y). unfold Rsqr in P1, P2, P3.
    replace (x / G * (x / G))%R with (x * x / (G * G))%R in P1 by (field; exact GR).
    match goal with |- (G * sqrt ?v * _ = _)%R => replace (G * sqrt v * (G * sqrt v))%R with (G * G * (sqrt v * sqrt v))%R by ring; rewrite (sqrt_sqrt v) by lra end.
    field. exact GR.
  - intros H. f_equal. unfold synth_err. destruct xf, xd, xc; try reflexivity. exfalso. destruct H as [H|[H|H]]; discriminate H.
  - intros x y z Hx Hy Hz. rewrite Hx, Hy, Hz. cbn [lift2]. eexists. split; [reflexivity|]. intros b. rewrite !N.lor_spec, !orb_true_iff. tauto.
Qed.

Hypothesis MS : maps_shape nr nc nm F C D fe ce de fq cq dq.

Lemma synth_reduce : forall full,
  (forall r c v, at2 D r c = Some v -> not_negative v) -> (forall r c v, at2 C r c = Some v -> not_negative v) ->
  build_synthesized_dark rg nm full fs =
  (do F' <- crop rg full F; do D' <- crop rg full D; do C' <- crop rg full C;
   do fe' <- crop rg full fe; do de' <- crop rg full de; do ce' <- crop rg full ce;
   do fq' <- crop rg full fq; do dq' <- crop rg full dq; do cq' <- crop rg full cq;
   do d <- synth_core g t F' C' D' fe' ce' de' fq' cq' dq'; Ok (d, g, t)).
Proof.
  intros full ND NC. unfold build_synthesized_dark. destruct MS as (E1 & E2 & E3 & R1 & R2 & R3 & R4 & R5 & R6 & R7 & R8 & R9).
  rewrite E1, E2, E3. unfold plane. cbn [nth_error bind].
  destruct (unique_key_ok tk c k fs) as (x & E & _); [rewrite FS; discriminate|exact KEY|]. rewrite E. cbn [bind]. rewrite FS.
  rewrite (proj2 (em_gain_iff _ _) GAIN). cbn [bind]. rewrite TIME. cbn [getkey bind]. rewrite area_get. cbn [bind].
  rewrite (has_shape_ok _ F R1), (has_shape_ok _ D R3), (has_shape_ok _ C R2). cbn [negb].
  replace (any2 _ D) with false by (symmetry; apply any2_false; intros r c' v Ev; apply neg_iff; exact (ND r c' v Ev)).
  replace (any2 _ C) with false by (symmetry; apply any2_false; intros r c' v Ev; apply neg_iff; exact (NC r c' v Ev)).
  rewrite (proj2 (Qle_bool_iff 1 g) GE1). cbn [negb]. unfold synth_core.
  destruct (crop rg full F) as [F'|]; [|reflexivity]. cbn [bind]. destruct (crop rg full D) as [D'|]; [|reflexivity]. cbn [bind].
  destruct (crop rg full C) as [C'|]; [|reflexivity]. cbn [bind]. destruct (crop rg full fe) as [fe'|]; [|reflexivity]. cbn [bind].
  destruct (crop rg full de) as [de'|]; [|reflexivity]. cbn [bind]. destruct (crop rg full ce) as [ce'|]; [|reflexivity]. cbn [bind].
  destruct (crop rg full fq) as [fq'|]; [|reflexivity]. cbn [bind]. destruct (crop rg full dq) as [dq'|]; [|reflexivity]. cbn [bind].
  destruct (crop rg full cq) as [cq'|]; [|reflexivity]. cbn [bind].
  destruct (zip2 _ F' D') as [o1|]; [|reflexivity]. cbn [bind]. destruct (zip2 _ o1 C') as [o2|]; [|reflexivity]. cbn [bind].
  destruct (zip2 _ fe' de') as [o3|]; [|reflexivity]. cbn [bind]. destruct (zip2 _ o3 ce') as [o4|]; [|reflexivity]. cbn [bind].
  destruct (zip2 _ fq' dq') as [o5|]; [|reflexivity]. cbn [bind]. destruct (zip2 _ o5 cq') as [o6|]; reflexivity.
Qed.

Lemma synth_spec :
  (forall r c v, at2 D r c = Some v -> not_negative v) -> (forall r c v, at2 C r c = Some v -> not_negative v) ->
  exists d d', build_synthesized_dark rg nm true fs = Ok (d, g, t) /\ build_synthesized_dark rg nm false fs = Ok (d', g, t)
   /\ dark_shape nr nc d /\ (forall r c, r < nr -> c < nc -> synth_pixel g t F C D fe ce de fq cq dq d r c)
   /\ part_of (dk_data d) (s_r0 si) (s_c0 si) (s_rows si) (s_cols si) (dk_data d')
   /\ part_of (dk_err d) (s_r0 si) (s_c0 si) (s_rows si) (s_cols si) (dk_err d')
   /\ part_of (dk_dq d) (s_r0 si) (s_c0 si) (s_rows si) (s_cols si) (dk_dq d').
Proof.
  intros ND NC. rewrite (synth_reduce true ND NC), (synth_reduce false ND NC). unfold crop. cbn [bind].
  destruct MS as (E1 & E2 & E3 & R1 & R2 & R3 & R4 & R5 & R6 & R7 & R8 & R9).
  destruct (core_spec g t nr nc F C D fe ce de fq cq dq R1 R2 R3 R4 R5 R6 R7 R8 R9) as (d & Ed & Sd & Pd).
  rewrite Ed. cbn [bind].
  assert (SL := fun A x (Hx : rect x nr nc) => slice_section_spec rg "SCI" "image" a si RI FI A x Hx).
  destruct (SL _ F R1) as (F' & X1 & [Q1 P1]). destruct (SL _ D R3) as (D' & X3 & [Q3 P3]). destruct (SL _ C R2) as (C' & X2 & [Q2 P2]).
  destruct (SL _ fe R4) as (fe' & X4 & [Q4 P4]). destruct (SL _ de R6) as (de' & X6 & [Q6 P6]). destruct (SL _ ce R5) as (ce' & X5 & [Q5 P5]).
  destruct (SL _ fq R7) as (fq' & X7 & [Q7 P7]). destruct (SL _ dq R9) as (dq' & X9 & [Q9 P9]). destruct (SL _ cq R8) as (cq' & X8 & [Q8 P8]).
  rewrite X1. cbn [bind]. rewrite X3. cbn [bind]. rewrite X2. cbn [bind]. rewrite X4. cbn [bind]. rewrite X6. cbn [bind]. rewrite X5. cbn [bind].
  rewrite X7. cbn [bind]. rewrite X9. cbn [bind]. rewrite X8. cbn [bind].
  destruct (core_spec g t _ _ F' C' D' fe' ce' de' fq' cq' dq' Q1 Q2 Q3 Q4 Q5 Q6 Q7 Q8 Q9) as (d' & Ed' & Sd' & Pd'). rewrite Ed'. cbn [bind].
  exists d, d'. split; [reflexivity|]. split; [reflexivity|]. split; [exact Sd|]. split.
  { intros r c' Hr Hc. apply pw_synth; [exact (Pd r c')| | | | | |]; eapply rect_at2; eassumption. }
  destruct Sd' as (S1 & S2 & S3).
  split; [|split]; (split; [assumption|]); intros r c' Hr Hc; destruct (Pd' r c') as (A1 & A2 & A3);
    destruct (Pd (Z.to_nat (s_r0 si) + r) (Z.to_nat (s_c0 si) + c')) as (B1 & B2 & B3).
  - rewrite A1, B1, (P1 r c' Hr Hc), (P2 r c' Hr Hc), (P3 r c' Hr Hc). reflexivity.
  - rewrite A2, B2, (P4 r c' Hr Hc), (P5 r c' Hr Hc), (P6 r c' Hr Hc). reflexivity.
  - rewrite A3, B3, (P7 r c' Hr Hc), (P8 r c' Hr Hc), (P9 r c' Hr Hc). reflexivity.
Qed.
End Synth.

(** Rejections. *)
Lemma synth_rejects : forall rg a nm full fs f0 rest F C D g t x,
  get_area rg "SCI" = Ok a -> nm_data nm = [F; C; D] -> fs = f0 :: rest -> unique_key fs = Ok x ->
  gain_is (h_cr (k_hdr f0)) g -> h_t (k_hdr f0) = Some t ->
  has_shape (a_rows a) (a_cols a) F = false \/ has_shape (a_rows a) (a_cols a) C = false \/ has_shape (a_rows a) (a_cols a) D = false
  \/ (exists r c v, at2 D r c = Some v /\ ~ not_negative v) \/ (exists r c v, at2 C r c = Some v /\ ~ not_negative v) \/ (g < 1)%Q ->
  build_synthesized_dark rg nm full fs = Raise TypeError.
Proof.
  intros rg a nm full fs f0 rest F C D g t x EA EN EF EU G T H. unfold build_synthesized_dark. rewrite EN. unfold plane. cbn [nth_error bind].
  rewrite EU. cbn [bind]. rewrite EF, (proj2 (em_gain_iff _ _) G). cbn [bind]. rewrite T. cbn [getkey bind]. rewrite EA. cbn [bind].
  destruct (has_shape _ _ F); [|reflexivity]. destruct (has_shape _ _ D); [|reflexivity]. destruct (has_shape _ _ C); [|reflexivity]. cbn [negb].
  destruct (any2 _ D) eqn:AD; [reflexivity|]. destruct (any2 _ C) eqn:AC; [reflexivity|]. destruct (Qle_bool 1 g) eqn:LG; [|reflexivity].
  exfalso. destruct H as [H|[H|[H|[H|[H|H]]]]]; try discriminate.
  - destruct H as (r & c & v & Ev & N). apply N. apply neg_iff. exact (proj1 (any2_false _ _ _) AD r c v Ev).
  - destruct H as (r & c & v & Ev & N). apply N. apply neg_iff. exact (proj1 (any2_false _ _ _) AC r c v Ev).
  - apply Qle_bool_iff in LG. Lqa.lra.
Qed.

(** * Subtraction *)
Lemma sub_frame_dark_spec : forall nr nc d f, frame_shape nr nc f -> dark_shape nr nc d ->
  exists o, sub_frame_dark d f = Ok o /\ subtracted nr nc d f o.
Proof.
  intros nr nc d f (R1 & R2 & R3) (S1 & S2 & S3). unfold sub_frame_dark.
  destruct (zip2_spec _ _ _ fsub _ _ nr nc R1 S1) as (o1 & E1 & Q1 & N1). rewrite E1. cbn [bind].
  destruct (zip2_spec _ _ _ quad _ _ nr nc R2 S2) as (o2 & E2 & Q2 & N2). rewrite E2. cbn [bind].
  destruct (zip2_spec _ _ _ N.lor _ _ nr nc R3 S3) as (o3 & E3 & Q3 & N3). rewrite E3. cbn [bind].
  eexists. split; [reflexivity|]. split; [reflexivity|]. cbn [k_hdr k_data k_err k_dq]. split; [split; [exact Q1|split; [exact Q2|exact Q3]]|].
  intros r c Hr Hc. rewrite N1, N2, N3.
  destruct (rect_at2 _ _ _ _ r c R1 Hr Hc) as [v Ev]. destruct (rect_at2 _ _ _ _ r c S1 Hr Hc) as [w Ew].
  destruct (rect_at2 _ _ _ _ r c R2 Hr Hc) as [x Ex]. destruct (rect_at2 _ _ _ _ r c S2 Hr Hc) as [y Ey].
  rewrite Ev, Ew, Ex, Ey. cbn [lift2]. split; [|split; [|split; [|split]]].
  - intros v' w' H1 H2. injection H1 as ->. injection H2 as ->. cbn. eexists. split; [reflexivity|]. ring.
  - intros [H|H]; injection H as ->; [reflexivity|]. unfold fsub. cbn. destruct v; reflexivity.
  - intros x' y' H1 H2. injection H1 as ->. injection H2 as ->. cbn. eexists. split; [reflexivity|]. split; [apply sqrt_pos|].
    apply sqrt_sqrt. assert (A1 := Rle_0_sqr x'). assert (A2 := Rle_0_sqr y'). unfold Rsqr in A1, A2. lra.
  - intros [H|H]; injection H as ->; [reflexivity|]. destruct x; reflexivity.
  - intros x' y' H1 H2. rewrite H1, H2. cbn. eexists. split; [reflexivity|]. intros b. rewrite N.lor_spec, orb_true_iff. tauto.
Qed.
Lemma sub_frames : forall nr nc d fs, Forall (frame_shape nr nc) fs -> dark_shape nr nc d ->
  exists out, mapR (sub_frame_dark d) fs = Ok out /\ Forall2 (subtracted nr nc d) fs out.
Proof.
  intros nr nc d fs F S0. induction F as [|f l Hf F IH]; [exists []; split; [reflexivity|constructor]|].
  destruct IH as (out & E & H). destruct (sub_frame_dark_spec nr nc d f Hf S0) as (o & Eo & Ho).
  exists (o :: out). cbn. rewrite Eo. cbn. rewrite E. split; [reflexivity|constructor; assumption].
Qed.

Lemma dark_given : forall rg a im pc h d fs nr nc,
  region_of (table rg) "SCI" "image" a im -> fs <> [] -> Forall (frame_shape nr nc) fs -> dark_shape nr nc d ->
  (exists out, dark_subtraction rg (ADark pc h d) fs = Ok (out, None) /\ Forall2 (subtracted nr nc d) fs out)
    /\ analog pc /\ (exists t c k, has_key h t c k /\ Forall (fun f => has_key (k_hdr f) t c k) fs)
  \/ (exists e, dark_subtraction rg (ADark pc h d) fs = Raise e)
    /\ ~ (analog pc /\ exists t c k, has_key h t c k /\ Forall (fun f => has_key (k_hdr f) t c k) fs).
Proof.
  intros rg a im pc h d fs nr nc RI NE SH SD. unfold dark_subtraction. fold (table rg).
  assert (EA : get_area (table rg) "SCI" = Ok a) by (unfold get_area; rewrite (proj1 RI); reflexivity).
  assert (EI : unpack_geom (table rg) "SCI" "image" = Ok im).
  { unfold unpack_geom. rewrite EA. cbn [bind]. rewrite (proj2 RI). reflexivity. }
  destruct (unique_key fs) as [x|e] eqn:EU.
  2:{ right. split; [exists e; reflexivity|]. intros (_ & t & c & k & _ & F). destruct (unique_key_ok t c k fs NE F) as (y & Ey & _).
      rewrite Ey in EU. discriminate. }
  cbn [bind]. rewrite EA. cbn [bind]. rewrite EI. cbn [bind].
  destruct x as [x|].
  2:{ exfalso. unfold unique_key in EU. destruct fs as [|f l]; [contradiction|]. cbn in EU. destruct (key_of (k_hdr f)); cbn in EU; [|discriminate].
      destruct (mapR _ l); cbn in EU; [|discriminate]. destruct (forallb _ _) in EU; discriminate. }
  assert (AN : (match pc with Some s => negb (String.eqb s "analog master dark") | None => false end = false) <-> analog pc).
  { unfold analog. destruct pc as [s|]; [|tauto]. rewrite negb_false_iff, String.eqb_eq. split; [intros ->; auto|intros [H|H]; [discriminate|injection H as ->; reflexivity]]. }
  destruct (match pc with Some s => negb (String.eqb s "analog master dark") | None => false end).
  { right. split; [eexists; reflexivity|]. intros [H _]. apply AN in H. discriminate. }
  destruct (key_of h) as [kd|e] eqn:EK.
  2:{ right. split; [exists e; reflexivity|]. intros (_ & t & c & k & Hk & _). destruct (key_of_ok _ _ _ _ Hk) as (z & Ez & _). rewrite Ez in EK. discriminate. }
  cbn [bind].
  destruct (keyeq kd x) eqn:KE; cbn [negb].
  - left. destruct (sub_frames nr nc d fs SH SD) as (out & Eo & Ho). split.
    + exists out. rewrite Eo. split; [reflexivity|exact Ho].
    + split; [apply AN; reflexivity|]. exists (fst (fst x)), (snd (fst x)), (snd x). split; [|exact (unique_key_ok_inv fs x EU)].
      unfold key_of in EK. destruct (h_t h) as [t|] eqn:E1; cbn in EK; [|discriminate]. destruct (h_gc (h_cr h)) as [c|] eqn:E2; cbn in EK; [|discriminate].
      destruct (h_k h) as [k|] eqn:E3; cbn in EK; [|discriminate]. injection EK as <-. apply (proj1 (keyeq_iff _ _)) in KE. cbn in KE.
      exists t, c, k. destruct KE as (K1 & K2 & K3). repeat (split; [assumption|]). assumption.
  - right. split; [eexists; reflexivity|]. intros (_ & t & c & k & Hk & F).
    destruct (key_of_ok _ _ _ _ Hk) as (z & Ez & Kz). rewrite EK in Ez. injection Ez as <-.
    destruct (unique_key_ok t c k fs NE F) as (y & Ey & Ky). rewrite EU in Ey. injection Ey as <-.
    apply (proj1 (keyeq_iff _ _)) in Kz. apply (proj1 (keyeq_iff _ _)) in Ky.
    assert (keyeq kd x = true); [|congruence]. apply keyeq_iff. destruct Kz as (A1 & A2 & A3), Ky as (B1 & B2 & B3).
    split; [rewrite A1, B1; reflexivity|]. split; [rewrite A2, B2; reflexivity|rewrite A3, B3; reflexivity].
Qed.

Lemma dark_other : forall rg fs, exists e, dark_subtraction rg AOther fs = Raise e.
Proof.
  intros rg fs. unfold dark_subtraction. destruct (unique_key fs); cbn [bind]; [|eexists; reflexivity].
  destruct (get_area _ _); cbn [bind]; [|eexists; reflexivity]. destruct (unpack_geom _ _ _); cbn [bind]; eexists; reflexivity.
Qed.

(** With noise maps: the dark of the frames' own area is built, saved and
    subtracted. *)
Lemma dark_maps : forall rg a si nm F C D fe ce de fq cq dq f0 rest t c k g t0 nr nc,
  region_of (table rg) "SCI" "image" a si -> fits a si ->
  maps_shape (Z.to_nat (a_rows a)) (Z.to_nat (a_cols a)) nm F C D fe ce de fq cq dq ->
  Forall (fun f => has_key (k_hdr f) t c k) (f0 :: rest) -> gain_is (h_cr (k_hdr f0)) g -> h_t (k_hdr f0) = Some t0 -> (1 <= g)%Q ->
  (forall r c v, at2 D r c = Some v -> not_negative v) -> (forall r c v, at2 C r c = Some v -> not_negative v) ->
  Forall (frame_shape nr nc) (f0 :: rest) ->
  (nr = Z.to_nat (a_rows a) /\ nc = Z.to_nat (a_cols a) ->
     exists d out, build_synthesized_dark (table rg) nm true (f0 :: rest) = Ok (d, g, t0)
       /\ dark_subtraction rg (AMaps nm) (f0 :: rest) = Ok (out, Some d) /\ Forall2 (subtracted nr nc d) (f0 :: rest) out)
  /\ (nr = Z.to_nat (s_rows si) /\ nc = Z.to_nat (s_cols si) -> ~ (s_rows si = a_rows a /\ s_cols si = a_cols a) ->
     exists d out, build_synthesized_dark (table rg) nm false (f0 :: rest) = Ok (d, g, t0)
       /\ dark_subtraction rg (AMaps nm) (f0 :: rest) = Ok (out, Some d) /\ Forall2 (subtracted nr nc d) (f0 :: rest) out)
  /\ (~ (nr = Z.to_nat (a_rows a) /\ nc = Z.to_nat (a_cols a)) -> ~ (nr = Z.to_nat (s_rows si) /\ nc = Z.to_nat (s_cols si)) -> 0 < nr ->
     dark_subtraction rg (AMaps nm) (f0 :: rest) = Raise PyException).
Proof.
  intros rg a si nm F C D fe ce de fq cq dq f0 rest t c k g t0 nr nc RI FI MS KEY G T GE ND NC SH.
  destruct (synth_spec (table rg) a si RI FI F C D fe ce de fq cq dq nm t c k (f0 :: rest) f0 rest eq_refl KEY g t0 G T GE MS ND NC)
    as (d & d' & B1 & B2 & SD & _ & P1 & P2 & P3).
  assert (FI' := FI). unfold fits in FI'.
  assert (EA : get_area (table rg) "SCI" = Ok a) by (unfold get_area; rewrite (proj1 RI); reflexivity).
  assert (EI : unpack_geom (table rg) "SCI" "image" = Ok si).
  { unfold unpack_geom. rewrite EA. cbn [bind]. rewrite (proj2 RI). reflexivity. }
  destruct (unique_key_ok t c k (f0 :: rest)) as (x & EU & _); [discriminate|exact KEY|].
  assert (SF := Forall_inv SH). destruct SF as (RF & _).
  split; [|split].
  - intros [-> ->]. destruct (sub_frames _ _ d (f0 :: rest) SH SD) as (out & Eo & Ho).
    exists d, out. split; [exact B1|]. split; [|exact Ho]. unfold dark_subtraction. fold (table rg). rewrite EU. cbn [bind]. rewrite EA. cbn [bind]. rewrite EI. cbn [bind].
    rewrite (proj2 (has_shape_rect _ (a_rows a) (a_cols a) (k_data f0) ltac:(lia) ltac:(lia)) RF). cbn [bind]. rewrite B1. cbn [bind fst].
    rewrite Eo. reflexivity.
  - intros [-> ->] NE2. assert (SD' : dark_shape (Z.to_nat (s_rows si)) (Z.to_nat (s_cols si)) d') by (split; [exact (proj1 P1)|split; [exact (proj1 P2)|exact (proj1 P3)]]).
    destruct (sub_frames _ _ d' (f0 :: rest) SH SD') as (out & Eo & Ho).
    exists d', out. split; [exact B2|]. split; [|exact Ho]. unfold dark_subtraction. fold (table rg). rewrite EU. cbn [bind]. rewrite EA. cbn [bind]. rewrite EI. cbn [bind].
    destruct (has_shape (a_rows a) (a_cols a) (k_data f0)) eqn:HS.
    { exfalso. apply has_shape_rect in HS; [|lia|lia]. destruct HS as [L1 F1], RF as [L2 F2]. apply NE2.
      rewrite L1 in L2. destruct (k_data f0) as [|row l]; [cbn in L1; lia|]. inversion F1; subst. inversion F2; subst. lia. }
    rewrite (proj2 (has_shape_rect _ (s_rows si) (s_cols si) (k_data f0) ltac:(lia) ltac:(lia)) RF). cbn [bind]. rewrite B2. cbn [bind fst].
    rewrite Eo. reflexivity.
  - intros N1 N2 POS. unfold dark_subtraction. fold (table rg). rewrite EU. cbn [bind]. rewrite EA. cbn [bind]. rewrite EI. cbn [bind].
    assert (NOT : forall nr' nc', (0 <= nr')%Z -> (0 <= nc')%Z -> ~ (nr = Z.to_nat nr' /\ nc = Z.to_nat nc') -> has_shape nr' nc' (k_data f0) = false).
    { intros nr' nc' H1 H2 H3. destruct (has_shape nr' nc' (k_data f0)) eqn:HS; [|reflexivity]. exfalso. apply H3.
      apply has_shape_rect in HS; [|assumption|assumption]. destruct HS as [L1 F1], RF as [L2 F2].
      destruct (k_data f0) as [|row l]; [cbn in L2; lia|]. inversion F1; subst. inversion F2; subst. split; congruence. }
    rewrite (NOT _ _) by (try lia; exact N1). rewrite (NOT _ _) by (try lia; exact N2). reflexivity.
Qed.

Lemma unique_none : forall fs, fs <> [] -> unique_key fs <> Ok None.
Proof.
  intros fs NE EU. unfold unique_key in EU. destruct fs as [|f l]; [contradiction|]. cbn in EU. destruct (key_of (k_hdr f)); cbn in EU; [|discriminate].
  destruct (mapR _ l); cbn in EU; [|discriminate]. destruct (forallb _ _) in EU; discriminate.
Qed.
Lemma dark_mixed : forall rg arg fs, fs <> [] -> ~ (exists t c k, Forall (fun f => has_key (k_hdr f) t c k) fs) ->
  exists e, dark_subtraction rg arg fs = Raise e.
Proof.
  intros rg arg fs NE N. unfold dark_subtraction. destruct (unique_key fs) as [[x|]|e] eqn:EU; cbn [bind]; [| |eexists; reflexivity].
  - exfalso. apply N. exists (fst (fst x)), (snd (fst x)), (snd x). exact (unique_key_ok_inv fs x EU).
  - exfalso. exact (unique_none fs NE EU).
Qed.
Lemma synth_reuse : forall rg a si pc d g t kk fs f0 rest nr nc,
  region_of (table rg) "SCI" "image" a si -> fs = f0 :: rest -> Forall (frame_shape nr nc) fs -> dark_shape nr nc d ->
  (exists gc, h_gc (h_cr (k_hdr f0)) = Some gc /\ ~ (gc == g)%Q) ->
  exists e, dark_subtraction rg (ADark pc (mkdh (mkcrh None None (Some g) None) (Some t) kk) d) fs = Raise e.
Proof.
  intros rg a si pc d g t kk fs f0 rest nr nc RI EF SH SD (gc & Eg & Ng).
  destruct (dark_given rg a si pc (mkdh (mkcrh None None (Some g) None) (Some t) kk) d fs nr nc RI) as [(_ & _ & t' & c' & k' & H1 & H2)|(H & _)];
    [rewrite EF; discriminate|exact SH|exact SD| |exact H].
  exfalso. rewrite EF in H2. apply Forall_inv in H2. destruct H1 as (x1 & x2 & x3 & _ & E2 & _ & _ & Q2 & _). cbn in E2. injection E2 as <-.
  destruct H2 as (y1 & y2 & y3 & _ & F2 & _ & _ & R2 & _). rewrite Eg in F2. injection F2 as <-. apply Ng. rewrite R2, Q2. reflexivity.
Qed.
