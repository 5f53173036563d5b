From Coq Require Import List Arith Bool QArith NArith String Lia.
From Verif Require Import Base BaseProofs FloatModel NonlinModel NonlinSpec NonlinProofs CosmicModel CosmicSpec CosmicProofs DqModel DqSpec.
Import ListNotations.
Local Open Scope nat_scope.

Lemma mapR_ok {A B} (f : A -> result B) : forall l r, mapR f l = Ok r ->
  List.length r = List.length l /\ forall i x, nth_error l i = Some x -> exists y, f x = Ok y /\ nth_error r i = Some y.
Proof.
  induction l as [|a t IH]; intros r H; cbn [mapR] in H.
  - injection H as <-. split; [reflexivity|]. intros [|i] x Hx; discriminate.
  - destruct (f a) as [b|] eqn:E; cbn [bind] in H; [|discriminate]. destruct (mapR f t) as [r'|]; cbn [bind] in H; [|discriminate]. injection H as <-.
    destruct (IH r' eq_refl) as [L F]. split; [cbn; lia|]. intros [|i] x Hx; cbn [nth_error] in *; [injection Hx as <-; exists b; auto|exact (F i x Hx)].
Qed.
Lemma mapR_raise {A B} (f : A -> result B) : forall l x, mapR f l = Raise x -> exists a, In a l /\ f a = Raise x.
Proof.
  induction l as [|a t IH]; intros x H; cbn [mapR] in H; [discriminate|].
  destruct (f a) as [b|] eqn:E; cbn [bind] in H.
  - destruct (mapR f t) as [r'|]; cbn [bind] in H; [discriminate|]. injection H as <-. destruct (IH e eq_refl) as (a' & Ha & E'). exists a'. split; [right; exact Ha|exact E'].
  - injection H as <-. exists a. split; [left; reflexivity|exact E].
Qed.
Lemma mapR_total {A B} (f : A -> result B) : forall l, (forall a, In a l -> exists b, f a = Ok b) -> exists r, mapR f l = Ok r.
Proof.
  induction l as [|a t IH]; intro H; [exists []; reflexivity|]. destruct (H a (or_introl eq_refl)) as [b E].
  destruct (IH (fun x Hx => H x (or_intror Hx))) as [r R]. exists (b :: r). cbn [mapR]. rewrite E. cbn [bind]. rewrite R. reflexivity.
Qed.

Lemma zipR_spec {A B C} (f : A -> B -> C) : forall l m,
  match zipR f l m with
  | Ok r => List.length r = List.length l /\ List.length m = List.length l
            /\ forall j x y, nth_error l j = Some x -> nth_error m j = Some y -> nth_error r j = Some (f x y)
  | Raise e => e = ValueError /\ List.length m <> List.length l
  end.
Proof.
  induction l as [|x t IH]; intros [|y u]; cbn [zipR].
  - repeat split. intros [|j] a b H; discriminate.
  - split; [reflexivity|discriminate].
  - split; [reflexivity|discriminate].
  - specialize (IH u). destruct (zipR f t u) as [r|e]; cbn [bind].
    + destruct IH as (L1 & L2 & F). split; [cbn; lia|]. split; [cbn; lia|]. intros [|j] a b Ha Hb; cbn [nth_error] in *; [congruence|exact (F j a b Ha Hb)].
    + destruct IH as [-> N]. split; [reflexivity|]. cbn. lia.
Qed.

Lemma em_gain_spec h : match em_gain h with Ok g => gain_of h g | Raise x => x = KeyError /\ forall g, ~ gain_of h g end.
Proof.
  unfold em_gain, gain_of. destruct (h_gm h) as [g|]; [left; reflexivity|]. destruct (h_ga h) as [a|] eqn:Ea; cbn [getkey bind].
  - destruct (Qle_bool a 0) eqn:Q; cbn [negb].
    + apply Qle_bool_iff in Q. destruct (h_gc h) as [c|]; cbn [getkey].
      * right. split; [reflexivity|]. exists a. auto.
      * split; [reflexivity|]. intros g [H|(_ & a' & Ha & [[H _]|[_ H]])]; try discriminate. injection Ha as <-. apply (Qlt_not_le _ _ H). exact Q.
    + apply Qle_bool_false in Q. right. split; [reflexivity|]. exists a. auto.
  - split; [reflexivity|]. intros g [H|(_ & a' & Ha & _)]; discriminate.
Qed.

(** The gain is determined by the header. *)
Lemma gain_of_unique h g g' : gain_of h g -> gain_of h g' -> g = g'.
Proof.
  intros [H|(H & a & Ha & H1)] [H'|(H' & a' & Ha' & H1')]; try congruence.
  assert (a' = a) by congruence. subst a'. destruct H1 as [[H1 ->]|[H1 H2]]; destruct H1' as [[H1' ->]|[H1' H2']]; try congruence.
  - exfalso. apply (Qlt_not_le _ _ H1). exact H1'.
  - exfalso. apply (Qlt_not_le _ _ H1'). exact H1.
Qed.

Lemma em_gain_noise_spec h :
  (forall g, gain_of h g -> em_gain_noise h = g)
  /\ (h_gm h = None -> h_ga h = None -> em_gain_noise h = match h_gc h with Some c => c | None => 0%Q end)
  /\ (forall a, h_gm h = None -> h_ga h = Some a -> (a <= 0)%Q -> h_gc h = None -> em_gain_noise h = 0%Q).
Proof.
  unfold em_gain_noise, gain_of. split; [|split].
  - intros g [H|(H & a & Ha & [[Q ->]|[Q Hc]])].
    + rewrite H. reflexivity.
    + rewrite H, Ha, (Qlt_Qle_bool_false _ _ Q). reflexivity.
    + rewrite H, Ha, (proj2 (Qle_bool_iff a 0) Q), Hc. reflexivity.
  - intros H H'. rewrite H, H'. reflexivity.
  - intros a H Ha Q Hc. rewrite H, Ha, (proj2 (Qle_bool_iff a 0) Q), Hc. reflexivity.
Qed.

Lemma fgt_exceeds v t : fgt v t = true <-> exceeds v t.
Proof.
  unfold fgt, flt, exceeds. destruct v as [a|s|], t as [b|s'|]; cbn; try (split; [discriminate|tauto]).
  - rewrite negb_true_iff. split; [apply Qle_bool_false|apply Qlt_Qle_bool_false].
  - destruct s'; cbn; split; congruence.
  - destruct s; cbn; split; congruence.
  - destruct s, s'; cbn; split; try discriminate; try (intros [? ?]; congruence); auto.
Qed.
Lemma fge_at_least v t : fge v (Fin t) = true <-> at_least v t.
Proof.
  unfold fge, at_least. destruct v as [a|s|]; cbn; [apply Qle_bool_iff|destruct s; cbn; split; congruence|split; [discriminate|tauto]].
Qed.
Lemma feq_zero v : feq v (Fin 0) = true <-> zero v.
Proof.
  unfold feq, zero. destruct v as [a|s|]; cbn.
  - rewrite andb_true_iff, !Qle_bool_iff. split; [intros [H1 H2]; apply Qle_antisym; assumption|intro H; rewrite H; split; apply Qle_refl].
  - destruct s; split; try discriminate; tauto.
  - split; [discriminate|tauto].
Qed.

Lemma testbit_pow2 k b : N.testbit (2 ^ k) b = true <-> b = k.
Proof. rewrite N.pow2_bits_eqb, N.eqb_eq. split; congruence. Qed.

(** Building [adds_exactly] from a pixelwise description. *)
Lemma adds_from (new : nat -> N -> Prop) f f' :
  List.length (f_px f') = List.length (f_px f) -> f_hdr f' = f_hdr f ->
  (forall j p p' b, nth_error (f_px f) j = Some p -> nth_error (f_px f') j = Some p' -> (N.testbit (snd p') b = true <-> N.testbit (snd p) b = true \/ new j b)) ->
  adds_exactly new f f'.
Proof.
  intros L H P. split; [exact L|]. split; [exact H|]. intros j b. unfold bit_set. split.
  - intros (p' & Hp' & B). assert (j < List.length (f_px f)) by (rewrite <- L; apply nth_error_Some; congruence).
    destruct (nth_get (f_px f) j) as [p Hp]; [lia|]. apply (P j p p' b Hp Hp') in B. destruct B as [B|B]; [left; exists p; auto|right; auto].
  - intros [(p & Hp & B)|(Hj & B)].
    + assert (j < List.length (f_px f)) by (apply nth_error_Some; congruence). destruct (nth_get (f_px f') j) as [p' Hp']; [lia|].
      exists p'. split; [exact Hp'|]. apply (P j p p' b Hp Hp'). auto.
    + destruct (nth_get (f_px f) j) as [p Hp]; [lia|]. destruct (nth_get (f_px f') j) as [p' Hp']; [lia|].
      exists p'. split; [exact Hp'|]. apply (P j p p' b Hp Hp'). auto.
Qed.

Lemma pixel_of f j p : nth_error (f_px f) j = Some p -> pixel f j (fst p).
Proof. intro H. exists (snd p). rewrite H. destruct p; reflexivity. Qed.
Lemma pixel_iff f j p v : nth_error (f_px f) j = Some p -> (pixel f j v <-> v = fst p).
Proof. intro H. split; [intros (q & Hq); rewrite H in Hq; injection Hq as ->; reflexivity|intros ->; apply pixel_of; exact H]. Qed.

(** ** correct_nonlinearity *)
Lemma nonlin_frame_spec cal thr f f' : (forall c, cal = Some c -> well_shaped c) -> nonlin_frame cal thr f = Ok f' ->
  adds_exactly (fun j b => b = 6%N /\ exists v, pixel f j v /\ exceeds v thr) f f'
  /\ f_err f' = f_err f
  /\ exists g, gain_of (f_hdr f) g
     /\ forall j v, pixel f j v -> exists w, pixel f' j (fmul v w) /\ match cal with None => w = Fin 1 | Some c => pixel_gain c g v w end.
Proof.
  intros W H. unfold nonlin_frame in H. pose proof (em_gain_spec (f_hdr f)) as EG. destruct (em_gain (f_hdr f)) as [g|]; cbn [bind] in H; [|discriminate].
  set (fg := map (fun p : fl * N => (fst p, if fgt (fst p) thr then N.lor (snd p) 64%N else snd p)) (f_px f)) in H.
  destruct (get_relgains cal g (map fst fg)) as [rel|] eqn:ER; cbn [bind] in H; [|discriminate].
  pose proof (zipR_spec (fun (p : fl * N) r => (fmul (fst p) r, snd p)) fg rel) as Z.
  destruct (zipR _ fg rel) as [new|]; cbn [bind] in H; [|discriminate]. injection H as <-. destruct Z as (L1 & L2 & F).
  assert (Lfg : List.length fg = List.length (f_px f)) by apply map_length.
  assert (Hfg : forall j p, nth_error (f_px f) j = Some p -> nth_error fg j = Some (fst p, if fgt (fst p) thr then N.lor (snd p) 64%N else snd p)).
  { intros j p Hp. unfold fg. rewrite nth_error_map, Hp. reflexivity. }
  assert (New : forall j p, nth_error (f_px f) j = Some p -> exists w, nth_error rel j = Some w /\ nth_error new j = Some (fmul (fst p) w, if fgt (fst p) thr then N.lor (snd p) 64%N else snd p)).
  { intros j p Hp. assert (j < List.length (f_px f)) by (apply nth_error_Some; congruence). destruct (nth_get rel j) as [w Hw]; [lia|].
    exists w. split; [exact Hw|]. rewrite (F j _ w (Hfg j p Hp) Hw). reflexivity. }
  split; [|split; [reflexivity|]].
  - apply adds_from; [cbn [set_px f_px]; lia|reflexivity|]. intros j p p' b Hp Hp'. cbn [set_px f_px] in Hp'.
    destruct (New j p Hp) as (w & _ & Hn). rewrite Hn in Hp'. injection Hp' as <-. cbn [snd].
    assert (E : (exists v, pixel f j v /\ exceeds v thr) <-> fgt (fst p) thr = true).
    { rewrite fgt_exceeds. split; [intros (v & Hv & Q); apply (pixel_iff f j p v Hp) in Hv; subst v; exact Q|intro Q; exists (fst p); split; [apply pixel_of; exact Hp|exact Q]]. }
    rewrite E. destruct (fgt (fst p) thr).
    + rewrite N.lor_spec, orb_true_iff. change 64%N with (2 ^ 6)%N. rewrite testbit_pow2. intuition.
    + intuition discriminate.
  - exists g. split; [exact EG|]. intros j v Hv. destruct Hv as [q Hq]. destruct (New j (v, q) Hq) as (w & Hw & Hn). cbn [fst snd] in Hn.
    exists w. split; [eexists; exact Hn|].
    destruct cal as [c|].
    + pose proof (get_relgains_spec c g (map fst fg) (W c eq_refl)) as R. rewrite ER in R. destruct R as (_ & _ & R).
      apply (R j v w); [|exact Hw]. rewrite nth_error_map, (Hfg j (v, q) Hq). reflexivity.
    + cbn [get_relgains] in ER. injection ER as <-. rewrite nth_error_map in Hw. destruct (nth_error (map fst fg) j); [|discriminate]. cbn in Hw. congruence.
Qed.

Lemma nonlin_spec cal thr fs fs' : (forall c, cal = Some c -> well_shaped c) -> correct_nonlinearity cal thr fs = Ok fs' ->
  each (fun f f' =>
    adds_exactly (fun j b => b = 6%N /\ exists v, pixel f j v /\ exceeds v thr) f f'
    /\ f_err f' = f_err f
    /\ exists g, gain_of (f_hdr f) g
       /\ forall j v, pixel f j v -> exists w, pixel f' j (fmul v w) /\ match cal with None => w = Fin 1 | Some c => pixel_gain c g v w end) fs fs'.
Proof.
  intros W H. unfold correct_nonlinearity in H. destruct fs as [|f0 t]; [discriminate|]. destruct (h_gc (f_hdr f0)); [|discriminate].
  destruct (mapR_ok _ _ _ H) as [L F]. split; [exact L|]. intros i f f' Hf Hf'. destruct (F i f Hf) as (y & E & E'). assert (y = f') by congruence. subst y.
  apply nonlin_frame_spec; assumption.
Qed.

(** When it fails. *)
Lemma nonlin_raises cal thr fs x : (forall c, cal = Some c -> well_shaped c) -> correct_nonlinearity cal thr fs = Raise x ->
  fs = [] \/ (exists f0 t, fs = f0 :: t /\ h_gc (f_hdr f0) = None)
  \/ (exists f, In f fs /\ forall g, ~ gain_of (f_hdr f) g) \/ (exists c, cal = Some c /\ ~ usable c).
Proof.
  intros W H. unfold correct_nonlinearity in H. destruct fs as [|f0 t]; [auto|]. destruct (h_gc (f_hdr f0)) eqn:E0.
  2:{ right. left. exists f0, t. auto. }
  right. right. destruct (mapR_raise _ _ _ H) as (f & Hf & E). unfold nonlin_frame in E.
  pose proof (em_gain_spec (f_hdr f)) as EG. destruct (em_gain (f_hdr f)) as [g|]; cbn [bind] in E.
  - right. set (fg := map (fun p : fl * N => (fst p, if fgt (fst p) thr then N.lor (snd p) 64%N else snd p)) (f_px f)) in E. destruct cal as [c|].
    + exists c. split; [reflexivity|]. pose proof (get_relgains_spec c g (map fst fg) (W c eq_refl)) as R.
      destruct (get_relgains (Some c) g (map fst fg)) as [rel|]; [|exact R]. destruct R as (_ & R & _). cbn [bind] in E.
      pose proof (zipR_spec (fun (p : fl * N) r => (fmul (fst p) r, snd p)) fg rel) as Z. destruct (zipR _ fg rel); cbn [bind] in E; [discriminate|].
      destruct Z as [_ Z]. rewrite map_length in R. congruence.
    + cbn [get_relgains bind] in E. pose proof (zipR_spec (fun (p : fl * N) r => (fmul (fst p) r, snd p)) fg (map (fun _ => Fin 1) (map fst fg))) as Z.
      destruct (zipR _ fg _); cbn [bind] in E; [discriminate|]. destruct Z as [_ Z]. rewrite !map_length in Z. congruence.
  - left. exists f. split; [exact Hf|apply EG].
Qed.

(** ** em_gain_division *)
Lemma gain_division_spec fs fs' : em_gain_division fs = Ok fs' ->
  each (fun f f' => f_hdr f' = f_hdr f /\ h_gc (f_hdr f) <> None /\ exists g, gain_of (f_hdr f) g
     /\ f_px f' = map (fun p => (fdiv (fst p) (Fin g), snd p)) (f_px f)
     /\ f_err f' = map (map (fun e => fdiv e (Fin g))) (f_err f)) fs fs'.
Proof.
  intro H. unfold em_gain_division in H. destruct (mapR gain_frame fs) as [r|] eqn:E; cbn [bind] in H; [|discriminate].
  destruct (mapR (fun f => getkey (h_gc (f_hdr f))) fs) as [u|] eqn:E2; cbn [bind] in H; [|discriminate]. injection H as <-.
  destruct (mapR_ok _ _ _ E) as [L F]. destruct (mapR_ok _ _ _ E2) as [_ F2]. split; [exact L|].
  intros i f f' Hf Hf'. destruct (F i f Hf) as (y & G & G'). assert (y = f') by congruence. subst y.
  unfold gain_frame in G. pose proof (em_gain_spec (f_hdr f)) as EG. destruct (em_gain (f_hdr f)) as [g|]; cbn [bind] in G; [|discriminate]. injection G as <-.
  split; [reflexivity|]. split; [|exists g; auto]. destruct (F2 i f Hf) as (c & Hc & _). destruct (h_gc (f_hdr f)); discriminate.
Qed.

(** It fails exactly when a gain or a commanded gain is missing. *)
Lemma gain_division_total fs : (exists fs', em_gain_division fs = Ok fs') <->
  forall f, In f fs -> (exists g, gain_of (f_hdr f) g) /\ h_gc (f_hdr f) <> None.
Proof.
  split.
  - intros [fs' H] f Hf. apply gain_division_spec in H. destruct H as [L F]. apply In_nth_error in Hf. destruct Hf as [i Hi].
    assert (i < List.length fs) by (apply nth_error_Some; congruence). destruct (nth_get fs' i) as [f' Hf']; [lia|].
    destruct (F i f f' Hi Hf') as (_ & A & g & G & _). split; [exists g; exact G|exact A].
  - intro H. unfold em_gain_division. destruct (mapR_total gain_frame fs) as [r R].
    { intros f Hf. unfold gain_frame. pose proof (em_gain_spec (f_hdr f)) as EG. destruct (em_gain (f_hdr f)); [eexists; reflexivity|].
      destruct (H f Hf) as [[g G] _]. exfalso. exact (proj2 EG g G). }
    rewrite R. cbn [bind]. destruct (mapR_total (fun f => getkey (h_gc (f_hdr f))) fs) as [u U].
    { intros f Hf. destruct (H f Hf) as [_ N]. destruct (h_gc (f_hdr f)) as [c|]; [exists c; reflexivity|congruence]. }
    rewrite U. exists r. reflexivity.
Qed.

(** ** Pixelwise steps *)
Lemma zip_frame {B} (F : px -> B -> px) (new : px -> B -> N -> Prop) m f f' :
  (forall p y b, N.testbit (snd (F p y)) b = true <-> N.testbit (snd p) b = true \/ new p y b) ->
  (do n <- zipR F (f_px f) m; Ok (set_px f n)) = Ok f' ->
  List.length m = List.length (f_px f)
  /\ adds_exactly (fun j b => exists p y, nth_error (f_px f) j = Some p /\ nth_error m j = Some y /\ new p y b) f f'
  /\ f_err f' = f_err f
  /\ forall j p y, nth_error (f_px f) j = Some p -> nth_error m j = Some y -> nth_error (f_px f') j = Some (F p y).
Proof.
  intros HB H. pose proof (zipR_spec F (f_px f) m) as Z. destruct (zipR F (f_px f) m) as [n|]; cbn [bind] in H; [|discriminate]. injection H as <-.
  destruct Z as (L1 & L2 & G). split; [exact L2|]. split; [|split; [reflexivity|exact G]].
  apply adds_from; [exact L1|reflexivity|]. intros j p p' b Hp Hp'. cbn [set_px f_px] in Hp'.
  assert (j < List.length (f_px f)) by (apply nth_error_Some; congruence). destruct (nth_get m j) as [y Hy]; [lia|].
  rewrite (G j p y Hp Hy) in Hp'. injection Hp' as <-. rewrite HB. split.
  - intros [A|A]; [auto|]. right. exists p, y. auto.
  - intros [A|(p' & y' & E1 & E2 & A)]; [auto|]. right. assert (p' = p) by congruence. assert (y' = y) by congruence. subst. exact A.
Qed.

Lemma cosmic_bits sat p m b : N.testbit (snd (cosmic_px sat p m)) b = true <->
  N.testbit (snd p) b = true \/ ((b = 5%N /\ at_least (fst p) sat) \/ (b = 7%N /\ m = true)).
Proof.
  unfold cosmic_px. cbn [snd]. rewrite !N.lor_spec, !orb_true_iff. rewrite <- fge_at_least.
  assert (T5 : N.testbit 32 b = true <-> b = 5%N) by (change 32%N with (2 ^ 5)%N; apply testbit_pow2).
  assert (T7 : N.testbit 128 b = true <-> b = 7%N) by (change 128%N with (2 ^ 7)%N; apply testbit_pow2).
  destruct (fge (fst p) (Fin sat)), m; rewrite ?T5, ?T7, ?N.bits_0; intuition congruence.
Qed.

Lemma flag_frames_spec : forall fs sms fs', flag_frames fs sms = Ok fs' ->
  List.length sms = List.length fs /\
  each (fun f f' => f_err f' = f_err f /\ List.length (f_px f') = List.length (f_px f) /\ forall j v, pixel f j v -> pixel f' j v) fs fs'
  /\ forall i f f' sm, nth_error fs i = Some f -> nth_error fs' i = Some f' -> nth_error sms i = Some sm ->
     adds_exactly (fun j b => (b = 5%N /\ exists v, pixel f j v /\ at_least v (fst sm)) \/ (b = 7%N /\ nth_error (snd sm) j = Some true)) f f'.
Proof.
  induction fs as [|f t IH]; intros [|s u] fs' H; cbn [flag_frames] in H; try discriminate.
  - injection H as <-. split; [reflexivity|]. split; [split; [reflexivity|intros [|i] f f' Hf; discriminate]|intros [|i] f f' sm Hf; discriminate].
  - destruct (flag_frame f s) as [x|] eqn:E; cbn [bind] in H; [|discriminate]. destruct (flag_frames t u) as [r|] eqn:E2; cbn [bind] in H; [|discriminate]. injection H as <-.
    destruct (IH u r E2) as (L & [L' P] & Q). unfold flag_frame in E.
    destruct (zip_frame (cosmic_px (fst s)) (fun p m b => (b = 5%N /\ at_least (fst p) (fst s)) \/ (b = 7%N /\ m = true)) (snd s) f x (cosmic_bits (fst s)) E) as (LM & AE & EE & PP).
    split; [cbn; lia|]. split; [split; [cbn; lia|]|].
    + intros [|i] g g' Hg Hg'; cbn [nth_error] in *; [|exact (P i g g' Hg Hg')]. injection Hg as <-. injection Hg' as <-.
      split; [exact EE|]. split; [apply AE|]. intros j v [q Hq]. assert (j < List.length (f_px f)) by (apply nth_error_Some; congruence). destruct (nth_get (snd s) j) as [m Hm]; [lia|].
      eexists. rewrite (PP j _ m Hq Hm). reflexivity.
    + intros [|i] g g' sm Hg Hg' Hs; cbn [nth_error] in *; [|exact (Q i g g' sm Hg Hg' Hs)]. injection Hg as <-. injection Hg' as <-. injection Hs as <-.
      destruct AE as (A1 & A2 & A3). split; [exact A1|]. split; [exact A2|]. intros j b. rewrite A3. split.
      * intros [A|(Hj & p & m & Hp & Hm & [[-> B]|[-> ->]])]; [auto| |].
        -- right. split; [exact Hj|]. left. split; [reflexivity|]. exists (fst p). split; [apply pixel_of; exact Hp|exact B].
        -- right. split; [exact Hj|]. right. auto.
      * intros [A|(Hj & [[-> (v & [q Hq] & B)]|[-> Hm]])]; [auto| |].
        -- right. split; [exact Hj|]. destruct (nth_get (snd s) j) as [m Hm]; [lia|]. exists (v, q), m. auto.
        -- right. split; [exact Hj|]. destruct (nth_get (f_px f) j) as [p Hp]; [lia|]. exists p, true. auto.
Qed.

Lemma dark_spec d fs fs' : mapR (subtract_dark d) fs = Ok fs' ->
  each (fun f f' => List.length d = List.length (f_px f)
    /\ adds_exactly (fun j b => exists y, nth_error d j = Some y /\ N.testbit (snd y) b = true) f f'
    /\ forall j v y, pixel f j v -> nth_error d j = Some y -> pixel f' j (fsub v (fst y))) fs fs'.
Proof.
  intro H. destruct (mapR_ok _ _ _ H) as [L F]. split; [exact L|]. intros i f f' Hf Hf'. destruct (F i f Hf) as (y & E & E'). assert (y = f') by congruence. subst y.
  unfold subtract_dark in E. set (G := fun (p d : px) => (fsub (fst p) (fst d), N.lor (snd p) (snd d))) in E.
  destruct (zip_frame G (fun _ y b => N.testbit (snd y) b = true) d f f') as (LM & (A1 & A2 & A3) & EE & PP); [|exact E|].
  { intros p y b. unfold G. cbn [snd]. rewrite N.lor_spec, orb_true_iff. reflexivity. }
  split; [exact LM|]. split.
  - split; [exact A1|]. split; [exact A2|]. intros j b. rewrite A3. split.
    + intros [A|(Hj & p & y & _ & Hy & B)]; [auto|]. right. split; [exact Hj|]. exists y. auto.
    + intros [A|(Hj & y & Hy & B)]; [auto|]. right. split; [exact Hj|]. destruct (nth_get (f_px f) j) as [p Hp]; [lia|]. exists p, y. auto.
  - intros j v y [q Hq] Hy. eexists. rewrite (PP j _ y Hq Hy). reflexivity.
Qed.

Lemma flat_spec q fs fs' : mapR (divide_flat q) fs = Ok fs' ->
  each (fun f f' => List.length q = List.length (f_px f)
    /\ adds_exactly (fun j b => b = 2%N /\ exists y, nth_error q j = Some y /\ zero y) f f'
    /\ forall j v y, pixel f j v -> nth_error q j = Some y -> pixel f' j (fdiv v y)) fs fs'.
Proof.
  intro H. destruct (mapR_ok _ _ _ H) as [L F]. split; [exact L|]. intros i f f' Hf Hf'. destruct (F i f Hf) as (y & E & E'). assert (y = f') by congruence. subst y.
  unfold divide_flat in E. set (G := fun (p : px) q0 => (fdiv (fst p) q0, if feq q0 (Fin 0) then N.lor (snd p) 4 else snd p)) in E.
  destruct (zip_frame G (fun _ y b => b = 2%N /\ zero y) q f f') as (LM & (A1 & A2 & A3) & EE & PP); [|exact E|].
  { intros p y b. unfold G. cbn [snd]. rewrite <- feq_zero. destruct (feq y (Fin 0)).
    - rewrite N.lor_spec, orb_true_iff. change 4%N with (2 ^ 2)%N. rewrite testbit_pow2. intuition.
    - intuition discriminate. }
  split; [exact LM|]. split.
  - split; [exact A1|]. split; [exact A2|]. intros j b. rewrite A3. split.
    + intros [A|(Hj & p & y & _ & Hy & B & C)]; [auto|]. right. split; [exact Hj|]. split; [exact B|]. exists y. auto.
    + intros [A|(Hj & B & y & Hy & C)]; [auto|]. right. split; [exact Hj|]. destruct (nth_get (f_px f) j) as [p Hp]; [lia|]. exists p, y. auto.
  - intros j v y [w Hw] Hy. eexists. rewrite (PP j _ y Hw Hy). reflexivity.
Qed.

(** ** correct_bad_pixels *)
Lemma mod256_bit a b : N.testbit (a mod 256) b = (N.testbit a b && (b <? 8)%N)%bool.
Proof.
  change 256%N with (2 ^ 8)%N. destruct (N.ltb_spec b 8) as [H|H].
  - rewrite N.mod_pow2_bits_low by exact H. rewrite andb_true_r. reflexivity.
  - rewrite N.mod_pow2_bits_high by exact H. rewrite andb_false_r. reflexivity.
Qed.

Lemma bad_zero q b : N.lor (q mod 256) (b mod 256) = 0%N <-> ~ low_bits q b.
Proof.
  split.
  - intros E (k & Hk & H). assert (B : N.testbit (N.lor (q mod 256) (b mod 256)) k = false) by (rewrite E; apply N.bits_0).
    rewrite N.lor_spec, !mod256_bit, (proj2 (N.ltb_lt k 8) Hk), !andb_true_r in B. apply orb_false_iff in B. destruct B. destruct H; congruence.
  - intro H. apply N.bits_inj. intro k. rewrite N.lor_spec, !mod256_bit, N.bits_0. destruct (N.ltb_spec k 8) as [L|L]; [|rewrite !andb_false_r; reflexivity].
    rewrite !andb_true_r. destruct (N.testbit q k) eqn:E1; [exfalso; apply H; exists k; auto|]. destruct (N.testbit b k) eqn:E2; [exfalso; apply H; exists k; auto|]. reflexivity.
Qed.

Lemma bad_px_spec v q b :
  (low_bits q b -> exists q', bad_px (v, q) b = (NaN, q') /\ forall k, N.testbit q' k = true <-> k = 1%N \/ ((k < 8)%N /\ (N.testbit q k = true \/ N.testbit b k = true)))
  /\ (~ low_bits q b -> bad_px (v, q) b = (v, 0%N)).
Proof.
  unfold bad_px. cbn [fst snd]. pose proof (bad_zero q b) as Z. destruct (N.eqb_spec (N.lor (q mod 256) (b mod 256)) 0) as [E|E].
  - split; [intro H; exfalso; apply (proj1 Z E); exact H|]. intros _. rewrite E. reflexivity.
  - split; [|intro H; exfalso; apply E; apply Z; exact H]. intros _. eexists. split; [reflexivity|]. intro k.
    rewrite !N.lor_spec, !mod256_bit, !orb_true_iff, !andb_true_iff, N.ltb_lt. change 2%N with (2 ^ 1)%N. rewrite testbit_pow2. tauto.
Qed.

Lemma bad_frames_spec bp fs fs' : correct_bad_pixels bp fs = Ok fs' ->
  each (fun f f' => List.length bp = List.length (f_px f) /\ List.length (f_px f') = List.length (f_px f) /\ f_hdr f' = f_hdr f /\ f_err f' = f_err f
    /\ forall j v q b, nth_error (f_px f) j = Some (v, q) -> nth_error bp j = Some b ->
       (low_bits q b -> exists q', nth_error (f_px f') j = Some (NaN, q') /\ forall k, N.testbit q' k = true <-> k = 1%N \/ ((k < 8)%N /\ (N.testbit q k = true \/ N.testbit b k = true)))
       /\ (~ low_bits q b -> nth_error (f_px f') j = Some (v, 0%N))) fs fs'.
Proof.
  intro H. destruct (mapR_ok _ _ _ H) as [L F]. split; [exact L|]. intros i f f' Hf Hf'. destruct (F i f Hf) as (y & E & E'). assert (y = f') by congruence. subst y.
  unfold bad_frame in E. pose proof (zipR_spec bad_px (f_px f) bp) as Z. destruct (zipR bad_px (f_px f) bp) as [n|]; cbn [bind] in E; [|discriminate]. injection E as <-.
  destruct Z as (L1 & L2 & G). split; [exact L2|]. split; [exact L1|]. split; [reflexivity|]. split; [reflexivity|].
  intros j v q b Hj Hb. cbn [set_px f_px]. rewrite (G j _ b Hj Hb). destruct (bad_px_spec v q b) as [P1 P2]. split.
  - intro C. destruct (P1 C) as (q' & E & Q). exists q'. split; [rewrite E; reflexivity|exact Q].
  - intro C. rewrite (P2 C). reflexivity.
Qed.

Lemma bad_px_idem p b : bad_px (bad_px p b) b = bad_px p b.
Proof.
  unfold bad_px at 2 3. destruct (N.eqb_spec (N.lor (snd p mod 256) (b mod 256)) 0) as [E|E].
  - unfold bad_px. cbn [fst snd]. rewrite E. rewrite N.mod_0_l by discriminate.
    assert (B : (b mod 256)%N = 0%N) by (apply N.lor_eq_0_iff in E; apply E). rewrite B. reflexivity.
  - unfold bad_px. cbn [fst snd]. set (m := N.lor (snd p mod 256) (b mod 256)) in *.
    assert (M : N.lor (N.lor m 2 mod 256) (b mod 256) = N.lor m 2).
    { apply N.bits_inj. intro k. unfold m. rewrite !N.lor_spec, !mod256_bit, !N.lor_spec, !mod256_bit. change 2%N with (2 ^ 1)%N.
      destruct (N.ltb_spec k 8) as [Lk|Lk].
      - rewrite !andb_true_r. destruct (N.testbit (snd p) k), (N.testbit b k), (N.testbit (2 ^ 1) k); reflexivity.
      - rewrite !andb_false_r. cbn [orb]. rewrite N.pow2_bits_eqb. destruct (N.eqb_spec 1 k); [lia|reflexivity]. }
    rewrite M. destruct (N.eqb_spec (N.lor m 2) 0) as [Z|Z]; [apply N.lor_eq_0_iff in Z; destruct Z; discriminate|].
    f_equal. rewrite <- N.lor_assoc. reflexivity.
Qed.

Lemma bad_idempotent bp fs fs' : correct_bad_pixels bp fs = Ok fs' -> correct_bad_pixels bp fs' = Ok fs'.
Proof.
  unfold correct_bad_pixels. revert fs'. induction fs as [|f t IH]; intros fs' H; cbn [mapR] in H; [injection H as <-; reflexivity|].
  destruct (bad_frame bp f) as [g|] eqn:E; cbn [bind] in H; [|discriminate]. destruct (mapR (bad_frame bp) t) as [r|] eqn:E2; cbn [bind] in H; [|discriminate]. injection H as <-.
  cbn [mapR]. rewrite (IH r eq_refl). cbn [bind].
  assert (G : bad_frame bp g = Ok g); [|rewrite G; reflexivity].
  unfold bad_frame in E. destruct (zipR bad_px (f_px f) bp) as [n|] eqn:Z; cbn [bind] in E; [|discriminate]. injection E as <-.
  unfold bad_frame. cbn [set_px f_px].
  assert (Z2 : forall l m n, zipR bad_px l m = Ok n -> zipR bad_px n m = Ok n).
  { clear. induction l as [|x l IH]; intros [|y m] n Z; cbn [zipR] in Z; try discriminate; [injection Z as <-; reflexivity|].
    destruct (zipR bad_px l m) as [r|] eqn:E; cbn [bind] in Z; [|discriminate]. injection Z as <-. cbn [zipR]. rewrite (IH m r E). cbn [bind]. rewrite bad_px_idem. reflexivity. }
  rewrite (Z2 _ _ _ Z). cbn [bind]. reflexivity.
Qed.

(** ** nan_flags and flag_nans *)
Lemma nan_flags_spec thr f j v q : nth_error (f_px f) j = Some (v, q) ->
  ((thr <= q)%N -> nth_error (f_px (nan_flags_frame thr f)) j = Some (NaN, q))
  /\ ((q < thr)%N -> nth_error (f_px (nan_flags_frame thr f)) j = Some (v, q)).
Proof.
  intro H. unfold nan_flags_frame. cbn [set_px f_px]. rewrite nth_error_map, H. cbn [option_map fst snd].
  destruct (N.leb_spec thr q); split; intro Q; try reflexivity; lia.
Qed.
Lemma flag_nans_spec w f j v q : nth_error (f_px f) j = Some (v, q) ->
  (v = NaN -> nth_error (f_px (flag_nans_frame w f)) j = Some (NaN, w))
  /\ (v <> NaN -> nth_error (f_px (flag_nans_frame w f)) j = Some (v, q)).
Proof.
  intro H. unfold flag_nans_frame. cbn [set_px f_px]. rewrite nth_error_map, H. cbn [option_map fst snd].
  destruct v; cbn [is_nan]; split; intro Q; try reflexivity; congruence.
Qed.

(** ** Sequences of steps *)
Lemma keeps_adds (P : N -> Prop) (new : frame -> nat -> N -> Prop) fs fs' : each (fun f f' => adds_exactly (new f) f f') fs fs' -> keeps P fs fs'.
Proof.
  intros [L F]. split; [exact L|]. intros i f f' Hf Hf'. destruct (F i f f' Hf Hf') as (A & B & C). split; [exact A|]. split; [exact B|].
  intros j b _ H. apply C. left. exact H.
Qed.

Lemma keeps_trans P a b c : keeps P a b -> keeps P b c -> keeps P a c.
Proof.
  intros [L F] [L' F']. split; [congruence|]. intros i f f' Hf Hf'. assert (i < List.length a) by (apply nth_error_Some; congruence).
  destruct (nth_get b i) as [g Hg]; [lia|]. destruct (F i f g Hf Hg) as (A & B & C). destruct (F' i g f' Hg Hf') as (A' & B' & C').
  split; [congruence|]. split; [congruence|]. intros j k Hk H1. apply C'; [exact Hk|]. apply C; assumption.
Qed.

Lemma run_step_keeps s fs fs' : (forall cal thr c, s = SNonlin cal thr -> cal = Some c -> well_shaped c) ->
  run_step s fs = Ok fs' -> keeps (fun b => (b < 8)%N \/ forall bp, s <> SBad bp) fs fs'.
Proof.
  intros W H. destruct s as [sms|cal thr| |d|q|thr|bp]; cbn [run_step] in H.
  - destruct (flag_frames_spec _ _ _ H) as (L & [L' _] & Q). split; [exact L'|]. intros i f f' Hf Hf'.
    assert (i < List.length fs) by (apply nth_error_Some; congruence). destruct (nth_get sms i) as [sm Hs]; [lia|].
    destruct (Q i f f' sm Hf Hf' Hs) as (A & B & C). split; [exact A|]. split; [exact B|]. intros j b _ Hb. apply C. left. exact Hb.
  - destruct (nonlin_spec cal thr fs fs' (fun c E => W cal thr c eq_refl E) H) as [L F].
    apply (keeps_adds _ (fun f j b => b = 6%N /\ exists v, pixel f j v /\ exceeds v thr)). split; [exact L|]. intros i f f' Hf Hf'. apply (F i f f' Hf Hf').
  - destruct (gain_division_spec _ _ H) as [L F]. split; [exact L|]. intros i f f' Hf Hf'. destruct (F i f f' Hf Hf') as (A & _ & g & _ & B & _).
    split; [rewrite B, map_length; reflexivity|]. split; [exact A|]. intros j b _ (p & Hp & Q). eexists. split; [rewrite B, nth_error_map, Hp; reflexivity|exact Q].
  - destruct (dark_spec _ _ _ H) as [L F]. apply (keeps_adds _ (fun _ j b => exists y, nth_error d j = Some y /\ N.testbit (snd y) b = true)).
    split; [exact L|]. intros i f f' Hf Hf'. apply (F i f f' Hf Hf').
  - destruct (flat_spec _ _ _ H) as [L F]. apply (keeps_adds _ (fun _ j b => b = 2%N /\ exists y, nth_error q j = Some y /\ zero y)).
    split; [exact L|]. intros i f f' Hf Hf'. apply (F i f f' Hf Hf').
  - injection H as <-. split; [apply map_length|]. intros i f f' Hf Hf'. rewrite nth_error_map, Hf in Hf'. injection Hf' as <-.
    split; [apply map_length|]. split; [reflexivity|]. intros j b _ ([v k] & Hp & Q). destruct (nan_flags_spec thr f j v k Hp) as [P1 P2].
    destruct (N.le_gt_cases thr k) as [C|C]; [exists (NaN, k); split; [exact (P1 C)|exact Q]|exists (v, k); split; [exact (P2 C)|exact Q]].
  - destruct (bad_frames_spec _ _ _ H) as [L F]. split; [exact L|]. intros i f f' Hf Hf'. destruct (F i f f' Hf Hf') as (LB & A & B & _ & C).
    split; [exact A|]. split; [exact B|]. intros j b Hb ([v k] & Hp & Q). cbn [snd] in Q.
    assert (Lb : (b < 8)%N) by (destruct Hb as [Hb|Hb]; [exact Hb|exfalso; apply (Hb bp); reflexivity]).
    assert (j < List.length (f_px f)) by (apply nth_error_Some; congruence). destruct (nth_get bp j) as [m Hm]; [lia|].
    destruct (C j v k m Hp Hm) as [C1 _]. destruct C1 as (q' & E & T); [exists b; auto|]. exists (NaN, q'). split; [exact E|]. apply T. right. auto.
Qed.

Lemma run_steps_keeps : forall l fs fs', (forall cal thr c, In (SNonlin cal thr) l -> cal = Some c -> well_shaped c) ->
  run_steps l fs = Ok fs' -> keeps (fun b => (b < 8)%N \/ ~ has_bad l) fs fs'.
Proof.
  induction l as [|s t IH]; intros fs fs' W H; cbn [run_steps] in H.
  - injection H as <-. split; [reflexivity|]. intros i f f' Hf Hf'. assert (f' = f) by congruence. subst. auto.
  - destruct (run_step s fs) as [r|] eqn:E; cbn [bind] in H; [|discriminate].
    apply (keeps_trans _ fs r fs').
    + assert (K := run_step_keeps s fs r (fun cal thr c Es => W cal thr c (or_introl Es)) E). destruct K as [L F]. split; [exact L|].
      intros i f f' Hf Hf'. destruct (F i f f' Hf Hf') as (A & B & C). split; [exact A|]. split; [exact B|]. intros j b Hb. apply C.
      destruct Hb as [Hb|Hb]; [auto|]. right. intros bp ->. apply Hb. exists bp. left. reflexivity.
    + assert (K := IH r fs' (fun cal thr c Hi => W cal thr c (or_intror Hi)) H). destruct K as [L F]. split; [exact L|].
      intros i f f' Hf Hf'. destruct (F i f f' Hf Hf') as (A & B & C). split; [exact A|]. split; [exact B|]. intros j b Hb. apply C.
      destruct Hb as [Hb|Hb]; [auto|]. right. intros [bp Hbp]. apply Hb. exists bp. right. exact Hbp.
Qed.
