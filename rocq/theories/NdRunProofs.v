(** Lemmas on the stars and their rows. *)
From Coq Require Import List Arith Bool Reals String Sorted Permutation Lia Lra.
From Verif Require Import Base DqModel AngleModel ComboSpec ComboProofs SplitSpec SortGroupProofs NdModel NdSpec NdProofs.
Import ListNotations.
Local Open Scope R_scope.

Lemma keep_iff : forall A (os : list (option A)) rows, sieve (fun o => o <> None) os (map Some rows) <-> rows = keep os.
Proof.
  intros A os. induction os as [|o os IH]; intros rows.
  - split; [intros H; inversion H as [E| |]; destruct rows; [reflexivity|discriminate]|intros ->; constructor].
  - destruct o as [x|]; cbn [keep].
    + split.
      * intros H. inversion H as [|? ? m N H' E1 E2|? ? m N H']; subst; [|exfalso; apply N; discriminate]. destruct rows as [|y rows]; [discriminate E2|]. cbn [map] in E2. injection E2 as -> ->. f_equal. apply IH. exact H'.
      * intros ->. cbn [map]. constructor; [discriminate|]. apply IH. reflexivity.
    + split.
      * intros H. inversion H as [|? ? m N H' E1 E2|? ? m N H']; subst; [exfalso; apply N; reflexivity|]. apply IH. exact H'.
      * intros ->. constructor; [intros N; apply N; reflexivity|]. apply IH. reflexivity.
Qed.
Lemma keep_app : forall A (a b : list (option A)), keep (a ++ b) = keep a ++ keep b.
Proof. intros A a b. induction a as [|[x|] a IH]; cbn; [reflexivity|f_equal; exact IH|exact IH]. Qed.

(** ** Optical density *)
Lemma density_iff : forall p irr cal od, density p irr cal = Ok od <-> dimmed p (pos irr) cal od.
Proof.
  intros [p|] irr cal od; unfold density, dimmed; [|destruct od; split; try reflexivity; try discriminate; tauto].
  assert (I := cond_pos irr). set (i := pos irr) in *. assert (L10 : 0 < ln 10) by (rewrite <- ln_1; apply ln_increasing; lra).
  assert (P : forall d, 0 < Rpower 10 d) by (intros d; apply exp_pos).
  destruct (Req_EM_T cal 0) as [->|N].
  - split; [discriminate|]. destruct od as [d|]; [|intros []]. intros H. specialize (P (- d)). assert (0 < i * Rpower 10 (- d)) by (apply Rmult_lt_0_compat; assumption). lra.
  - assert (E : p / (i / cal) = p * cal / i) by (field; lra). cbv zeta. destruct (Rlt_dec 0 (p / (i / cal))) as [T|T].
    + set (t := p / (i / cal)) in *. assert (X : Rpower 10 (- - (ln t / ln 10)) = t) by (unfold Rpower; rewrite Ropp_involutive; replace (ln t / ln 10 * ln 10) with (ln t) by (field; lra); apply exp_ln; exact T). split.
      * intros H. injection H as <-. rewrite X, E. field. lra.
      * destruct od as [d|]; [|intros []]. intros H. do 2 f_equal. assert (Y : t = Rpower 10 (- d)) by (rewrite E, H; field; lra). rewrite Y. unfold Rpower. rewrite ln_exp. field. lra.
    + split; [discriminate|]. destruct od as [d|]; [|intros []]. intros H. exfalso. apply T. rewrite E, H. replace (i * Rpower 10 (- d) / i) with (Rpower 10 (- d)) by (field; lra). apply P.
Qed.

(** ** Standard deviation *)
Lemma all_some_iff : forall A (l : list (option A)) xs, all_some l = Some xs <-> l = map Some xs.
Proof.
  intros A. induction l as [|o l IH]; intros xs; cbn [all_some].
  - split; [intros H; injection H as <-; reflexivity|destruct xs; [reflexivity|discriminate]].
  - destruct o as [x|]; [|split; [discriminate|destruct xs; discriminate]]. destruct (all_some l) as [r|] eqn:E.
    + split; [intros H; injection H as <-; cbn [map]; f_equal; apply IH; reflexivity|]. destruct xs as [|y ys]; [discriminate|]. cbn [map]. intros H. injection H as -> H. apply IH in H. congruence.
    + split; [discriminate|]. destruct xs as [|y ys]; [discriminate|]. cbn [map]. intros H. injection H as -> H. apply IH in H. discriminate H.
Qed.
Lemma INR_pos : forall A (l : list A), l <> [] -> 0 < INR (List.length l).
Proof. intros A [|x l] N; [congruence|]. apply lt_0_INR. cbn. lia. Qed.
Lemma times_div : forall n z, 0 < n -> n * (z / n) = z.
Proof. intros n z H. field. lra. Qed.
Lemma div_times : forall n z, 0 < n -> n * z / n = z.
Proof. intros n z H. field. lra. Qed.
Lemma sumsq_eq : forall m l, sumsq m l = sum (map (fun x => (x - m) ^ 2) l).
Proof. intros m l. unfold sumsq, sum. induction l as [|x l IH]; [reflexivity|]. cbn [fold_right map]. rewrite IH. reflexivity. Qed.
Lemma sumsq_pos : forall m l, 0 <= sumsq m l.
Proof. intros m l. unfold sumsq. induction l as [|x l IH]; cbn [fold_right]; [lra|]. assert (0 <= (x - m) ^ 2) by (apply pow2_ge_0). lra. Qed.
Lemma std_iff : forall l s, std l = Some s <-> exists ds, l = map Some ds /\ scatter ds s.
Proof.
  intros l s. unfold std. split.
  - destruct (all_some l) as [xs|] eqn:E; [|discriminate]. apply all_some_iff in E. intros H. exists xs. split; [exact E|]. unfold meanR in H. destruct xs as [|x xs]; [discriminate|]. set (l' := x :: xs) in *.
    assert (N : 0 < INR (List.length l')) by (apply INR_pos; discriminate). assert (Hs : s = sqrt (sumsq (fold_right Rplus 0 l' / INR (List.length l')) l' / INR (List.length l'))) by congruence. clear H. subst s. split; [discriminate|]. exists (fold_right Rplus 0 l' / INR (List.length l')). change (fold_right Rplus 0 l') with (sum l'). split; [exact (times_div _ _ N)|]. split; [apply sqrt_pos|].
    rewrite <- sumsq_eq. set (m := sum l' / INR (List.length l')). assert (P := sumsq_pos m l'). replace (sqrt (sumsq m l' / INR (List.length l')) ^ 2) with (sumsq m l' / INR (List.length l')); [exact (times_div _ _ N)|].
    symmetry. cbn [pow]. rewrite Rmult_1_r. apply sqrt_sqrt. apply Rmult_le_pos; [exact P|]. left. apply Rinv_0_lt_compat. exact N.
  - intros (ds & -> & NE & m & M & S0 & S2). rewrite (proj2 (all_some_iff _ _ ds) eq_refl). unfold meanR. destruct ds as [|x xs]; [congruence|]. set (l' := x :: xs) in *.
    assert (N : 0 < INR (List.length l')) by (apply INR_pos; discriminate). assert (X : fold_right Rplus 0 l' / INR (List.length l') = m) by (fold (sum l'); rewrite <- M; exact (div_times _ _ N)). rewrite X. f_equal.
    rewrite sumsq_eq, <- S2. rewrite (div_times _ _ N). replace (s ^ 2) with (s * s) by ring. apply sqrt_square. exact S0.
Qed.
Lemma scatter_fun : forall ds s s', scatter ds s -> scatter ds s' -> s = s'.
Proof. intros ds s s' A B. assert (X : std (map Some ds) = Some s) by (apply std_iff; eauto). assert (Y : std (map Some ds) = Some s') by (apply std_iff; eauto). congruence. Qed.

Section Run.
Variable D : Type.
Notation frame := (frame D).
Variables aper_phot gauss_phot : frame -> result (option R).
Variable centroid : D -> result (option (R * R)).
Variable irradiance : string -> string -> result posreal.

Lemma gap_le : forall a b c (X : Type) (k : result X) r, (do d <- gap a b; if Rlt_dec c d then Raise ValueError else k) = Ok r <-> apart (fun d => d <= c) a b /\ k = Ok r.
Proof.
  intros [a|] [b|] c X k r; cbn [gap bind]; try (split; [discriminate|intros [(x & y & H & H' & _) _]; discriminate]). destruct (Rlt_dec c (Rabs (a - b))) as [L|L].
  - split; [discriminate|]. intros [(x & y & H & H' & Z) _]. injection H as <-. injection H' as <-. lra.
  - split; [intros H; split; [exists a, b; repeat split; lra|exact H]|tauto].
Qed.
Lemma gap_lt : forall a b c (X : Type) (k : result X) r, (do d <- gap a b; if Rle_dec c d then Raise ValueError else k) = Ok r <-> apart (fun d => d < c) a b /\ k = Ok r.
Proof.
  intros [a|] [b|] c X k r; cbn [gap bind]; try (split; [discriminate|intros [(x & y & H & H' & _) _]; discriminate]). destruct (Rle_dec c (Rabs (a - b))) as [L|L].
  - split; [discriminate|]. intros [(x & y & H & H' & Z) _]. injection H as <-. injection H' as <-. lra.
  - split; [intros H; split; [exists a, b; repeat split; lra|exact H]|tauto].
Qed.
Lemma check_file_iff : forall (f : frame) name h v cfam, check_file D f name h v cfam = Ok tt <->
  f_fpam D f = name /\ apart (fun d => d <= 12 / 10) (f_h D f) h /\ apart (fun d => d <= 12 / 10) (f_v D f) v /\ f_cfam D f = Some cfam.
Proof.
  intros f name h v cfam. unfold check_file. destruct (opt_eqb (f_fpam D f) name) eqn:E; cbn [negb].
  - apply opt_eqb_iff in E. rewrite gap_le, gap_le. destruct (opt_eqb (f_cfam D f) (Some cfam)) eqn:E2; cbn [negb].
    + apply opt_eqb_iff in E2. tauto.
    + assert (f_cfam D f <> Some cfam) by (intros X; apply opt_eqb_iff in X; congruence). split; [intros (_ & _ & X); discriminate X|tauto].
  - assert (f_fpam D f <> name) by (intros X; apply opt_eqb_iff in X; congruence). split; [discriminate|tauto].
Qed.
Lemma check_star_iff : forall m s, check_star m s = Ok tt <->
  s_name m = s_name s /\ apart (fun d => d < 12 / 10) (s_h m) (s_h s) /\ apart (fun d => d < 12 / 10) (s_v m) (s_v s) /\ s_cfam m = s_cfam s.
Proof.
  intros m s. unfold check_star. destruct (opt_eqb (s_name m) (s_name s)) eqn:E; cbn [negb].
  - apply opt_eqb_iff in E. rewrite gap_lt, gap_lt. destruct (String.eqb_spec (s_cfam m) (s_cfam s)); cbn [negb]; [tauto|]. split; [intros (_ & _ & X); discriminate X|tauto].
  - assert (s_name m <> s_name s) by (intros X; apply opt_eqb_iff in X; congruence). split; [discriminate|tauto].
Qed.

Lemma method_iff : forall A B (method : string) (a b : A -> result B) x y,
  (if String.eqb method "Aperture" then a x else if String.eqb method "Gaussian" then b x else Raise ValueError) = Ok y <-> exists g, by_method method a b g /\ g x = Ok y.
Proof.
  intros A B method a b x y. unfold by_method. destruct (String.eqb_spec method "Aperture") as [->|N].
  - split; [intros H; exists a; auto|]. intros (g & [[_ ->]|[E _]] & H); [exact H|discriminate E].
  - destruct (String.eqb_spec method "Gaussian") as [->|N2].
    + split; [intros H; exists b; auto|]. intros (g & [[E _]|[_ ->]] & H); [discriminate E|exact H].
    + split; [discriminate|]. intros (g & [[E _]|[E _]] & H); congruence.
Qed.

Lemma od_iff : forall method name h v cfam irr cal t (f : frame) o, f_target D f = Some t -> irradiance t cfam = Ok irr ->
  (od_for_file D aper_phot gauss_phot centroid method name h v cfam irr cal f = Ok o <->
   check_file D f name h v cfam = Ok tt /\ measured aper_phot gauss_phot centroid irradiance method cal f o).
Proof.
  intros method name h v cfam irr cal t f o T I. unfold od_for_file. destruct (check_file D f name h v cfam) as [[]|e] eqn:E; cbn [bind]; [|split; [discriminate|intros [X _]; discriminate]].
  assert (Cf : f_cfam D f = Some cfam) by (apply check_file_iff in E; tauto). split.
  - intros H. split; [reflexivity|]. exists t, cfam, irr. split; [exact T|]. split; [exact Cf|]. split; [exact I|]. destruct (centroid (f_data D f)) as [[[x y]|]|]; cbn [bind] in H; [|left; split; [reflexivity|injection H as <-; reflexivity]|discriminate].
    right. match type of H with (do p <- ?m; _) = _ => destruct m as [p|] eqn:M end; cbn [bind] in H; [|discriminate]. apply method_iff in M. destruct M as (g & G & M). destruct (density p irr cal) as [od|] eqn:Dn; cbn [bind] in H; [|discriminate].
    apply density_iff in Dn. exists g, x, y, p, od. repeat split; congruence || assumption.
  - intros (_ & t' & cfam' & irr' & T' & C' & I' & H). assert (t' = t) by congruence. assert (cfam' = cfam) by congruence. subst. assert (irr' = irr) by congruence. subst.
    destruct H as [[-> ->]|(g & x & y & p & od & G & -> & P & Dm & ->)]; [reflexivity|]. cbn [bind]. rewrite (proj2 (method_iff _ _ method aper_phot gauss_phot f p) (ex_intro _ g (conj G P))). cbn [bind]. rewrite (proj2 (density_iff p irr cal od) Dm). reflexivity.
Qed.

Definition spread (thr : R) (os : list (option row)) : Prop := exists ds s, map (fun r : row => fst (fst r)) (keep os) = map Some ds /\ scatter ds s /\ thr <= s.
Definition like_first (first f : frame) : Prop :=
  f_fpam D f = f_fpam D first /\ f_cfam D f = f_cfam D first /\ f_cfam D first <> None
  /\ apart (fun d => d <= 12 / 10) (f_h D f) (f_h D first) /\ apart (fun d => d <= 12 / 10) (f_v D f) (f_v D first).
Definition summed (method : string) (thr cal : R) (first : frame) (files : list frame) (os : list (option row)) (s : star) : Prop :=
  (forall f, In f files -> like_first first f) /\ Forall2 (measured aper_phot gauss_phot centroid irradiance method cal) files os
  /\ s_rows s = keep os /\ s_name s = f_fpam D first /\ s_h s = f_h D first /\ s_v s = f_v D first /\ f_cfam D first = Some (s_cfam s) /\ (s_flag s = true <-> spread thr os).
Lemma flag_iff : forall thr rows, (match std (map (fun r : row => fst (fst r)) rows) with Some s => if Rle_dec thr s then true else false | None => false end) = true
  <-> exists ds s, map (fun r : row => fst (fst r)) rows = map Some ds /\ scatter ds s /\ thr <= s.
Proof.
  intros thr rows. destruct (std (map (fun r : row => fst (fst r)) rows)) as [s|] eqn:E.
  - apply std_iff in E. destruct E as (ds & E & S). destruct (Rle_dec thr s) as [L|L].
    + split; [intros _; exists ds, s; auto|reflexivity].
    + split; [discriminate|]. intros (ds' & s' & E' & S' & L'). rewrite E in E'. assert (ds = ds'). { clear -E'. revert ds' E'. induction ds as [|x l IH]; intros [|y m] H; try discriminate H; [reflexivity|]. cbn in H. injection H as -> H. f_equal. apply IH. exact H. }
      subst ds'. rewrite (scatter_fun _ _ _ S S') in L. contradiction.
  - split; [discriminate|]. intros (ds & s & M & S & _). assert (X : std (map (fun r : row => fst (fst r)) rows) = Some s) by (apply std_iff; eauto). congruence.
Qed.
Lemma process_iff : forall method thr cal t first rest s, (forall f, In f (first :: rest) -> f_target D f = Some t) ->
  (process_bright D aper_phot gauss_phot centroid irradiance method thr cal t (first :: rest) = Ok s <-> exists os, summed method thr cal first (first :: rest) os s).
Proof.
  intros method thr cal t first rest s T. unfold process_bright, summed. set (files := first :: rest) in *. assert (If : In first files) by (left; reflexivity).
  destruct (f_cfam D first) as [cfam|] eqn:Cf; cbn [getkey bind].
  2:{ split; [discriminate|]. intros (os & L & _). destruct (L first If) as (_ & _ & N & _). congruence. }
  destruct (irradiance t cfam) as [irr|e] eqn:I; cbn [bind].
  2:{ split; [discriminate|]. intros (os & _ & M & _). destruct (Forall2_in _ _ _ _ _ _ M If) as (o & _ & t' & cfam' & irr' & T' & C' & I' & _). specialize (T first If). congruence. }
  assert (K : forall os, mapR (od_for_file D aper_phot gauss_phot centroid method (f_fpam D first) (f_h D first) (f_v D first) cfam irr cal) files = Ok os <->
    (forall f, In f files -> like_first first f) /\ Forall2 (measured aper_phot gauss_phot centroid irradiance method cal) files os).
  { intros os. rewrite mapR_iff. split.
    - intros F. split.
      + intros f J. destruct (Forall2_in _ _ _ _ _ _ F J) as (o & _ & H). apply (od_iff _ _ _ _ _ _ _ t) in H; [|apply T; exact J|exact I]. destruct H as [H _]. apply check_file_iff in H. unfold like_first. rewrite Cf. intuition congruence.
      + apply Forall2_impl with (2 := F). intros f o J H. apply (od_iff _ _ _ _ _ _ _ t) in H; [|apply T; exact J|exact I]. apply H.
    - intros [L F]. apply Forall2_impl with (2 := F). intros f o J H. apply (od_iff _ _ _ _ _ _ _ t); [apply T; exact J|exact I|]. split; [|exact H]. apply check_file_iff. specialize (L f J). unfold like_first in L. rewrite Cf in L. tauto. }
  destruct (mapR _ files) as [os|] eqn:M; cbn [bind].
  - assert (M1 := proj1 (K os) eq_refl). split.
    + intros H. injection H as <-. exists os. cbn [s_rows s_name s_h s_v s_cfam s_flag]. split; [apply M1|]. split; [apply M1|]. do 4 (split; [reflexivity|]). split; [reflexivity|]. apply flag_iff.
    + intros (os' & L & F & E1 & E2 & E3 & E4 & E5 & E6). assert (X : Ok os = Ok os') by (apply K; split; assumption). injection X as <-. destruct s as [rows nm hh vv cf fl]. cbn [s_rows s_name s_h s_v s_cfam s_flag] in *. subst. injection E5 as ->. do 2 f_equal.
      apply eq_true_iff_eq. rewrite flag_iff. rewrite E6. reflexivity.
  - split; [discriminate|]. intros (os' & L & F & _). assert (X : Raise e = Ok os') by (apply K; split; assumption). discriminate X.
Qed.

Lemma loop_iff : forall method thr cal groups rows m fl r, bright_loop D aper_phot gauss_phot centroid irradiance method thr cal rows (Some m) (Some fl) groups = Ok r <->
  exists ss, Forall2 (fun g s => process_bright D aper_phot gauss_phot centroid irradiance method thr cal (fst g) (snd g) = Ok s) groups ss
    /\ Forall (fun s => check_star m s = Ok tt) ss /\ r = (rows ++ List.concat (map s_rows ss), Some m, Some (last (map s_flag ss) fl)).
Proof.
  intros method thr cal. induction groups as [|[t files] groups IH]; intros rows m fl r; cbn [bright_loop].
  - split; [intros H; injection H as <-; exists []; cbn; rewrite app_nil_r; auto|]. intros (ss & F & _ & ->). inversion F; subst. cbn. rewrite app_nil_r. reflexivity.
  - destruct (process_bright D _ _ _ _ method thr cal t files) as [s|e] eqn:P; cbn [bind].
    + destruct (check_star m s) as [[]|e] eqn:K; cbn [bind].
      * rewrite IH. split.
        -- intros (ss & F & G & ->). exists (s :: ss). split; [constructor; assumption|]. split; [constructor; assumption|]. cbn [map List.concat]. rewrite app_assoc. f_equal. f_equal. clear. revert fl. generalize (s_flag s). induction (map s_flag ss) as [|b l IH]; intros x fl; [reflexivity|]. change (last (x :: b :: l) fl) with (last (b :: l) fl). destruct l as [|c l]; [reflexivity|]. change (last (b :: c :: l) x) with (last (c :: l) x). change (last (b :: c :: l) fl) with (last (c :: l) fl). assert (Z := IH b fl). change (last (b :: c :: l) fl) with (last (c :: l) fl) in Z. assert (Z2 := IH b x). change (last (b :: c :: l) x) with (last (c :: l) x) in Z2. congruence.
        -- intros (ss & F & G & ->). inversion F as [|? s' ? ss' P' F']; subst. cbn [fst snd] in P'. assert (s' = s) by congruence. subst. inversion G as [|? ? _ G']; subst. exists ss'. split; [exact F'|]. split; [exact G'|].
           cbn [map List.concat]. rewrite app_assoc. f_equal. f_equal. clear. revert fl. generalize (s_flag s). induction (map s_flag ss') as [|b l IH]; intros x fl; [reflexivity|]. change (last (x :: b :: l) fl) with (last (b :: l) fl). destruct l as [|c l]; [reflexivity|]. change (last (b :: c :: l) x) with (last (c :: l) x). change (last (b :: c :: l) fl) with (last (c :: l) fl). assert (Z := IH b fl). change (last (b :: c :: l) fl) with (last (c :: l) fl) in Z. assert (Z2 := IH b x). change (last (b :: c :: l) x) with (last (c :: l) x) in Z2. congruence.
      * split; [discriminate|]. intros (ss & F & G & _). inversion F as [|? s' ? ss' P' F']; subst. cbn [fst snd] in P'. assert (s' = s) by congruence. subst. inversion G as [|? ? K' G']; subst. congruence.
    + split; [discriminate|]. intros (ss & F & G & _). inversion F as [|? s' ? ss' P' F']; subst. cbn [fst snd] in P'. congruence.
Qed.
End Run.
