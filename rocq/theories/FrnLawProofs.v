(** Laws of the flux ratio noise curve. *)
From Coq Require Import List Arith Bool Reals ZArith Sorted Permutation Lia Lra.
From Verif Require Import Base DqModel AngleModel NearModel NearSpec NearProofs CombineModel FindModel FlatModel FlatSpec FlatProofs ThruModel ThruSpec ThruProofs ThruTableProofs ThruRunProofs ThruLawProofs FrnModel FrnSpec FrnProofs FrnRunProofs.
Import ListNotations.
Local Open Scope R_scope.

(** ** Reading *)
Lemma reads_value : forall xs ys x, NoDup xs -> List.length ys = List.length xs -> (2 <= List.length xs)%nat -> exists v, reads xs ys x v /\ forall w, reads xs ys x w -> w = v.
Proof. intros xs ys x N L G. exists (interp xs ys x). split; [apply reads_iff; auto|]. intros w H. apply reads_iff in H; auto. Qed.
Lemma split_in : forall (P : R * val) pre a b post, In P (pre ++ a :: b :: post) -> In P pre \/ P = a \/ P = b \/ In P post.
Proof. intros P pre a b post H. apply in_app_or in H. cbn [In] in H. intuition congruence. Qed.
Lemma sorted_front : forall pre a t p, StronglySorted plt (pre ++ a :: t) -> In p pre -> fst p < fst a.
Proof. induction pre as [|q pre IH]; intros a t p SS H; [destruct H|]. cbn [app] in SS. inversion SS as [|? ? S1 FA]; subst. destruct H as [<-|H]; [|exact (IH a t p S1 H)]. rewrite Forall_forall in FA. apply FA, in_or_app. right. left. reflexivity. Qed.
Lemma sorted_back : forall pre a t p, StronglySorted plt (pre ++ a :: t) -> In p t -> fst a < fst p.
Proof. induction pre as [|q pre IH]; intros a t p SS H; cbn [app] in SS; inversion SS as [|? ? S1 FA]; subst; [rewrite Forall_forall in FA; exact (FA p H)|exact (IH a t p S1 H)]. Qed.
Lemma reads_node : forall xs ys x y v, reads xs ys x v -> In (x, Some y) (combine xs ys) -> (forall p, In p (combine xs ys) -> snd p <> None) -> v = Some y.
Proof.
  intros xs ys x y v (pre & a & b & post & P & SS & A & B & O) IN NN. apply (Permutation_in _ (Permutation_sym P)) in IN. assert (NA : snd a <> None) by (apply NN, (Permutation_in _ P), in_or_app; right; left; reflexivity). assert (NB : snd b <> None) by (apply NN, (Permutation_in _ P), in_or_app; right; right; left; reflexivity).
  pose proof (sorted_pair _ _ _ _ SS) as AB. assert (SS2 : StronglySorted plt ((pre ++ [a]) ++ b :: post)) by (rewrite <- app_assoc; exact SS).
  destruct a as [xa [p|]]; [|contradiction NA; reflexivity]. destruct b as [xb [q|]]; [|contradiction NB; reflexivity]. cbn [fst snd] in *. destruct O as (z & -> & O). cbn [fst snd] in O. apply split_in in IN. destruct IN as [IN|[IN|[IN|IN]]].
  - exfalso. pose proof (sorted_front _ _ _ _ SS IN) as L. cbn [fst] in L. destruct A as [-> |A]; [destruct IN|lra].
  - injection IN as -> ->. f_equal. assert (Z : (z - p) * (xb - xa) = 0) by (rewrite O; ring). apply Rmult_integral in Z. lra.
  - injection IN as -> ->. f_equal. assert (Z : (z - q) * (xb - xa) = 0) by (replace ((z - q) * (xb - xa)) with ((z - p) * (xb - xa) - (q - p) * (xb - xa)) by ring; rewrite O; ring). apply Rmult_integral in Z. lra.
  - exfalso. pose proof (sorted_back _ _ _ _ SS2 IN) as L. cbn [fst] in L. destruct B as [-> |B]; [destruct IN|lra].
Qed.
Lemma nan_node : exists xs ys x y, NoDup xs /\ List.length ys = List.length xs /\ In (x, Some y) (combine xs ys) /\ reads xs ys x None.
Proof.
  exists [0; 1; 2], [None; Some 5; Some 6], 1, 5. split; [repeat constructor; cbn; intuition lra|]. split; [reflexivity|]. split; [right; left; reflexivity|]. exists [], (0, None), (1, Some 5), [(2, Some 6)]. cbn [app combine]. split; [apply Permutation_refl|]. split; [repeat constructor; cbn; lra|]. split; [left; reflexivity|]. split; [right; cbn; lra|reflexivity].
Qed.
(** The reading lies between the neighbours. *)
Lemma on_line_between : forall a b x y p q, fst a <= x <= fst b -> fst a < fst b -> on_line a b x (Some y) -> snd a = Some p -> snd b = Some q -> Rmin p q <= y <= Rmax p q.
Proof.
  intros [xa va] [xb vb] x y p q X L O A B. cbn [fst snd] in *. subst. cbn [on_line fst snd] in O. destruct O as (z & E & O). injection E as <-. pose proof (Rmin_l p q). pose proof (Rmin_r p q). pose proof (Rmax_l p q). pose proof (Rmax_r p q).
  destruct (Rle_dec p q) as [D|D]; [rewrite Rmin_left, Rmax_right by lra|rewrite Rmin_right, Rmax_left by lra]; split; apply (Rmult_le_reg_r (xb - xa)); try lra; nra.
Qed.

(** ** Scaling *)
Lemma value_scaled : forall a b cen hw kl ct flux f g tab sep v, b <> 0 -> rows g = rows f -> cols g = cols f -> (forall r c, pix g r c = option_map (fun x => a * x) (pix f r c)) ->
  value_of cen hw kl ct flux f tab sep v -> value_of cen hw kl ct (option_map (fun x => b * x) flux) g tab sep (option_map (fun x => Rabs a / b * x) v).
Proof.
  intros a b cen hw kl ct flux f g tab sep v NB R0 C0 P (n & w & tp & c & N & W & T & K & ->). exists (option_map (fun x => Rabs a * x) n), w, tp, c. split; [exact (noise_times a cen hw [] f g sep n R0 C0 P N)|]. split; [exact W|]. split; [exact T|]. split; [exact K|].
  destruct n as [n|]; [|reflexivity]. destruct w as [w|]; [|reflexivity]. destruct flux as [fl|]; [|reflexivity]. cbn [option_map volume over]. destruct (Req_EM_T fl 0) as [E|E].
  - subst fl. destruct (Req_EM_T (b * 0) 0) as [_|F]; [reflexivity|contradiction F; ring].
  - destruct (Req_EM_T (b * fl) 0) as [F|_]; [apply Rmult_integral in F; tauto|]. destruct (times tp c) as [m|]; [|reflexivity]. cbn [over]. destruct (Req_EM_T m 0); [reflexivity|]. cbn [option_map]. f_equal. field. pose proof ln_lt_2. repeat split; try assumption; lra.
Qed.
Lemma value_level : forall a cen hw kl ct flux f g tab sep v, rows g = rows f -> cols g = cols f -> (forall r c, pix g r c = option_map (fun x => x + a) (pix f r c)) ->
  value_of cen hw kl ct flux f tab sep v -> value_of cen hw kl ct flux g tab sep v.
Proof. intros a cen hw kl ct flux f g tab sep v R0 C0 P (n & w & tp & c & N & W). exists n, w, tp, c. split; [exact (noise_shift a cen hw [] f g sep n R0 C0 P N)|exact W]. Qed.
Lemma value_nonneg : forall cen hw kl ct fl f tab sep x tp c, 0 < fl -> reads kl (map fst tab) sep (Some tp) -> reads (fst ct) (snd ct) sep (Some c) -> 0 < tp -> 0 < c ->
  NoDup kl -> List.length tab = List.length kl -> NoDup (fst ct) -> List.length (snd ct) = List.length (fst ct) -> value_of cen hw kl ct (Some fl) f tab sep (Some x) -> 0 <= x.
Proof.
  intros cen hw kl ct fl f tab sep x tp c PF RT RC PT PC N1 L1 N2 L2 (n & w & tp' & c' & N & W & T & K & E).
  assert (G1 : (2 <= List.length kl)%nat) by (destruct RT as (pre & p & q & post & P & _); apply Permutation_length in P; rewrite app_length, combine_length in P; cbn [List.length] in P; lia). assert (G2 : (2 <= List.length (fst ct))%nat) by (destruct RC as (pre & p & q & post & P & _); apply Permutation_length in P; rewrite app_length, combine_length in P; cbn [List.length] in P; lia).
  assert (tp' = Some tp) by (rewrite reads_iff in RT, T by (try rewrite map_length; auto); congruence). assert (c' = Some c) by (rewrite reads_iff in RC, K by auto; congruence). subst tp' c'. destruct N as (ps & _ & SP). destruct n as [n|]; [|discriminate E]. destruct SP as (NN & _). destruct w as [w|]; [|discriminate E]. cbn [volume over times] in E. destruct (Req_EM_T fl 0); [discriminate E|]. cbn [over] in E. destruct (Req_EM_T (tp * c) 0); [discriminate E|]. injection E as ->.
  pose proof PI_RGT_0. pose proof ln_lt_2. assert (0 < tp * c) by (apply Rmult_lt_0_compat; assumption).
  apply Rmult_le_pos; [|left; apply Rinv_0_lt_compat; assumption]. apply Rmult_le_pos; [|left; apply Rinv_0_lt_compat; assumption]. apply Rmult_le_pos; [|left; apply Rinv_0_lt_compat; lra]. apply Rmult_le_pos; [apply Rmult_le_pos; lra|apply pow2_ge_0].
Qed.

Section Run.
Variable S : Type.
Variable star : S -> img.
Variable gauss : S -> nat * nat -> R * R -> result (list (R * R * val)).
Variable od : R -> R -> val.

(** ** When it succeeds *)
Lemma fit_broadcast : forall A B D (f : A -> B -> D) l m n, rows_fit l m n -> exists out, broadcast f l m = Ok out.
Proof using.
  intros A B D f l m n H. unfold broadcast. destruct (Nat.eqb_spec (List.length l) (List.length m)); [eexists; reflexivity|]. unfold rows_fit in H. destruct l as [|a [|]]; [|eexists; reflexivity|]; (destruct m as [|b [|]]; cbn in *; try (eexists; reflexivity); exfalso; lia).
Qed.
Lemma complete_curve : forall i f s given r h, tidy f -> 0 < h -> complete S star gauss od i f s given -> exists out, curve_of S star gauss od i f s given r h out.
Proof using.
  intros i f s given r h T PH (plate & kl & ct & cx & cy & flux & n & EP & EK & EC & EN & G1 & G2 & FL & RF).
  assert (X : exists out, one_frame S star gauss od f s i given (Some r) (Some h) = Ok (r, h, out)).
  { unfold one_frame. rewrite EP, EK, EC, EN. cbn [getkey bind]. destruct (proj2 (gap_length (fst ct)) G2) as (a & GA). destruct (proj2 (gap_length (fst kl)) G1) as (b & GB). unfold min_spacing. rewrite GA, GB. cbn [bind]. destruct (Rlt_dec 0 h); [|contradiction]. unfold measure_noise. cbn [fst snd getkey bind]. apply flux_iff in FL. rewrite FL. cbn [bind]. rewrite columns_eq. unfold curve.
    match goal with |- context [broadcast ?g ?l ?m] => destruct (fit_broadcast _ _ _ g l m n) as (o & O) end; [unfold rows_fit in *; rewrite map_length; exact RF|]. rewrite O. cbn [bind]. eexists. reflexivity. }
  destruct X as (out & X). exists out. apply frame_iff in X; [exact (proj2 X)|exact T].
Qed.
Lemma curve_complete : forall i f s given r h out, curve_of S star gauss od i f s given r h out -> complete S star gauss od i f s given.
Proof using. intros i f s given r h out (plate & kl & ct & cx & cy & flux & A & B & C0 & D0 & E & F & G & _ & _ & H & _). exists plate, kl, ct, cx, cy, flux, (List.length (snd out)). auto 12. Qed.
Lemma choose_list : forall A (P : nat -> A -> Prop) n, (forall i, (i < n)%nat -> exists a, P i a) -> exists l, List.length l = n /\ forall i a, nth_error l i = Some a -> P i a.
Proof using.
  intros A P n. revert P. induction n as [|n IH]; intros P H; [exists []; split; [reflexivity|intros [|] a E; discriminate E]|]. destruct (H 0%nat) as (a & PA); [lia|]. destruct (IH (fun i => P (Datatypes.S i))) as (l & L & Q); [intros i I; apply H; lia|]. exists (a :: l). split; [cbn; congruence|]. intros [|i] b E; [injection E as <-; exact PA|exact (Q i b E)].
Qed.
Lemma least_sorted : forall l, (2 <= List.length l)%nat -> ((exists g, least_gap l g /\ 0 < g) <-> StronglySorted Rlt l).
Proof using.
  intros l G. split.
  - intros (g & (_ & M) & P). apply Sorted_StronglySorted; [intros a b c; apply Rlt_trans|]. assert (Q : forall pre a b post, l = pre ++ a :: b :: post -> a < b) by (intros pre a b post E; specialize (M pre a b post E); lra). clear - Q. induction l as [|a l IH]; [constructor|]. constructor; [apply IH; intros pre b c post E; apply (Q (a :: pre) b c post); rewrite E; reflexivity|]. destruct l as [|b l]; [constructor|]. constructor. apply (Q [] a b l). reflexivity.
  - intros SS. destruct (proj2 (gap_length l) G) as (g & E). apply rmin_gaps in E. exists g. split; [exact E|]. destruct E as ((pre & a & b & post & E & ->) & _). assert (a < b); [|lra]. rewrite E in SS. clear - SS. induction pre as [|p pre IH]; cbn [app] in SS; inversion SS as [|? ? S1 FA]; subst; [inversion FA; subst; assumption|exact (IH S1)].
Qed.
Theorem succeeds : forall frames stars given req hw, frames <> [] -> (forall f, In f frames -> tidy f) ->
  ((exists outs, compute_flux_ratio_noise S star gauss od frames stars given req hw = Ok outs) <->
   List.length frames = List.length stars /\ chosen_settings frames hw
   /\ forall i f s, nth_error frames i = Some f -> nth_error stars i = Some s -> complete S star gauss od i f s given).
Proof using.
  intros frames stars given req hw NE T. split.
  - intros (outs & H). apply frn_iff in H; [|exact NE|exact T]. destruct H as (L & LO & r & h & ST & K). split; [exact L|].
    assert (CP : forall i f s, nth_error frames i = Some f -> nth_error stars i = Some s -> complete S star gauss od i f s given).
    { intros i f s N1 N2. assert (LI : (i < List.length outs)%nat) by (rewrite LO; apply nth_error_Some; congruence). destruct (nth_error outs i) as [out|] eqn:N3; [|apply nth_error_None in N3; lia]. exact (curve_complete _ _ _ _ _ _ _ (K i f s out N1 N2 N3)). }
    split; [|exact CP]. destruct frames as [|f frames]; [contradiction|]. destruct stars as [|s stars]; [discriminate L|]. destruct (ST f eq_refl) as (kl & ct & EK & EC & _ & H0 & PH). exists f, kl, ct. split; [reflexivity|]. split; [exact EK|]. split; [exact EC|]. destruct hw as [h'|]; [destruct H0 as [H0|(H0 & _)]; [injection H0 as ->; exact PH|discriminate H0]|]. destruct H0 as [H0|(_ & (g & g' & G1 & G2 & E))]; [discriminate H0|].
    destruct (CP 0%nat f s eq_refl eq_refl) as (plate & kl' & ct' & cx & cy & flux & n & _ & EK' & EC' & _ & L1 & L2 & _). assert (kl' = kl) by congruence. assert (ct' = ct) by congruence. subst kl' ct'. pose proof (Rmin_l g g'). pose proof (Rmin_r g g'). split; apply least_sorted; try assumption; [exists g'|exists g]; (split; [assumption|lra]).
  - intros (L & (f & kl & ct & HF & EK & EC & HW) & CP). destruct frames as [|f0 frames]; [contradiction|]. injection HF as ->. destruct stars as [|s stars]; [discriminate L|].
    assert (X : exists h, (hw = Some h \/ hw = None /\ half_of (fst ct) (fst kl) h) /\ 0 < h).
    { destruct hw as [h|]; [exists h; auto|]. destruct (CP 0%nat f s eq_refl eq_refl) as (plate & kl' & ct' & cx & cy & flux & n & _ & EK' & EC' & _ & L1 & L2 & _). assert (kl' = kl) by congruence. assert (ct' = ct) by congruence. subst kl' ct'. destruct HW as (S1 & S2). apply least_sorted in S1, S2; try assumption. destruct S1 as (g' & G' & P'). destruct S2 as (g & G & P). exists (Rmin g g' / 2). split; [right; split; [reflexivity|exists g, g'; auto]|]. unfold Rmin. destruct (Rle_dec g g'); lra. }
    destruct X as (h & H0 & PH). set (r := match req with Some r => r | None => fst kl end).
    destruct (choose_list _ (fun i out => forall f' s', nth_error (f :: frames) i = Some f' -> nth_error (s :: stars) i = Some s' -> curve_of S star gauss od i f' s' given r h out) (List.length (f :: frames))) as (outs & LO & K).
    { intros i LI. destruct (nth_error (f :: frames) i) as [f'|] eqn:N1; [|apply nth_error_None in N1; lia]. destruct (nth_error (s :: stars) i) as [s'|] eqn:N2; [|apply nth_error_None in N2; lia]. destruct (complete_curve i f' s' given r h (T f' (nth_error_In _ _ N1)) PH (CP i f' s' N1 N2)) as (out & O). exists out. intros f'' s'' E1 E2. injection E1 as <-. injection E2 as <-. exact O. }
    exists outs. apply frn_iff; [discriminate|exact T|]. split; [exact L|]. split; [exact LO|]. exists r, h. split; [|intros i f' s' out N1 N2 N3; exact (K i out N3 f' s' N1 N2)]. intros f' E. injection E as <-. exists kl, ct. split; [exact EK|]. split; [exact EC|]. split; [unfold r; destruct req; [left; reflexivity|right; auto]|]. auto.
Qed.

(** ** Each frame on its own *)
Lemma nth_skip : forall A (l : list A) i, nth_error (skipn i l) 0 = nth_error l i.
Proof using. intros A. induction l as [|a l IH]; intros [|i]; try reflexivity. exact (IH i). Qed.
Lemma located_later : forall f i given r c, located f i given r c <-> located f 0 (later i given) r c.
Proof using. intros f i [[a b]|] r c; cbn [later option_map located fst snd]; [rewrite !nth_skip|]; reflexivity. Qed.
Lemma curve_later : forall i f s given r h out, curve_of S star gauss od i f s given r h out <-> curve_of S star gauss od 0 f s (later i given) r h out.
Proof using.
  intros i f s given r h out. assert (F : forall v, flux_of S star gauss od s i given v <-> flux_of S star gauss od s 0 (later i given) v).
  { intros v. unfold flux_of. split; intros (r0 & c & nr & nc & found & k & x & y & fl & L & H); exists r0, c, nr, nc, found, k, x, y, fl; (split; [apply located_later in L; exact L|exact H]). }
  unfold curve_of. split; intros (plate & kl & ct & cx & cy & flux & A & B & C0 & D0 & E & G & FL & H); exists plate, kl, ct, cx, cy, flux; repeat (split; [assumption|]); (split; [apply F; exact FL|exact H]).
Qed.
Theorem alone : forall frames stars given r h outs, frames <> [] -> (forall f, In f frames -> tidy f) ->
  (compute_flux_ratio_noise S star gauss od frames stars given (Some r) (Some h) = Ok outs <->
   List.length frames = List.length stars /\ List.length outs = List.length frames
   /\ forall i f s out, nth_error frames i = Some f -> nth_error stars i = Some s -> nth_error outs i = Some out ->
      compute_flux_ratio_noise S star gauss od [f] [s] (later i given) (Some r) (Some h) = Ok [out]).
Proof using.
  intros frames stars given r h outs NE T. rewrite (frn_iff S star gauss od frames stars given (Some r) (Some h) outs NE T).
  assert (ONE : forall i f s out, In f frames -> (compute_flux_ratio_noise S star gauss od [f] [s] (later i given) (Some r) (Some h) = Ok [out] <-> 0 < h /\ curve_of S star gauss od i f s given r h out)).
  { intros i f s out IF. rewrite frn_iff; [|discriminate|intros f' [<-|[]]; exact (T f IF)]. split.
    - intros (_ & _ & r' & h' & ST & K). destruct (ST f eq_refl) as (kl & ct & _ & _ & R0 & H0 & PH). assert (r' = r) by (destruct R0 as [R0|(R0 & _)]; congruence). assert (h' = h) by (destruct H0 as [H0|(H0 & _)]; congruence). subst r' h'. split; [exact PH|]. apply curve_later. exact (K 0%nat f s out eq_refl eq_refl eq_refl).
    - intros (PH & CV). pose proof CV as CV'. destruct CV' as (plate & kl & ct & cx & cy & flux & _ & EK & EC & _). split; [reflexivity|]. split; [reflexivity|]. exists r, h. split; [intros f' E; injection E as <-; exists kl, ct; auto 9|]. intros [|[|]] f' s' o' E1 E2 E3; try discriminate E1. injection E1 as <-. injection E2 as <-. injection E3 as <-. apply curve_later in CV. exact CV. }
  unfold curves_of. split.
  - intros (L & LO & r' & h' & ST & K). destruct frames as [|f0 frames]; [contradiction|]. destruct (ST f0 eq_refl) as (kl & ct & _ & _ & R0 & H0 & PH). assert (r' = r) by (destruct R0 as [R0|(R0 & _)]; congruence). assert (h' = h) by (destruct H0 as [H0|(H0 & _)]; congruence). subst r' h'. split; [exact L|]. split; [exact LO|]. intros i f s out N1 N2 N3. apply ONE; [exact (nth_error_In _ _ N1)|]. split; [exact PH|exact (K i f s out N1 N2 N3)].
  - intros (L & LO & K). split; [exact L|]. split; [exact LO|]. assert (K' : forall i f s out, nth_error frames i = Some f -> nth_error stars i = Some s -> nth_error outs i = Some out -> 0 < h /\ curve_of S star gauss od i f s given r h out) by (intros i f s out N1 N2 N3; apply ONE; [exact (nth_error_In _ _ N1)|exact (K i f s out N1 N2 N3)]).
    exists r, h. split; [|intros i f s out N1 N2 N3; exact (proj2 (K' i f s out N1 N2 N3))]. intros f E. destruct frames as [|f0 frames]; [contradiction|]. injection E as ->. destruct stars as [|s stars]; [discriminate L|]. destruct outs as [|o outs]; [discriminate LO|]. destruct (K' 0%nat f s o eq_refl eq_refl eq_refl) as (PH & (plate & kl & ct & cx & cy & flux & _ & EK & EC & _)). exists kl, ct. auto 9.
Qed.

(** ** Defaults of the first frame *)
Theorem first_separations : forall frames stars given req hw outs f kl, frames <> [] -> (forall f, In f frames -> tidy f) ->
  compute_flux_ratio_noise S star gauss od frames stars given req hw = Ok outs -> hd_error frames = Some f -> f_kl f = Some kl ->
  forall out, In out outs -> fst (fst out) = match req with Some r => r | None => fst kl end.
Proof using.
  intros frames stars given req hw outs f kl NE T H HF EK out IO. apply frn_iff in H; [|exact NE|exact T]. destruct H as (L & LO & r & h & ST & K). destruct (ST f HF) as (kl' & ct & EK' & _ & R0 & _). assert (kl' = kl) by congruence. subst kl'. apply In_nth_error in IO. destruct IO as (i & N3). assert (LI : (i < List.length outs)%nat) by (apply nth_error_Some; congruence).
  destruct (nth_error frames i) as [f'|] eqn:N1; [|apply nth_error_None in N1; lia]. destruct (nth_error stars i) as [s'|] eqn:N2; [|apply nth_error_None in N2; lia]. destruct (K i f' s' out N1 N2 N3) as (plate & kl' & ct' & cx & cy & flux & _ & _ & _ & _ & _ & _ & _ & E & _). rewrite E. destruct R0 as [-> |(-> & ->)]; reflexivity.
Qed.

(** ** What goes wrong *)
Lemma float_place : forall frames stars given req hw a b x i, frames <> [] -> (forall f, In f frames -> tidy f) -> given = Some (a, b) -> (i < List.length frames)%nat -> (nth_error a i = Some (D x) \/ nth_error b i = Some (D x)) ->
  forall outs, compute_flux_ratio_noise S star gauss od frames stars given req hw <> Ok outs.
Proof using.
  intros frames stars given req hw a b x i NE T -> LI H outs E. apply frn_iff in E; [|exact NE|exact T]. destruct E as (L & LO & r & h & _ & K). destruct (nth_error frames i) as [f|] eqn:N1; [|apply nth_error_None in N1; lia]. destruct (nth_error stars i) as [s|] eqn:N2; [|apply nth_error_None in N2; lia]. destruct (nth_error outs i) as [o|] eqn:N3; [|apply nth_error_None in N3; lia].
  destruct (K i f s o N1 N2 N3) as (plate & kl & ct & cx & cy & flux & _ & _ & _ & _ & _ & _ & FL & _). destruct FL as (r0 & c0 & nr & nc & found & k & xx & yy & fl & (L1 & L2) & _). destruct H; congruence.
Qed.
Lemma last_row : forall frames stars req hw i s p, frames <> [] -> (forall f, In f frames -> tidy f) -> nth_error stars i = Some s -> brightest (star s) p ->
  (Nat.Even (rows (star s)) /\ Datatypes.S (fst p) = rows (star s) \/ Nat.Even (cols (star s)) /\ Datatypes.S (snd p) = cols (star s)) ->
  forall outs, compute_flux_ratio_noise S star gauss od frames stars None req hw <> Ok outs.
Proof using.
  intros frames stars req hw i s p NE T N2 BP H outs E. apply frn_iff in E; [|exact NE|exact T]. destruct E as (L & LO & r & h & _ & K). assert (LI : (i < List.length stars)%nat) by (apply nth_error_Some; congruence). destruct (nth_error frames i) as [f|] eqn:N1; [|apply nth_error_None in N1; lia]. destruct (nth_error outs i) as [o|] eqn:N3; [|apply nth_error_None in N3; lia].
  destruct (K i f s o N1 N2 N3) as (plate & kl & ct & cx & cy & flux & _ & _ & _ & _ & _ & _ & FL & _). destruct FL as (r0 & c0 & nr & nc & found & k & xx & yy & fl & (p' & BP' & -> & ->) & T1 & T2 & I1 & I2 & _). assert (p' = p) by (apply peak_iff in BP, BP'; congruence). subst p'. destruct T1 as ((m1 & M1) & D1). destruct T2 as ((m2 & M2) & D2). unfold inside in *. destruct H as [((e & EV) & H)|((e & EV) & H)]; lia.
Qed.
Lemma no_density : (forall x y, od x y = Some 0) -> forall frames stars given req hw outs, frames <> [] -> (forall f, In f frames -> tidy f) ->
  compute_flux_ratio_noise S star gauss od frames stars given req hw = Ok outs -> forall out row v, In out outs -> In row (snd out) -> In v row -> v = None.
Proof using.
  intros OD frames stars given req hw outs NE T H out row v IO IR IV. apply frn_iff in H; [|exact NE|exact T]. destruct H as (L & LO & r & h & _ & K). apply In_nth_error in IO. destruct IO as (i & N3). assert (LI : (i < List.length outs)%nat) by (apply nth_error_Some; congruence).
  destruct (nth_error frames i) as [f'|] eqn:N1; [|apply nth_error_None in N1; lia]. destruct (nth_error stars i) as [s'|] eqn:N2; [|apply nth_error_None in N2; lia]. destruct (K i f' s' out N1 N2 N3) as (plate & kl & ct & cx & cy & flux & _ & _ & _ & _ & _ & _ & FL & _ & _ & _ & V).
  apply In_nth_error in IR. destruct IR as (j & IR). destruct (V j row IR) as (im & tab & _ & F2). assert (FN : flux = Some 0 \/ flux = None) by (destruct FL as (r0 & c0 & nr & nc & found & k & xx & yy & fl & _ & _ & _ & _ & _ & _ & _ & ->); rewrite OD; destruct fl; cbn [times]; [left; f_equal; ring|right; reflexivity]).
  clear - F2 IV FN. induction F2 as [|sep v' seps row' P F2 IH]; [destruct IV|]. destruct IV as [<-|IV]; [|exact (IH IV)]. destruct P as (n & w & tp & c & _ & _ & _ & _ & ->). assert (Z : over (volume (n, w)) flux = None) by (destruct FN as [-> | ->]; destruct n, w; cbn [volume over]; try reflexivity; destruct (Req_EM_T 0 0) as [|X]; [reflexivity|contradiction X; reflexivity]). rewrite Z. reflexivity.
Qed.
Lemma count_differs : forall frames stars given req hw, List.length frames <> List.length stars -> compute_flux_ratio_noise S star gauss od frames stars given req hw = Raise ValueError.
Proof using. intros frames stars given req hw H. unfold compute_flux_ratio_noise. destruct (Nat.eqb_spec (List.length frames) (List.length stars)); [contradiction|reflexivity]. Qed.
End Run.

(** ** Witnesses *)
Definition star0 : img := mkimg 1 3 (fun r c => Some (if Nat.eqb c 1 then 1 else 0)).
Lemma bright0 : brightest star0 (0%nat, 1%nat).
Proof. split; [cbn; lia|]. split; [cbn; lia|]. intros [a b] A B. cbn [fst snd rows cols star0] in *. exists 1, (if Nat.eqb b 1 then 1 else 0). split; [reflexivity|]. split; [reflexivity|]. destruct (Nat.eqb_spec b 1); (split; [lra|]); intros H; [unfold before in H; cbn [fst snd] in H; exfalso; lia|lra]. Qed.
Definition gauss0 (s : unit) (sh : nat * nat) (p : R * R) : result (list (R * R * val)) := Ok [(1, 0, Some 2)].
Lemma flux0 : forall i, flux_of unit (fun _ => star0) gauss0 (fun _ _ => Some 3) tt i None (Some 6).
Proof.
  intros i.
  exists 0%Z, 1%Z, 1%nat, 3%nat, [(1, 0, Some 2)], 0%nat, 1, 0, (Some 2). split; [exists (0%nat, 1%nat); split; [exact bright0|auto]|]. split; [split; [exists 0%nat; reflexivity|left; reflexivity]|]. split; [split; [exists 1%nat; reflexivity|left; reflexivity]|]. unfold inside. split; [lia|]. split; [lia|]. split; [reflexivity|]. split; [|cbn; f_equal; ring]. split; [reflexivity|]. intros [|[|j]] b E; try discriminate E. injection E as <-. split; [apply Rle_refl|intros H; inversion H].
Qed.
Lemma later0 : forall i given, given = None -> later i given = None.
Proof. intros i given ->. reflexivity. Qed.
Definition image0 : img := mkimg 3 3 (fun r c => Some (INR r)).
Definition frame0 (a : R) : frame := mkframe (Some 20) (Some ([a; a + 1], [[(Some (1 / 2), Some 2); (Some (1 / 2), Some 2)]])) (Some ([0; 4], [Some (1 / 4); Some (1 / 4)])) (Some 1, Some 1) [image0].
Lemma tidy0 : forall a, tidy (frame0 a).
Proof.
  intros a. split; cbn [f_kl f_ct frame0].
  - intros kl H. injection H as <-. cbn [fst snd]. split; [repeat constructor; cbn; intuition lra|]. intros tab [<-|[]]. reflexivity.
  - intros ct H. injection H as <-. cbn [fst snd]. split; [repeat constructor; cbn; intuition lra|reflexivity].
Qed.
Lemma complete0 : forall i a, complete unit (fun _ => star0) gauss0 (fun _ _ => Some 3) i (frame0 a) tt None.
Proof.
  intros i a. exists 20, ([a; a + 1], [[(Some (1 / 2), Some 2); (Some (1 / 2), Some 2)]]), ([0; 4], [Some (1 / 4); Some (1 / 4)]), 1, 1, (Some 6), 1%nat. split; [reflexivity|]. split; [reflexivity|]. split; [reflexivity|]. split; [reflexivity|]. split; [cbn; lia|]. split; [cbn; lia|]. split; [exact (flux0 i)|]. left. auto.
Qed.
Lemma run0 : exists outs, compute_flux_ratio_noise unit (fun _ => star0) gauss0 (fun _ _ => Some 3) [frame0 1; frame0 2] [tt; tt] None None None = Ok outs.
Proof.
  apply succeeds; [discriminate|intros f [<-|[<-|[]]]; apply tidy0|]. split; [reflexivity|]. split.
  - eexists (frame0 1), _, _. split; [reflexivity|]. split; [reflexivity|]. split; [reflexivity|]. cbn [fst]. split; repeat constructor; lra.
  - intros [|[|[|i]]] f s N1 N2; try discriminate N1; injection N1 as <-; injection N2 as <-; apply complete0.
Qed.
Lemma borrowed : exists frames stars outs f kl ct out, (forall f, In f frames -> tidy f) /\ compute_flux_ratio_noise unit (fun _ => star0) gauss0 (fun _ _ => Some 3) frames stars None None None = Ok outs
  /\ nth_error frames 1 = Some f /\ nth_error outs 1 = Some out /\ f_kl f = Some kl /\ f_ct f = Some ct /\ fst (fst out) <> fst kl /\ fst (fst out) <> fst ct.
Proof.
  destruct run0 as (outs & H). exists [frame0 1; frame0 2], [tt; tt], outs. assert (T : forall f, In f [frame0 1; frame0 2] -> tidy f) by (intros f [<-|[<-|[]]]; apply tidy0). assert (L : List.length outs = 2%nat) by (apply frn_iff in H; [destruct H as (_ & L & _); exact L|discriminate|exact T]). destruct outs as [|o1 [|o2 [|]]]; try discriminate L.
  exists (frame0 2), ([2; 2 + 1], [[(Some (1 / 2), Some 2); (Some (1 / 2), Some 2)]]), ([0; 4], [Some (1 / 4); Some (1 / 4)]), o2. split; [exact T|]. split; [exact H|]. split; [reflexivity|]. split; [reflexivity|]. split; [reflexivity|]. split; [reflexivity|].
  assert (NE : [frame0 1; frame0 2] <> []) by discriminate. rewrite (first_separations _ _ _ _ _ _ _ _ _ _ (frame0 1) ([1; 1 + 1], [[(Some (1 / 2), Some 2); (Some (1 / 2), Some 2)]]) NE T H eq_refl eq_refl o2) by (right; left; reflexivity). cbn [fst]. split; intros E; injection E as E1 E2; lra.
Qed.
(** A fit that finds the star only if started there: at x = 1, y = 0 *)
Definition gauss1 (s : unit) (sh : nat * nat) (p : R * R) : result (list (R * R * val)) := if Req_EM_T (fst p) 1 then Ok [(1, 0, Some 2)] else Raise ValueError.
Lemma swapped_start : brightest star0 (0%nat, 1%nat) /\ (exists found, gauss1 tt (1%nat, 3%nat) (1, 0) = Ok found) /\ forall v, star_flux unit (fun _ => star0) gauss1 (fun _ _ => Some 3) tt 0 None <> Ok v.
Proof.
  split; [exact bright0|]. split; [unfold gauss1; cbn [fst]; destruct (Req_EM_T 1 1) as [|X]; [eexists; reflexivity|contradiction X; reflexivity]|]. intros v H. apply flux_iff in H. destruct H as (r & c & nr & nc & found & k & x & y & fl & (p & BP & -> & ->) & _ & _ & _ & _ & G & _). pose proof bright0 as B0. apply peak_iff in B0, BP. assert (p = (0%nat, 1%nat)) by congruence. subst p. cbn [fst snd] in G. unfold gauss1 in G. cbn [fst] in G. destruct (Req_EM_T (IZR (Z.of_nat 0)) 1) as [E|]; [cbn in E; lra|discriminate G].
Qed.
