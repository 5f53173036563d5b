(** The boresight of a frame, and the combination of frames. *)
From Coq Require Import List Arith Bool Reals ZArith Lra Lia String.
From Verif Require Import Base DqModel SpotModel SpotSpec SpotProofs SortGroupProofs BendModel BendSpec BendProofs BendFitProofs BoreModel BoreSpec.
Import ListNotations.
Local Open Scope R_scope.

Lemma sum_somes : forall rs, fold_right nadd (Some 0) (map Some rs) = Some (total rs).
Proof. induction rs as [|r rs IH]; [reflexivity|]. cbn [map fold_right]. rewrite IH. reflexivity. Qed.
Lemma sum_none : forall l, In None l -> fold_right nadd (Some 0) l = None.
Proof. induction l as [|a l IH]; intros []; cbn [fold_right]; [subst a; reflexivity|]. rewrite IH by assumption. destruct a; reflexivity. Qed.
Lemma nmean_average : forall l, average l (nmean l).
Proof.
  intros l. unfold nmean, average. destruct (in_dec (fun a b : num => ltac:(decide equality; apply Req_EM_T)) None l) as [I|I].
  - right. rewrite sum_none by assumption. auto.
  - assert (E : exists rs, l = map Some rs). { clear - I. induction l as [|[a|] l IH]; [exists []; reflexivity| |exfalso; apply I; left; reflexivity]. destruct IH as (rs & ->); [intros J; apply I; right; assumption|]. exists (a :: rs). reflexivity. }
    destruct E as (rs & ->). rewrite sum_somes, map_length. destruct rs as [|r rs]. { right. split; [left; reflexivity|]. unfold ndiv. cbn. destruct (Req_EM_T 0 0); [reflexivity|lra]. }
    left. exists (r :: rs). split; [reflexivity|]. split; [discriminate|]. unfold ndiv. destruct (Req_EM_T (INR (List.length (r :: rs))) 0) as [Z|_]; [exfalso; revert Z; apply not_0_INR; discriminate|]. reflexivity.
Qed.
Lemma average_unique : forall l a b, average l a -> average l b -> a = b.
Proof.
  assert (N : forall rs, ~ In None (map (@Some R) rs)) by (intros rs I; apply in_map_iff in I; destruct I as (x & Q & _); discriminate).
  assert (J : forall rs qs : list R, map Some rs = map Some qs -> rs = qs) by (induction rs as [|r rs IH]; intros [|q qs] E; try discriminate; [reflexivity|]; cbn in E; injection E as -> E; f_equal; auto).
  intros l a b [(rs & E & NE & ->)|([E|I] & ->)] [(qs & F & NF & ->)|([F|K] & ->)]; subst; try reflexivity; try (exfalso; apply (N _ K)); try (exfalso; apply (N _ I)); try (exfalso; destruct rs; [contradiction|discriminate]); try (exfalso; destruct qs; [contradiction|discriminate]).
  apply J in F. subst. reflexivity.
Qed.
Lemma nmean_iff : forall l m, average l m <-> m = nmean l.
Proof. intros l m. split; [intros A; exact (average_unique l m _ A (nmean_average l))|intros ->; apply nmean_average]. Qed.
Lemma minus_nsub : forall a b, nsub a b = minus a b.
Proof. intros [a|] [b|]; reflexivity. Qed.
Lemma central_iff : forall im st, central im st = true <-> in_middle im st.
Proof.
  intros im st. unfold central, in_middle. rewrite !andb_true_iff. repeat match goal with |- context [Rle_dec ?a ?b] => destruct (Rle_dec a b) end; split; intros H; try tauto; try (decompose [and] H; congruence).
Qed.
Lemma picks_filter : forall A (P : A -> Prop) (f : A -> bool) l m, (forall a, f a = true <-> P a) -> (picks P l m <-> m = filter f l).
Proof.
  intros A P f l m H. split.
  - induction 1 as [|a l m Q X IH|a l m Q X IH]; cbn [filter]; [reflexivity| |]; [rewrite (proj2 (H a) Q), IH; reflexivity|]. destruct (f a) eqn:E; [exfalso; apply Q; apply H; assumption|assumption].
  - intros ->. induction l as [|a l IH]; cbn [filter]; [constructor|]. destruct (f a) eqn:E; [apply picks_yes; [apply H; assumption|assumption]|apply picks_no; [intros Q; apply H in Q; congruence|assumption]].
Qed.
Lemma header_points : forall im ra dec ps north, points im ra dec ps north (header_of im (ra, dec) (ps, north)).
Proof. intros im ra dec ps north. unfold points, header_of. cbn. repeat split; field. Qed.
Lemma points_unique : forall im ra dec ps north u v, points im ra dec ps north u -> points im ra dec ps north v -> u = v.
Proof. intros im ra dec ps north [] [] (A1 & A2 & A3 & A4 & A5 & A6 & A7 & A8) (B1 & B2 & B3 & B4 & B5 & B6 & B7 & B8). cbn in *. subst. reflexivity. Qed.

Lemma Ok_inj : forall A (a b : A), Ok a = Ok b -> a = b.
Proof. intros A a b Q. congruence. Qed.

Section Bore.
  Variable solve : gframe -> result (list star * (R * R)).
  Variable gauss : image -> R -> R -> result (num * num).
  Variable sky2pix : wcs -> R -> R -> num * num.
  Variable offset_of : image -> R -> R -> R -> R -> result ((R * R) * (R * R)).
  Variable sky_sep sky_pa : R -> R -> R -> R -> R.

  Lemma strays_iff : forall im w st o, (do c <- gauss im (s_x st) (s_y st); let p := sky2pix w (s_ra st) (s_dec st) in Ok (nsub (fst c) (fst p), nsub (snd c) (snd p))) = Ok o <-> strays gauss sky2pix im w st o.
  Proof using.
    intros im w st o. unfold strays. cbv zeta. destruct (gauss im (s_x st) (s_y st)) as [c|e]; cbn [bind].
    - split; [intros Q; injection Q as <-; exists c; split; [reflexivity|]; rewrite !minus_nsub; reflexivity|]. intros (c' & E & ->). injection E as <-. rewrite !minus_nsub. reflexivity.
    - split; [discriminate|]. intros (c & E & _). discriminate.
  Qed.
  (** The mean offset of the stars in the middle of the image, in degrees. *)
  Theorem bore_ok : forall im stars ra dec ps north b, compute_boresight gauss sky2pix im stars (ra, dec) (ps, north) = Ok b <-> offset_to gauss sky2pix im stars ra dec ps north b.
  Proof using.
    intros im stars ra dec ps north b. unfold compute_boresight, offset_to. cbn [fst snd]. assert (D : forall m, ndiv (nmul m (Some ps)) (Some 3600000) = degrees_of ps m). { intros [m|]; [|reflexivity]. unfold ndiv, nmul, lift2. destruct (Req_EM_T 3600000 0); [lra|reflexivity]. }
    split.
    - destruct (mapR _ _) as [offs|] eqn:E; cbn [bind]; [|discriminate]. intros Q. apply mapR_iff in E. rewrite !D in Q. exists (header_of im (ra, dec) (ps, north)), (filter (central im) stars), offs, (nmean (map fst offs)), (nmean (map snd offs)).
      split; [apply header_points|]. split; [apply (picks_filter _ _ (central im)); [apply central_iff|reflexivity]|]. split; [clear - E; induction E as [|? ? ? ? X Y IH]; [apply Forall2_nil|apply Forall2_cons; [apply strays_iff; exact X|exact IH]]|]. split; [apply nmean_average|]. split; [apply nmean_average|congruence].
    - intros (w & cs & offs & mx & my & PW & PK & F & MX & MY & ->). apply (picks_filter _ _ (central im)) in PK; [|apply central_iff]. subst cs. rewrite (points_unique im ra dec ps north w _ PW (header_points im ra dec ps north)) in F. apply nmean_iff in MX. apply nmean_iff in MY. subst.
      assert (E : mapR (fun st => do c <- gauss im (s_x st) (s_y st); let p := sky2pix (header_of im (ra, dec) (ps, north)) (s_ra st) (s_dec st) in Ok (nsub (fst c) (fst p), nsub (snd c) (snd p))) (filter (central im) stars) = Ok offs) by (apply mapR_iff; clear - F; induction F as [|? ? ? ? X Y IH]; [apply Forall2_nil|apply Forall2_cons; [apply strays_iff; exact X|exact IH]]).
      cbv zeta in E |- *. rewrite E. cbn [bind]. rewrite !D. reflexivity.
  Qed.
  Lemma bore_raise : forall im stars target props e, compute_boresight gauss sky2pix im stars target props = Raise e <->
    exists cs c1 st c2, picks (in_middle im) stars cs /\ cs = c1 ++ st :: c2 /\ gauss im (s_x st) (s_y st) = Raise e /\ forall s, In s c1 -> exists r, gauss im (s_x s) (s_y s) = Ok r.
  Proof using.
    intros im stars target props e. unfold compute_boresight. cbv zeta. set (w := header_of im target props). set (F := fun st => do c <- gauss im (s_x st) (s_y st); let p := sky2pix w (s_ra st) (s_dec st) in Ok (nsub (fst c) (fst p), nsub (snd c) (snd p))).
    assert (FE : forall st e, F st = Raise e <-> gauss im (s_x st) (s_y st) = Raise e) by (intros st e'; unfold F; destruct (gauss im _ _); cbn [bind]; split; congruence). assert (FO : forall st, (exists y, F st = Ok y) <-> exists r, gauss im (s_x st) (s_y st) = Ok r) by (intros st; unfold F; destruct (gauss im _ _); cbn [bind]; split; intros (y & Y); eauto; discriminate).
    assert (M := mapR_first_raise _ _ F (filter (central im) stars) e). destruct (mapR F _) as [offs|e']; cbn [bind].
    - split; [discriminate|]. intros (cs & c1 & st & c2 & PK & E & G & B). apply (picks_filter _ _ (central im)) in PK; [|apply central_iff]. assert (Q : @Ok (list (num * num)) offs = Raise e); [|discriminate Q]. apply M. exists c1, st, c2. split; [congruence|]. split; [apply FE; assumption|]. intros b I. apply FO. apply B. assumption.
    - split.
      + intros Q. injection Q as ->. destruct M as (M & _). destruct (M eq_refl) as (c1 & st & c2 & E & G & B). exists (filter (central im) stars), c1, st, c2. split; [apply (picks_filter _ _ (central im)); [apply central_iff|reflexivity]|]. split; [assumption|]. split; [apply FE; assumption|]. intros s I. apply FO. apply B. assumption.
      + intros (cs & c1 & st & c2 & PK & E & G & B). apply (picks_filter _ _ (central im)) in PK; [|apply central_iff]. assert (Q : @Raise (list (num * num)) e' = Raise e); [|congruence]. apply M. exists c1, st, c2. split; [congruence|]. split; [apply FE; assumption|]. intros b I. apply FO. apply B. assumption.
  Qed.
  Lemma measure_ok : forall f s, measure solve gauss sky2pix f = Ok s <-> solved solve gauss sky2pix f s.
  Proof using.
    intros f s. unfold measure, solved. destruct (g_ra f) as [ra|]; cbn [getkey bind]; [|split; [discriminate|intros (? & ? & ? & ? & ? & ? & Q & _); discriminate]]. destruct (g_dec f) as [dec|]; cbn [getkey bind]; [|split; [discriminate|intros (? & ? & ? & ? & ? & ? & _ & Q & _); discriminate]].
    destruct (solve f) as [(stars & ps & north)|e]; cbn [bind fst snd]; [|split; [discriminate|intros (? & ? & ? & ? & ? & ? & _ & _ & Q & _); discriminate]].
    destruct (compute_boresight _ _ _ _ _ _) as [b|e] eqn:E; cbn [bind].
    - split.
      + intros Q. exists ra, dec, stars, ps, north, b. repeat (split; [reflexivity|]). split; [apply bore_ok; assumption|]. apply Ok_inj in Q. rewrite <- Q, !minus_nsub. reflexivity.
      + intros (ra' & dec' & stars' & ps' & north' & b' & R1 & R2 & R3 & O & ->). injection R1 as <-. injection R2 as <-. injection R3 as <- <- <-. apply bore_ok in O. rewrite E in O. injection O as <-. rewrite !minus_nsub. reflexivity.
    - split; [discriminate|]. intros (ra' & dec' & stars' & ps' & north' & b' & R1 & R2 & R3 & O & _). injection R1 as <-. injection R2 as <-. injection R3 as <- <- <-. apply bore_ok in O. congruence.
  Qed.
  Lemma measure_raise : forall f e, measure solve gauss sky2pix f = Raise e <-> fails solve gauss f e.
  Proof using.
    intros f e. unfold measure, fails. destruct (g_ra f) as [ra|]; cbn [getkey bind].
    2:{ split; [intros Q; injection Q as <-; left; auto|]. intros [(_ & ->)|(Q & _)]; [reflexivity|congruence]. }
    destruct (g_dec f) as [dec|]; cbn [getkey bind].
    2:{ split; [intros Q; injection Q as <-; left; auto|]. intros [(_ & ->)|(_ & Q & _)]; [reflexivity|congruence]. }
    destruct (solve f) as [(stars & props)|e'] eqn:S; cbn [bind fst snd].
    2:{ split; [intros Q; injection Q as ->; right; split; [discriminate|]; split; [discriminate|left; reflexivity]|]. intros [([Q|Q] & _)|(_ & _ & [Q|(? & ? & ? & ? & ? & ? & Q & _)])]; congruence. }
    assert (B := bore_raise (g_im f) stars (ra, dec) props e). destruct (compute_boresight _ _ _ _ _ _) as [b|e']; cbn [bind].
    - split; [discriminate|]. intros [([Q|Q] & _)|(_ & _ & [Q|(stars' & props' & cs & c1 & st & c2 & Q & X)])]; try discriminate. injection Q as <- <-. assert (Z : @Ok (num * num) b = Raise e) by (apply B; eauto 10). discriminate Z.
    - split.
      + intros Q. injection Q as ->. destruct (proj1 B eq_refl) as (cs & c1 & st & c2 & X). right. split; [discriminate|]. split; [discriminate|]. right. exists stars, props, cs, c1, st, c2. auto.
      + intros [([Q|Q] & _)|(_ & _ & [Q|(stars' & props' & cs & c1 & st & c2 & Q & X)])]; try discriminate. injection Q as <- <-. assert (Z : @Raise (num * num) e' = Raise e) by (apply B; eauto 10). congruence.
  Qed.

  (** In a flat sky: what the offset is of a frame that points elsewhere than its header tells. *)
  Theorem pointing : forall q im stars ra dec ps north ra1 dec1 w w1, points im ra dec ps north w -> points im ra1 dec1 ps north w1 -> ps <> 0 -> (exists st, In st stars /\ in_middle im st) ->
    (forall st, In st stars -> in_middle im st -> exists x y x1 y1, sky2pix w (s_ra st) (s_dec st) = (Some x, Some y) /\ flat_at q w (s_ra st) (s_dec st) x y /\ gauss im (s_x st) (s_y st) = Ok (Some x1, Some y1) /\ flat_at q w1 (s_ra st) (s_dec st) x1 y1) ->
    compute_boresight gauss sky2pix im stars (ra, dec) (ps, north) =
      Ok (Some (sin (north * PI / 180) * (dec - dec1) - cos (north * PI / 180) * ((ra - ra1) * q)), Some (sin (north * PI / 180) * ((ra - ra1) * q) + cos (north * PI / 180) * (dec - dec1))).
  Proof using.
    intros q im stars ra dec ps north ra1 dec1 w w1 PW PW1 PS (st0 & I0 & M0) H. apply bore_ok. set (a := north * PI / 180). set (s := ps / 3600000). assert (SN : s <> 0) by (unfold s; intros Z; apply PS; lra).
    set (ox := (sin a * (dec - dec1) - cos a * ((ra - ra1) * q)) / s). set (oy := (sin a * ((ra - ra1) * q) + cos a * (dec - dec1)) / s).
    assert (ST : forall st, In st stars -> in_middle im st -> strays gauss sky2pix im w st (Some ox, Some oy)).
    { intros st I M. destruct (H st I M) as (x & y & x1 & y1 & E1 & (F1 & F2) & E2 & G1 & G2). exists (Some x1, Some y1). split; [assumption|]. rewrite E1. cbn [fst snd minus]. destruct PW as (A1 & A2 & A3 & A4 & A5 & A6 & A7 & A8), PW1 as (B1 & B2 & B3 & B4 & B5 & B6 & B7 & B8). cbv zeta in *. fold s a in A1, A2, A3, A4, B1, B2, B3, B4. rewrite A1, A2, A5, A6, A7 in F1. rewrite A3, A4, A5, A6, A8 in F2. rewrite B1, B2, B5, B6, B7 in G1. rewrite B3, B4, B5, B6, B8 in G2.
      assert (D1 : s * (- cos a * (x1 - x) + sin a * (y1 - y)) = (ra - ra1) * q) by lra. assert (D2 : s * (sin a * (x1 - x) + cos a * (y1 - y)) = dec - dec1) by lra. assert (SC := sin2_cos2 a). unfold Rsqr in SC.
      f_equal; f_equal.
      - unfold ox. rewrite <- D1, <- D2. apply Rmult_eq_reg_l with s; [|assumption]. transitivity (s * (x1 - x) * (sin a * sin a + cos a * cos a)); [field; assumption|rewrite SC; ring].
      - unfold oy. rewrite <- D1, <- D2. apply Rmult_eq_reg_l with s; [|assumption]. transitivity (s * (y1 - y) * (sin a * sin a + cos a * cos a)); [field; assumption|rewrite SC; ring]. }
    set (cs := filter (central im) stars). assert (CS : forall st, In st cs -> strays gauss sky2pix im w st (Some ox, Some oy)) by (intros st I; apply filter_In in I; destruct I as (I & C); apply ST; [assumption|apply central_iff; assumption]).
    assert (NE : cs <> []) by (intros Z; assert (I : In st0 cs) by (apply filter_In; split; [assumption|apply central_iff; assumption]); rewrite Z in I; contradiction).
    exists w, cs, (repeat (Some ox, Some oy) (List.length cs)), (Some ox), (Some oy). split; [assumption|]. split; [apply (picks_filter _ _ (central im)); [apply central_iff|reflexivity]|].
    split. { revert CS. clear. induction cs as [|c cs IH]; intros CS; [constructor|]. cbn [List.length repeat]. constructor; [apply CS; left; reflexivity|apply IH; intros st I; apply CS; right; assumption]. }
    assert (AV : forall v : R, average (repeat (Some v) (List.length cs)) (Some v)).
    { intros v. left. exists (repeat v (List.length cs)). assert (LN : INR (List.length cs) <> 0) by (apply not_0_INR; destruct cs; [contradiction|discriminate]). split; [generalize (List.length cs); induction n; cbn; congruence|]. split; [destruct cs; [contradiction|discriminate]|]. rewrite repeat_length. f_equal.
      assert (T : total (repeat v (List.length cs)) = INR (List.length cs) * v). { generalize (List.length cs). induction n as [|n IHn]; [cbn; ring|]. cbn [repeat]. change (total (v :: repeat v n)) with (v + total (repeat v n)). rewrite IHn, S_INR. ring. } rewrite T. field. assumption. }
    assert (MR : forall B (g : num * num -> B), map g (repeat (Some ox, Some oy) (List.length cs)) = repeat (g (Some ox, Some oy)) (List.length cs)) by (intros B g; generalize (List.length cs); induction n; cbn; congruence).
    rewrite !MR. cbn [fst snd]. split; [apply AV|]. split; [apply AV|]. unfold degrees_of, ox, oy, s. f_equal; f_equal; field; assumption.
  Qed.
End Bore.

(** The combination of frames. *)
Lemma mean_averaged : forall f l, averaged (f :: l) (mean_image (f :: l)).
Proof. intros f l. exists f, l. split; [reflexivity|]. split; [reflexivity|]. split; [reflexivity|]. intros i j. apply nmean_average. Qed.
Lemma combine_from_ok : forall k, (0 < k)%nat -> forall fuel frames count, (count < List.length frames)%nat -> (List.length frames <= count + fuel)%nat ->
  exists out, combine_from fuel k frames count = Ok out /\ combined k (skipn count frames) out.
Proof.
  intros k K. induction fuel as [|fuel IH]; intros frames count C F; [lia|]. cbn [combine_from]. destruct (Nat.leb_spec (List.length frames) count) as [Q|_]; [lia|].
  replace (count + k - k)%nat with count by lia. destruct (nth_error frames count) as [f0|] eqn:N0; [|apply nth_error_None in N0; lia].
  assert (SK : skipn count frames = f0 :: skipn (S count) frames). { clear - N0. revert count N0. induction frames as [|a frames IH]; intros [|count] N0; try discriminate; [injection N0 as ->; reflexivity|]. cbn [nth_error] in N0. cbn [skipn]. apply IH. assumption. }
  destruct (Nat.leb_spec (List.length frames) (count + k)) as [Q|Q].
  - destruct (nth_error frames (List.length frames - 1)) as [fn|] eqn:NL; [|apply nth_error_None in NL; lia].
    destruct fuel as [|fuel']; cbn [combine_from]; (destruct (Nat.leb_spec (List.length frames) (count + k)); [|lia]); cbn [bind]; eexists; (split; [reflexivity|]); rewrite SK; (apply combined_last with fn; [rewrite <- SK, skipn_length; lia|apply mean_averaged|reflexivity|reflexivity| |reflexivity]); rewrite <- SK;
      apply nth_error_split in NL; destruct NL as (l1 & l2 & E & L); assert (l2 = []) by (destruct l2; [reflexivity|]; apply (f_equal (@List.length _)) in E; rewrite app_length in E; cbn in E; lia); subst l2;
      exists (skipn count l1); rewrite E, skipn_app; replace (count - List.length l1)%nat with 0%nat by lia; reflexivity.
  - destruct (nth_error frames (count + k)) as [fn|] eqn:NL; [|apply nth_error_None in NL; lia]. destruct (IH frames (count + k)%nat Q ltac:(lia)) as (out & -> & CO). cbn [bind]. eexists. split; [reflexivity|].
    assert (SK2 : skipn (count + k) frames = fn :: skipn (S (count + k)) frames). { clear - NL. revert NL. generalize (count + k)%nat. induction frames as [|a frames IH]; intros [|c] NL; try discriminate; [injection NL as ->; reflexivity|]. cbn [nth_error] in NL. cbn [skipn]. apply IH. assumption. }
    assert (SP : skipn count frames = firstn k (skipn count frames) ++ skipn (count + k) frames) by (rewrite <- (firstn_skipn k (skipn count frames)) at 1; f_equal; clear; revert frames; induction count as [|c IHc]; intros frames; [reflexivity|]; destruct frames; [cbn; destruct k; reflexivity|cbn [skipn Nat.add]; apply IHc]).
    assert (FK : exists l, firstn k (skipn count frames) = f0 :: l) by (rewrite SK; destruct k; [lia|]; cbn [firstn]; eauto). destruct FK as (l & FK). rewrite FK. rewrite SP, FK, SK2. rewrite SK2 in CO. apply combined_more; [|apply mean_averaged|reflexivity|reflexivity|reflexivity|assumption].
    rewrite <- FK, firstn_length, skipn_length. lia.
Qed.
Theorem combine_ok : forall k frames, (0 < k)%nat -> frames <> [] -> exists out, combine_from (List.length frames) k frames 0 = Ok out /\ combined k frames out.
Proof. intros k frames K N. apply (combine_from_ok k K (List.length frames) frames 0); [destruct frames; [contradiction|cbn; lia]|lia]. Qed.
Theorem combined_count : forall k frames out, (0 < k)%nat -> combined k frames out -> ((List.length out - 1) * k < List.length frames <= List.length out * k)%nat.
Proof.
  intros k frames out K C. induction C as [f l x c L A RA DE X NA|f l x rest c out L A RA DE NA C IH].
  - cbn [List.length] in *. lia.
  - rewrite app_length. cbn [List.length] in *. destruct out as [|o out]; [inversion C|]. cbn [List.length] in *. nia.
Qed.
