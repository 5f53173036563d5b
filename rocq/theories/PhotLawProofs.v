(** Brighter stars, flagged pixels, the sky, and what fails. *)
From Coq Require Import List Arith Bool Reals ZArith String Lia Lra.
From Verif Require Import Base CombineModel ComboSpec FlatModel FlatSpec NearSpec CtModel CtSpec CtProofs CtLawProofs PhotModel PhotSpec PhotProofs PhotCalProofs.
Import ListNotations.
Local Open Scope R_scope.

Lemma quot_scale : forall k a b, 0 < k -> quot (option_map (Rmult k) a) (option_map (Rmult k) b) = quot a b.
Proof. intros k [a|] [b|] K; cbn; try reflexivity. destruct (Req_EM_T b 0) as [->|N]; destruct (Req_EM_T (k * _) 0) as [Z|N']; try reflexivity; [exfalso; apply N'; ring|apply Rmult_integral in Z; lra|f_equal; field; lra]. Qed.
Lemma quot_over : forall k a b, quot (option_map (Rmult k) a) b = option_map (Rmult k) (quot a b).
Proof. intros k [a|] [b|]; cbn; try reflexivity. destruct (Req_EM_T b 0); cbn; [reflexivity|f_equal; field; assumption]. Qed.
Lemma about_scale : forall k f g r gx gy x y, 0 < k -> brighter k f g -> placed_about f r gx gy x y -> placed_about g r gx gy x y.
Proof.
  intros k f g r gx gy x y K B (zx & zy & ps & s & sx & sy & R1 & R2 & S1 & M & MX & MY & Z & NZ). exists zx, zy, ps, (option_map (Rmult k) s), (option_map (Rmult k) sx), (option_map (Rmult k) sy). split; [assumption|]. split; [assumption|].
  split; [rewrite (brighter_places k f g B); destruct B as (-> & -> & _); assumption|]. split; [apply (brighter_moment k f); assumption|]. split; [apply (brighter_moment k f); assumption|]. split; [apply (brighter_moment k f); assumption|]. split.
  - intros E. apply Z. destruct s as [v|]; [|discriminate]. cbn in E. injection E as E. f_equal. apply Rmult_integral in E. lra.
  - intros E. rewrite !quot_scale by assumption. apply NZ. intros ->. apply E. cbn. f_equal. ring.
Qed.
Lemma placed_scale : forall k wcs_at s s' c roi g x y, 0 < k -> brighter_shot k s s' -> wcs_at s' = wcs_at s -> placed wcs_at s c roi g x y -> placed wcs_at s' c roi g x y.
Proof.
  intros k wcs_at s s' c roi g x y K (B & _ & _) W [(-> & a & b & E & X)|(-> & [(gx & gy & G & P)|(G & P)])].
  - left. split; [reflexivity|]. exists a, b. rewrite W. auto.
  - right. split; [reflexivity|]. left. exists gx, gy. split; [assumption|]. eapply about_scale; eassumption.
  - right. split; [reflexivity|]. right. split; [assumption|]. eapply position_scale; eassumption.
Qed.
Lemma background_scale : forall k lb s s' on r1 r2 x y b, 0 < k -> steady_back lb -> brighter_shot k s s' -> background lb s on r1 r2 x y b -> background lb s' on r1 r2 x y (option_map (option_map (Rmult k)) b).
Proof.
  intros k lb s s' on r1 r2 x y b K ST (B & _ & D) [(-> & v & E & ->)|(-> & ->)]; [left|right; auto]. split; [reflexivity|]. exists (option_map (Rmult k) v). split; [|reflexivity]. unfold mask_of. rewrite D. eapply ST; eassumption.
Qed.
Lemma total_map : forall A (f g : A -> val) h l v, (forall x, In x l -> g x = option_map h (f x)) -> (forall x y, h (x + y) = h x + h y) -> h 0 = 0 -> total (map f l) v -> total (map g l) (option_map h v).
Proof.
  intros A f g h l v E P Z T. apply total_iff in T. subst v. apply total_iff. induction l as [|x l IH]; cbn [map vsum fold_right option_map]; [rewrite Z; reflexivity|]. change (fold_right vadd (Some 0)) with vsum. rewrite (E x) by (left; reflexivity). specialize (IH (fun y I => E y (or_intror I))).
  destruct (f x) as [a|]; cbn [vadd option_map]; [|reflexivity]. destruct (vsum (map f l)) as [t|]; cbn [option_map] in IH; rewrite <- IH; cbn [vadd option_map]; [rewrite P; reflexivity|reflexivity].
Qed.
Lemma lowered_scale : forall k f g b p, brighter k f g -> value_of (lowered g (option_map (option_map (Rmult k)) b)) p = option_map (Rmult k) (value_of (lowered f b) p).
Proof.
  intros k f g b p (_ & _ & H). destruct b as [v|]; cbn [option_map lowered]; [|apply H]. unfold value_of. cbn [pix]. specialize (H p). unfold value_of in H. rewrite H. destruct (pix f (fst p) (snd p)) as [a|], v as [c|]; cbn; try reflexivity. f_equal. ring.
Qed.
(** Light and errors [k] times as large give [k] times the counts, the error and the background *)
Lemma brighter_aper : forall wcs_at lb ov k s s' a n e b, 0 < k -> steady_back lb -> brighter_shot k s s' -> wcs_at s' = wcs_at s -> aper_phot wcs_at lb ov s a = Ok (n, e, b) ->
  aper_phot wcs_at lb ov s' a = Ok (option_map (Rmult k) n, option_map (Rmult k) e, option_map (option_map (Rmult k)) b).
Proof.
  intros wcs_at lb ov k s s' a n e b K ST B W E. apply aper_iff in E. destruct E as (F & x & y & w & P & BK & O & R). apply aper_iff. split; [assumption|]. exists x, y, w. split; [eapply placed_scale; eassumption|]. split; [eapply background_scale; eassumption|]. pose proof B as (BD & BE & D). pose proof BD as (R1 & R2 & _). rewrite R1, R2. split; [assumption|].
  destruct w as [w|]; [|destruct R as (-> & ->); split; reflexivity]. destruct R as (ps & u & v & S1 & U & -> & V & ->). exists ps, (option_map (Rmult k) u), (option_map (Rmult (k * k)) v). split; [rewrite (brighter_places k _ _ BD); eapply sieve_ext; [|exact S1]; intros p; unfold counts_in; rewrite D; reflexivity|].
  split; [eapply total_map; [|intros; ring|ring|exact U]; intros p _; rewrite (lowered_scale k _ _ b p BD); unfold share; destruct (value_of _ p); cbn; [f_equal; ring|reflexivity]|]. split; [rewrite quot_over; reflexivity|].
  split; [eapply total_map; [|intros; ring|ring|exact V]; intros p _; destruct BE as (_ & _ & BE); rewrite BE; unfold share; destruct (value_of _ p); cbn; [f_equal; ring|reflexivity]|]. rewrite <- quot_over. f_equal. destruct v as [v|]; [|reflexivity]. cbn [option_map]. f_equal. rewrite sqrt_mult_alt by nra. rewrite sqrt_square by lra. reflexivity.
Qed.
(** With the centre from the WCS the pixels flagged have no say *)
Lemma flagged_aper : forall wcs_at lb ov s s' a, a_centring a = "wcs"%string -> blind_back lb -> same_off_flags s s' -> wcs_at s' = wcs_at s -> aper_phot wcs_at lb ov s' a = aper_phot wcs_at lb ov s a.
Proof.
  assert (L : forall wcs_at lb ov s s' a n e b, a_centring a = "wcs"%string -> blind_back lb -> same_off_flags s s' -> wcs_at s' = wcs_at s -> apertured wcs_at lb ov s a n e b -> apertured wcs_at lb ov s' a n e b).
  { intros wcs_at lb ov s s' a n e b C BL (R1 & R2 & D & V) W (F & x & y & w & P & BK & O & R). split; [assumption|]. exists x, y, w. split; [destruct P as [(_ & p & q & E & X)|(Q & _)]; [left; split; [assumption|]; exists p, q; rewrite W; auto|congruence]|].
    split; [destruct BK as [(-> & v & E & ->)|(-> & ->)]; [left; split; [reflexivity|]; exists v; split; [|reflexivity]|right; auto]; unfold mask_of in *; rewrite D; rewrite <- E; apply BL; try assumption; intros p M; apply V; apply Z.eqb_eq, negb_false_iff; exact M|]. rewrite R1, R2. split; [assumption|].
    destruct w as [w|]; [|assumption]. destruct R as (ps & u & v & S1 & U & N & VV & EE). exists ps, u, v. assert (PL : places (t_data s') = places (t_data s)) by (unfold places; rewrite R1, R2; reflexivity). split; [rewrite PL; eapply sieve_ext; [|exact S1]; intros p; unfold counts_in; rewrite D; reflexivity|].
    assert (OFF : forall p, In p ps -> t_dq s (fst p) (snd p) = 0%Z) by (intros p I; destruct (sieve_sub _ _ _ _ p S1 I) as (_ & _ & Z); exact Z).
    split; [|split; [assumption|split; [|assumption]]].
    - erewrite map_ext_in; [exact U|]. intros p I. cbv beta. f_equal. destruct (V p (OFF p I)) as (V1 & _). unfold value_of in *. destruct b as [c|]; cbn [lowered pix]; [rewrite V1; reflexivity|assumption].
    - erewrite map_ext_in; [exact VV|]. intros p I. cbv beta. destruct (V p (OFF p I)) as (_ & V2). rewrite V2. reflexivity. }
  intros wcs_at lb ov s s' a C BL O W. assert (O' : same_off_flags s' s) by (destruct O as (R1 & R2 & D & V); split; [auto|split; [auto|split; [auto|]]]; intros p Z; rewrite D in Z; destruct (V p Z); auto).
  destruct (aper_phot wcs_at lb ov s a) as [((n, e), b)|e] eqn:E.
  - apply aper_iff. apply aper_iff in E. eapply L; eassumption.
  - destruct (aper_phot wcs_at lb ov s' a) as [((n, e'), b)|e'] eqn:E'.
    + apply aper_iff in E'. assert (Q : apertured wcs_at lb ov s a n e' b) by (eapply L; [eassumption|eassumption|exact O'|auto|exact E']). apply aper_iff in Q. congruence.
    + f_equal. unfold aper_phot, centre, unback in E, E'. rewrite C in E, E'. cbn [String.eqb Ascii.eqb Bool.eqb] in E, E'. rewrite W in E'. destruct ((if Rle_dec (a_fee a) 0 then true else false) || _); [congruence|]. destruct (wcs_at s) as [(p, q)|]; cbn [bind fst snd] in E, E'; [|congruence].
      destruct O as (R1 & R2 & D & V). assert (BB : lb (a_in a) (a_out a) (t_data s') (masked s') (Some (p + 1)) (Some (q + 1)) = lb (a_in a) (a_out a) (t_data s) (masked s) (Some (p + 1)) (Some (q + 1))).
      { replace (masked s') with (masked s) by (unfold masked; rewrite D; reflexivity). apply BL; try assumption. intros t M. apply V. apply Z.eqb_eq, negb_false_iff; exact M. }
      rewrite BB, R1, R2 in E'. destruct (if a_back a then _ else _) as [bb|]; cbn [bind] in E, E'; [|congruence]. destruct (ov _ _ _ _ _ _ _) as [[w|]|]; cbn [bind] in E, E'; [discriminate|discriminate|congruence].
Qed.
(** With the background taken away and the centre from the WCS a constant sky changes nothing but the background *)
Lemma sky_aper : forall wcs_at lb ov c s s' a n e v, a_centring a = "wcs"%string -> sky_back lb -> on_sky c s s' -> wcs_at s' = wcs_at s -> aper_phot wcs_at lb ov s a = Ok (n, e, Some (Some v)) ->
  aper_phot wcs_at lb ov s' a = Ok (n, e, Some (Some (v + c))).
Proof.
  intros wcs_at lb ov c s s' a n e v C SK (R1 & R2 & D & DE & V) W E. apply aper_iff in E. destruct E as (F & x & y & w & P & BK & O & R). apply aper_iff. split; [assumption|]. exists x, y, w. split; [destruct P as [(_ & p & q & E & X)|(Q & _)]; [left; split; [assumption|]; exists p, q; rewrite W; auto|congruence]|].
  split; [destruct BK as [(-> & v' & E & Q)|(_ & Q)]; [|discriminate]; injection Q as <-; left; split; [reflexivity|]; eexists; split; [|reflexivity]; unfold mask_of in *; rewrite D; eapply SK; eassumption|]. rewrite R1, R2. split; [assumption|].
  destruct w as [w|]; [|assumption]. destruct R as (ps & u & t & S1 & U & N & VV & EE). exists ps, u, t. assert (PL : places (t_data s') = places (t_data s)) by (unfold places; rewrite R1, R2; reflexivity). split; [rewrite PL; eapply sieve_ext; [|exact S1]; intros p; unfold counts_in; rewrite D; reflexivity|]. rewrite DE. split; [|split; [assumption|split; assumption]].
  erewrite map_ext; [exact U|]. intros p. cbv beta. f_equal. unfold value_of in *. cbn [lowered pix]. rewrite V. destruct (pix (t_data s) (fst p) (snd p)); cbn; [f_equal; ring|reflexivity].
Qed.
(** A star of one pixel just where the WCS has it is missed by an aperture less than a pixel wide *)
Lemma star_missed : forall wcs_at lb ov s a i j v n e b, a_centring a = "wcs"%string -> a_back a = false -> 0 < a_radius a < 1 -> tight ov -> point_star s i j v -> wcs_at s = Ok (INR j, INR i) ->
  aper_phot wcs_at lb ov s a = Ok (Some n, e, b) -> n = 0.
Proof.
  intros wcs_at lb ov s a i j v n e b C BA RA TI (IN & PV & OT) W E. apply aper_iff in E. destruct E as (F & x & y & w & P & BK & O & R). destruct P as [(_ & p & q & E & -> & ->)|(Q & _)]; [|congruence]. rewrite W in E. injection E as <- <-. destruct BK as [(Q & _)|(_ & ->)]; [congruence|].
  destruct w as [w|]; [|destruct R; discriminate]. destruct R as (ps & u & t & S1 & U & N & _). destruct u as [u|]; [|discriminate]. assert (u = 0).
  { apply total_iff in U. cbn [lowered] in U. assert (Z : forall p, In p ps -> value_of (t_data s) p = Some 0).
    { intros p I. destruct (sieve_sub _ _ _ _ p S1 I) as (IP & PO & _). apply OT; [unfold places in IP; destruct p; apply in_prod_iff in IP; rewrite !in_seq in IP; unfold inside_of; cbn; lia|]. intros ->. cbn [fst snd] in PO. assert (w i j <= 0); [|lra]. eapply TI; [exact RA|exact O|]. left. replace (INR j - (INR j + 1)) with (-1) by ring. rewrite Rabs_left; lra. }
    clear - U Z. revert u U. induction ps as [|p ps IH]; intros u U; [cbn in U; congruence|]. cbn [map vsum fold_right] in U. change (fold_right vadd (Some 0)) with vsum in U. rewrite (Z p) in U by (left; reflexivity). destruct (vsum _) as [t|] eqn:T; cbn in U; [|discriminate]. injection U as ->. rewrite (IH (fun q I => Z q (or_intror I)) t eq_refl). ring. }
  subst u. cbn in N. destruct (Req_EM_T (a_fee a) 0); [discriminate|]. injection N as ->. unfold Rdiv. ring.
Qed.

(** ** A row of three pixels *)
Lemma row_position : forall a b c, 0 < a -> 0 <= b <= a -> 0 <= c <= a -> position (row3 a b c) 5 (Some ((b + 2 * c) / (a + b + c))) (Some 0).
Proof.
  intros a b c A B C. exists (0, 0)%nat, [(0, 0); (0, 1); (0, 2)]%nat, (Some (a + b + c)), (Some (b + 2 * c)), (Some 0). split; [|split; [|split; [|split; [|split; [|split]]]]].
  - split; [split; cbn; lia|]. exists a. split; [reflexivity|]. intros (i, j) w (I & J) V. cbn in I, J. unfold value_of in V. cbn in V. split; [|intros [Q|(_ & Q)]; cbn in Q; lia]. destruct j as [|[|j]]; injection V as <-; lra.
  - apply square_iff. reflexivity.
  - exists [a; b; c]. split; [cbn; rewrite !Rmult_1_l; reflexivity|cbn; ring].
  - exists [0; b; 2 * c]. split; [cbn; rewrite Rmult_0_l, Rmult_1_l; reflexivity|cbn; ring].
  - exists [0; 0; 0]. split; [cbn; rewrite !Rmult_0_l; reflexivity|cbn; ring].
  - intros Q. injection Q as Q. lra.
  - intros _. cbn. destruct (Req_EM_T (a + b + c) 0); [lra|]. split; [reflexivity|]. f_equal. unfold Rdiv. ring.
Qed.
Lemma row_flux : forall wcs_at lb s a x b v ps n, n = v / a_fee a -> 0 < a_fee a <= 1 -> rows (t_data s) = 1%nat -> cols (t_data s) = 3%nat -> placed wcs_at s (a_centring a) (a_roi a) (a_guess a) (Some x) (Some 0) -> background lb s (a_back a) (a_in a) (a_out a) (Some x) (Some 0) b ->
  sieve (fun p => (INR (snd p) - x) * (INR (snd p) - x) <= a_radius a * a_radius a /\ t_dq s 0 (snd p) = 0%Z) [(0, 0); (0, 1); (0, 2)]%nat ps -> total (map (value_of (lowered (t_data s) b)) ps) (Some v) ->
  exists e, aper_phot wcs_at lb centre_share s a = Ok (Some n, e, b).
Proof.
  intros wcs_at lb s a x b v ps n -> F R1 R2 P BK S1 T. set (w := fun i j : nat => if Rle_dec ((INR j - x) * (INR j - x) + (INR i - 0) * (INR i - 0)) (a_radius a * a_radius a) then 1 else 0).
  eexists. apply aper_iff. split; [assumption|]. exists (Some x), (Some 0), (Some w). split; [assumption|]. split; [assumption|]. split; [reflexivity|]. exists ps, (Some v). eexists. assert (PL : places (t_data s) = [(0, 0); (0, 1); (0, 2)]%nat) by (unfold places; rewrite R1, R2; reflexivity).
  assert (S2 : forall l, (forall p, In p l -> fst p = O) -> forall m, sieve (fun p => (INR (snd p) - x) * (INR (snd p) - x) <= a_radius a * a_radius a /\ t_dq s 0 (snd p) = 0%Z) l m -> sieve (counts_in s w) l m).
  { intros l Z m SS. induction SS as [|q l m H SS IH|q l m H SS IH]; [constructor| |].
    - constructor; [|apply IH; intros; apply Z; right; assumption]. destruct q as (i, j). assert (i = O) by (apply (Z (i, j)); left; reflexivity). subst i. destruct H as (H & D). split; [|exact D]. unfold w. cbn [fst snd] in *. cbn [INR]. destruct (Rle_dec _ _); lra.
    - apply sieve_out; [|apply IH; intros; apply Z; right; assumption]. intros (W & D). apply H. destruct q as (i, j). assert (i = O) by (apply (Z (i, j)); left; reflexivity). subst i. split; [|exact D]. unfold w in W. cbn [fst snd] in *. cbn [INR] in W. destruct (Rle_dec _ _) in W; lra. }
  specialize (S2 [(0, 0); (0, 1); (0, 2)]%nat). assert (SS : sieve (counts_in s w) [(0, 0); (0, 1); (0, 2)]%nat ps) by (apply S2; [intros p [<-|[<-|[<-|[]]]]; reflexivity|assumption]). split; [rewrite PL; exact SS|]. split.
  - erewrite map_ext_in; [exact T|]. intros p I. destruct (sieve_sub _ _ _ _ p SS I) as (_ & W & _). cbv beta. unfold share. replace (w (fst p) (snd p)) with 1. { destruct (value_of _ p); cbn; [f_equal; ring|reflexivity]. }
    unfold w in *. destruct (Rle_dec _ _); lra.
  - split; [cbn; destruct (Req_EM_T (a_fee a) 0); [lra|reflexivity]|]. split; [apply total_iff; reflexivity|reflexivity].
Qed.
Ltac out := apply sieve_out; [intros (? & ?); cbn [snd INR narrow a_radius t_dq shot3] in *; try discriminate; lra|].
Ltac keep := constructor; [split; [cbn [snd INR narrow a_radius t_dq shot3]; lra|reflexivity]|].
Lemma narrow_fee : forall b c, 0 < a_fee (narrow b c) <= 1.
Proof. intros b c. cbn. lra. Qed.
Lemma row_seen : forall wcs_at lb x a b c flag, 0 < a -> 0 <= b <= a -> 0 <= c <= a -> x = (b + 2 * c) / (a + b + c) -> placed wcs_at (shot3 a b c flag) (a_centring (narrow true "xy")) 5 None (Some x) (Some 0) /\ background lb (shot3 a b c flag) false 5 10 (Some x) (Some 0) None.
Proof.
  intros wcs_at lb x a b c flag A B C ->. split; [right; split; [reflexivity|]; right; split; [intros gx gy Q; discriminate|apply row_position; assumption]|right; auto].
Qed.
(** The pixels flagged move the aperture when the centre is found in the image *)
Lemma flagged_moved : forall wcs_at lb, same_off_flags (shot3 4 0 0 1) (shot3 4 0 4 1) /\
  (exists e, aper_phot wcs_at lb centre_share (shot3 4 0 0 1) (narrow false "xy") = Ok (Some 8, e, None)) /\ (exists e, aper_phot wcs_at lb centre_share (shot3 4 0 4 1) (narrow false "xy") = Ok (Some 0, e, None)).
Proof.
  intros wcs_at lb. split; [|split].
  - split; [reflexivity|]. split; [reflexivity|]. split; [reflexivity|]. intros (i, [|[|j]]) D; cbn in D; [split; reflexivity|split; reflexivity|discriminate].
  - destruct (row_seen wcs_at lb 0 4 0 0 1 ltac:(lra) ltac:(lra) ltac:(lra) ltac:(field)) as (P & B). apply (row_flux _ _ _ _ 0 None 4 [(0, 0)]%nat); [cbn; field|apply narrow_fee|reflexivity|reflexivity|exact P|exact B|keep; out; out; constructor|exists [4]; split; [reflexivity|cbn; ring]].
  - destruct (row_seen wcs_at lb 1 4 0 4 1 ltac:(lra) ltac:(lra) ltac:(lra) ltac:(field)) as (P & B). apply (row_flux _ _ _ _ 1 None 0 [(0, 1)]%nat); [cbn; field|apply narrow_fee|reflexivity|reflexivity|exact P|exact B|out; keep; out; constructor|exists [0]; split; [reflexivity|cbn; ring]].
Qed.
(** So does a constant sky, though it is taken away *)
Lemma sky_moved : forall wcs_at, sky_back pixel_back /\ on_sky 1 (shot3 4 0 0 0) (shot3 (4 + 1) (0 + 1) (0 + 1) 0) /\
  (exists e, aper_phot wcs_at pixel_back centre_share (shot3 4 0 0 0) (narrow true "xy") = Ok (Some 8, e, Some (Some 0))) /\
  (exists e, aper_phot wcs_at pixel_back centre_share (shot3 (4 + 1) (0 + 1) (0 + 1) 0) (narrow true "xy") = Ok (Some 0, e, Some (Some (0 + 1)))).
Proof.
  intros wcs_at. split; [|split; [|split]].
  - intros r1 r2 f g m x y c v _ _ V E. unfold pixel_back in *. injection E as E. f_equal. pose proof (V (0, 1)%nat) as V1. unfold value_of in V1. cbn [fst snd] in V1. rewrite V1, E. reflexivity.
  - split; [reflexivity|]. split; [reflexivity|]. split; [reflexivity|]. split; [reflexivity|]. intros (i, [|[|j]]); reflexivity.
  - destruct (row_seen wcs_at pixel_back 0 4 0 0 0 ltac:(lra) ltac:(lra) ltac:(lra) ltac:(field)) as (P & _). apply (row_flux _ _ _ _ 0 _ 4 [(0, 0)]%nat); [cbn; field|apply narrow_fee|reflexivity|reflexivity|exact P|left; split; [reflexivity|]; eexists; split; reflexivity|keep; out; out; constructor|].
    exists [4 - 0]. split; [reflexivity|cbn; ring].
  - destruct (row_seen wcs_at pixel_back (3 / 7) (4 + 1) (0 + 1) (0 + 1) 0 ltac:(lra) ltac:(lra) ltac:(lra) ltac:(field)) as (P & _). apply (row_flux _ _ _ _ (3 / 7) _ 0 []); [cbn; field|apply narrow_fee|reflexivity|reflexivity|exact P|left; split; [reflexivity|]; eexists; split; reflexivity|out; out; out; constructor|].
    exists []. split; reflexivity.
Qed.
(** The squares of a guess before the frame *)
Lemma guess_far : (forall p, inside_of (row3 0 4 0) p -> -3 + INR 1 < INR (snd p)) /\ centroid (row3 0 4 0) 1 (Some (Some (-3), Some 0)) = Ok (Some 1, Some 0).
Proof.
  split; [intros (i, j) _; cbn [snd]; pose proof (pos_INR j); cbn [INR]; lra|]. unfold centroid. f_equal. apply about_iff. exists (-3)%Z, 0%Z, [(0, 0); (0, 1)]%nat, (Some 4), (Some 4), (Some 0). split; [unfold rounds; cbn; split; [rewrite Rabs_pos_eq; lra|intros H; rewrite Rabs_pos_eq in H; lra]|]. split; [unfold rounds; cbn; split; [rewrite Rabs_pos_eq; lra|intros H; rewrite Rabs_pos_eq in H; lra]|].
  split; [apply boxes_iff; reflexivity|]. split; [exists [0; 4]; split; [cbn; rewrite !Rmult_1_l; reflexivity|cbn; ring]|]. split; [exists [0; 4]; split; [cbn; rewrite Rmult_0_l, Rmult_1_l; reflexivity|cbn; ring]|]. split; [exists [0; 0]; split; [cbn; rewrite !Rmult_0_l; reflexivity|cbn; ring]|]. split; [intros Q; injection Q as Q; lra|]. intros _. cbn. destruct (Req_EM_T 4 0); [lra|]. split; f_equal; field.
Qed.
Lemma centre_tight : tight centre_share.
Proof.
  intros m k r x y ny nx w i j RR E D. injection E as <-. cbv beta. destruct (Rle_dec _ _) as [L|]; [|lra]. exfalso. assert (0 <= (INR j - x) * (INR j - x)) by apply Rle_0_sqr. assert (0 <= (INR i - y) * (INR i - y)) by apply Rle_0_sqr.
  assert (S1 : forall z, 1 <= Rabs z -> 1 <= z * z) by (intros z Z; unfold Rabs in Z; destruct (Rcase_abs z); nra). assert (r * r < 1) by nra. destruct D as [D|D]; apply S1 in D; lra.
Qed.
Lemma row_missed : exists e, point_star (shot3 0 4 0 0) 0 1 4 /\ aper_phot (fun _ => Ok (INR 1, INR 0)) pixel_back centre_share (shot3 0 4 0 0) (narrow false "wcs") = Ok (Some 0, e, None).
Proof.
  assert (E : exists n e, aper_phot (fun _ => Ok (INR 1, INR 0)) pixel_back centre_share (shot3 0 4 0 0) (narrow false "wcs") = Ok (Some n, e, None)).
  { unfold aper_phot. destruct (_ || _) eqn:FE; [exfalso; pose proof (narrow_fee false "wcs") as Q; apply fee_iff in Q; congruence|]. cbn [centre narrow a_centring a_back a_roi a_guess String.eqb Ascii.eqb Bool.eqb bind fst snd unback centre_share].
    assert (V : forall w ps, exists v, weighed w (pix (data_of (shot3 0 4 0 0) None)) ps = Some v).
    { intros w ps. induction ps as [|(i, j) l (v & IH)]; [exists 0; reflexivity|]. unfold weighed in *. cbn [map vsum fold_right]. change (fold_right vadd (Some 0)) with vsum. rewrite IH. cbn [fst snd data_of t_data shot3 row3 pix]. destruct j as [|[|j]]; cbn; eexists; reflexivity. }
    match goal with |- context[weighed ?w (pix (data_of _ None)) ?ps] => destruct (V w ps) as (v & VV) end. rewrite VV. eexists. eexists. f_equal. f_equal. f_equal. cbn. destruct (Req_EM_T (/ 2) 0); [lra|]. reflexivity. }
  destruct E as (n & e & E). assert (PS : point_star (shot3 0 4 0 0) 0 1 4) by (split; [split; cbn; lia|split; [reflexivity|]]; intros (i, [|[|j]]) (I & J) N; cbn in I, J; [reflexivity| |reflexivity]; exfalso; apply N; f_equal; lia).
  exists e. split; [assumption|]. rewrite E. repeat f_equal. apply (star_missed (fun _ => Ok (INR 1, INR 0)) pixel_back centre_share (shot3 0 4 0 0) (narrow false "wcs") 0 1 4 n e None); [reflexivity|reflexivity|cbn; lra|apply centre_tight|exact PS|reflexivity|exact E].
Qed.
(** ** The two calibrations *)
Lemma same_aper : forall wcs_at lb ov s s' a, same_pixels s s' -> wcs_at s' = wcs_at s -> aper_phot wcs_at lb ov s' a = aper_phot wcs_at lb ov s a.
Proof.
  intros wcs_at lb ov (d, e, q, h, h') (d', e', q', k, k') a (D & E & Q) W. cbn in D, E, Q. subst d' e' q'. unfold aper_phot, centre, unback. rewrite W. reflexivity.
Qed.
Lemma same_gauss : forall wcs_at lb gf s s' a, same_pixels s s' -> wcs_at s' = wcs_at s -> phot_by_gauss2d_fit wcs_at lb gf s' a = phot_by_gauss2d_fit wcs_at lb gf s a.
Proof.
  intros wcs_at lb gf (d, e, q, h, h') (d', e', q', k, k') a (D & E & Q) W. cbn in D, E, Q. subst d' e' q'. unfold phot_by_gauss2d_fit, centre, unback. rewrite W. reflexivity.
Qed.
Lemma relabelled_two : forall A (f : shot -> A) s s1 s2 u, reads f -> relabelled u s s1 -> relabelled u s s2 -> f s1 = f s2.
Proof.
  intros A f s s1 s2 u RD ((A1 & A2 & A3) & A4 & A5) ((B1 & B2 & B3) & B4 & B5). apply RD; [split; [congruence|split; congruence]| |]; intros k v; [rewrite (A4 k v), (B4 k v); reflexivity|rewrite (A5 k v), (B5 k v); reflexivity].
Qed.
Lemma relabelled_same : forall s s1 s2 u, relabelled u s s1 -> relabelled u s s2 -> same_pixels s2 s1.
Proof. intros s s1 s2 u ((A1 & A2 & A3) & _) ((B1 & B2 & B3) & _). split; [congruence|split; congruence]. Qed.
Lemma aper_steady : forall wcs_at lb ov a s s1 s2 u, reads wcs_at -> relabelled u s s1 -> relabelled u s s2 -> aper_phot wcs_at lb ov s1 a = aper_phot wcs_at lb ov s2 a.
Proof. intros wcs_at lb ov a s s1 s2 u RD A B. apply same_aper; [eapply relabelled_same; eassumption|eapply relabelled_two; eassumption]. Qed.
Lemma gauss_steady : forall wcs_at lb gf a s s1 s2 u, reads wcs_at -> relabelled u s s1 -> relabelled u s s2 -> phot_by_gauss2d_fit wcs_at lb gf s1 a = phot_by_gauss2d_fit wcs_at lb gf s2 a.
Proof. intros wcs_at lb gf a s s1 s2 u RD A B. apply same_gauss; [eapply relabelled_same; eassumption|eapply relabelled_two; eassumption]. Qed.
Lemma aper_factor : forall wcs_at lb ov curve (curves : shot -> result curve) bf bi s what a s' p, calibrate_fluxcal_aper wcs_at lb ov curve curves bf bi s what (Some a) = (s', Ok p) ->
  exists c flux unit s1 n e b, curves s = Ok c /\ band bf bi what c flux /\ unit_of what unit /\ relabelled unit s s1 /\ apertured wcs_at lb ov s1 a n e b /\
    f_fac p = quot flux n /\ f_err p = prod (quot flux (prod n n)) e /\ density_name (t_ext s) (f_nd p) /\ card (t_ext s) "CFAMNAME" (f_filter p) /\
    with_cards (new_cards unit b) (t_ext s) (f_ext p) /\ same_pixels s s' /\ t_ext s' = f_ext p /\ with_cards [("BUNIT"%string, CText unit)] (t_errh s) (t_errh s').
Proof.
  intros wcs_at lb ov curve curves bf bi s what a s' p E. apply calibrated in E. destruct E as (c & flux & unit & s1 & n & e & b & H1 & H2 & H3 & H4 & H5 & H6). apply aper_iff in H5. exists c, flux, unit, s1, n, e, b. auto 6.
Qed.
Lemma gauss_factor : forall wcs_at lb gf curve (curves : shot -> result curve) bf bi s what g s' p, calibrate_fluxcal_gauss2d wcs_at lb gf curve curves bf bi s what (Some g) = (s', Ok p) ->
  exists c flux unit s1 n e b, curves s = Ok c /\ band bf bi what c flux /\ unit_of what unit /\ relabelled unit s s1 /\ gaussed wcs_at lb gf s1 g n e b /\
    f_fac p = quot flux n /\ f_err p = prod (quot flux (prod n n)) e /\ density_name (t_ext s) (f_nd p) /\ card (t_ext s) "CFAMNAME" (f_filter p) /\
    with_cards (new_cards unit b) (t_ext s) (f_ext p) /\ same_pixels s s' /\ t_ext s' = f_ext p /\ with_cards [("BUNIT"%string, CText unit)] (t_errh s) (t_errh s').
Proof.
  intros wcs_at lb gf curve curves bf bi s what g s' p E. apply calibrated in E. destruct E as (c & flux & unit & s1 & n & e & b & H1 & H2 & H3 & H4 & H5 & H6). apply gauss_iff in H5. exists c, flux, unit, s1, n, e, b. auto 6.
Qed.
Lemma aper_factor_fails : forall wcs_at lb ov curve (curves : shot -> result curve) bf bi s what a e, reads wcs_at ->
  ((exists s', calibrate_fluxcal_aper wcs_at lb ov curve curves bf bi s what (Some a) = (s', Raise e)) <->
   curves s = Raise e \/ (exists c, curves s = Ok c) /\
   ((what <> "flux"%string /\ what <> "irr"%string /\ e = ValueError) \/
    exists unit s1, unit_of what unit /\ relabelled unit s s1 /\
      (aper_refused wcs_at lb ov s1 a e \/ (exists n er b, apertured wcs_at lb ov s1 a n er b) /\ ((forall nd, ~ density_name (t_ext s) nd) \/ no_card (t_ext s) "CFAMNAME") /\ e = ValueError))).
Proof.
  intros wcs_at lb ov curve curves bf bi s what a e RD. unfold calibrate_fluxcal_aper. rewrite calibrate_fails by (intros; eapply aper_steady; eassumption).
  assert (K : forall s1, (exists r, aper_phot wcs_at lb ov s1 a = Ok r) <-> exists n er b, apertured wcs_at lb ov s1 a n er b).
  { intros s1. split; [intros (((n, er), b) & Q); exists n, er, b; apply aper_iff; assumption|intros (n & er & b & Q); exists (n, er, b); apply aper_iff; assumption]. }
  split; (intros [Q|(C & [Q|(u & s1 & U & L & H)])]; [left; exact Q|right; split; [exact C|left; exact Q]|right; split; [exact C|right]; exists u, s1; split; [exact U|]; split; [exact L|]]); [rewrite aper_fails, K in H|rewrite aper_fails, K]; exact H.
Qed.
Lemma gauss_factor_fails : forall wcs_at lb gf curve (curves : shot -> result curve) bf bi s what g e, reads wcs_at ->
  ((exists s', calibrate_fluxcal_gauss2d wcs_at lb gf curve curves bf bi s what (Some g) = (s', Raise e)) <->
   curves s = Raise e \/ (exists c, curves s = Ok c) /\
   ((what <> "flux"%string /\ what <> "irr"%string /\ e = ValueError) \/
    exists unit s1, unit_of what unit /\ relabelled unit s s1 /\
      (gauss_refused wcs_at lb gf s1 g e \/ (exists n er b, gaussed wcs_at lb gf s1 g n er b) /\ ((forall nd, ~ density_name (t_ext s) nd) \/ no_card (t_ext s) "CFAMNAME") /\ e = ValueError))).
Proof.
  intros wcs_at lb gf curve curves bf bi s what g e RD. unfold calibrate_fluxcal_gauss2d. rewrite calibrate_fails by (intros; eapply gauss_steady; eassumption).
  assert (K : forall s1, (exists r, phot_by_gauss2d_fit wcs_at lb gf s1 g = Ok r) <-> exists n er b, gaussed wcs_at lb gf s1 g n er b).
  { intros s1. split; [intros (((n, er), b) & Q); exists n, er, b; apply gauss_iff; assumption|intros (n & er & b & Q); exists (n, er, b); apply gauss_iff; assumption]. }
  split; (intros [Q|(C & [Q|(u & s1 & U & L & H)])]; [left; exact Q|right; split; [exact C|left; exact Q]|right; split; [exact C|right]; exists u, s1; split; [exact U|]; split; [exact L|]]); [rewrite gauss_fails, K in H|rewrite gauss_fails, K]; exact H.
Qed.
Lemma defaults : forall wcs_at lb ov gf curve (curves : shot -> result curve) bf bi s what,
  calibrate_fluxcal_aper wcs_at lb ov curve curves bf bi s what None = calibrate_fluxcal_aper wcs_at lb ov curve curves bf bi s what (Some (mkaset 5 1 "subpixel" 5 false 5 10 "xy" 5 None)) /\
  calibrate_fluxcal_gauss2d wcs_at lb gf curve curves bf bi s what None = calibrate_fluxcal_gauss2d wcs_at lb gf curve curves bf bi s what (Some (mkgset 3 None false 5 10 "xy" 5 None)).
Proof. intros. split; reflexivity. Qed.
(** A sky that is taken away, [k] times the light: the factor *)
Lemma factor_brighter : forall wcs_at lb ov curve (curves : shot -> result curve) bf bi k s s' what a s1 p, 0 < k -> steady_back lb -> reads wcs_at -> brighter_shot k s s' -> t_ext s' = t_ext s -> t_errh s' = t_errh s ->
  (forall t t', brighter_shot k t t' -> t_ext t' = t_ext t -> wcs_at t' = wcs_at t) -> curves s' = curves s ->
  calibrate_fluxcal_aper wcs_at lb ov curve curves bf bi s what (Some a) = (s1, Ok p) ->
  exists s2 p', calibrate_fluxcal_aper wcs_at lb ov curve curves bf bi s' what (Some a) = (s2, Ok p') /\ f_fac p' = option_map (Rmult (/ k)) (f_fac p) /\ f_err p' = option_map (Rmult (/ k)) (f_err p) /\ f_nd p' = f_nd p /\ f_filter p' = f_filter p.
Proof.
  intros wcs_at lb ov curve curves bf bi k s s' what a s1 p K ST RD B H1 H2 W C E. unfold calibrate_fluxcal_aper, calibrate in *. rewrite C. destruct (curves s) as [c|]; [|discriminate]. destruct (what_cases curve bf bi what c) as [(flux & unit & WH & _)|(WH & _)]; rewrite WH in *; [|discriminate]. cbv zeta in *. fold (labelled unit s) in E. fold (labelled unit s').
  destruct (aper_phot wcs_at lb ov (labelled unit s) a) as [((n, e), b)|] eqn:E2; [|discriminate]. assert (B' : brighter_shot k (labelled unit s) (labelled unit s')) by exact B. rewrite (brighter_aper wcs_at lb ov k _ _ a n e b K ST B') ; [|apply W; [exact B'|cbn; rewrite H1; reflexivity]|exact E2].
  unfold new_factor in *. replace (t_ext (labelled unit s')) with (t_ext (labelled unit s)) by (cbn; rewrite H1; reflexivity). destruct (match get "FPAMNAME" _ with Some n => Some n | None => _ end) as [nm|]; [|discriminate]. destruct (get "CFAMNAME" _) as [cf|]; [|discriminate]. injection E as <- <-. do 2 eexists. split; [reflexivity|]. cbn [f_fac f_err f_nd f_filter].
  assert (NZ : forall x, k * x = 0 <-> x = 0) by (intros x; split; [intros Z; apply Rmult_integral in Z; lra|intros ->; ring]).
  split; [|split; [|split; reflexivity]].
  - destruct flux as [fl|], n as [n|]; cbn; try reflexivity. destruct (Req_EM_T n 0) as [->|N]; destruct (Req_EM_T (k * _) 0) as [Z|N']; cbn; try reflexivity; [rewrite NZ in N'; contradiction|rewrite NZ in Z; contradiction|f_equal; field; lra].
  - destruct flux as [fl|], n as [n|], e as [e|]; cbn; try reflexivity; try (destruct (Req_EM_T (k * n * (k * n)) 0), (Req_EM_T (n * n) 0); reflexivity).
    assert (NN : k * n * (k * n) = 0 <-> n * n = 0). { split; [intros Z|intros Z; replace (k * n * (k * n)) with (k * k * (n * n)) by ring; rewrite Z; ring]. apply Rmult_integral in Z. assert (ZZ : n = 0) by (apply NZ; destruct Z; assumption). rewrite ZZ. ring. }
    destruct (Req_EM_T (k * n * (k * n)) 0) as [Z|N]; destruct (Req_EM_T (n * n) 0) as [Z'|N']; cbn; try reflexivity; [rewrite NN in Z; contradiction|rewrite NN in N; contradiction|]. f_equal. assert (n <> 0) by (intros ->; apply N'; ring). field. lra.
Qed.
Lemma row_factor : forall wcs_at lb, reads wcs_at -> exists s' p, calibrate_fluxcal_aper wcs_at lb centre_share R (fun _ => Ok 16) (@Some R) (@Some R) (shot3 4 0 0 1) "flux" (Some (narrow false "xy")) = (s', Ok p) /\ f_fac p = Some 2 /\ f_nd p = "ND225"%string.
Proof.
  intros wcs_at lb RD. destruct (flagged_moved wcs_at lb) as (_ & (e & E) & _). unfold calibrate_fluxcal_aper, calibrate. cbn [String.eqb Ascii.eqb Bool.eqb]. cbv zeta. match goal with |- context[aper_phot _ _ _ ?s1 _] => assert (P : aper_phot wcs_at lb centre_share s1 (narrow false "xy") = Ok (Some 8, e, None)) end.
  { unfold aper_phot, centre, unback in *. cbn [narrow a_centring String.eqb Ascii.eqb Bool.eqb] in *. exact E. }
  rewrite P. cbn [new_factor t_ext shot3 get put String.eqb Ascii.eqb Bool.eqb]. do 2 eexists. split; [reflexivity|]. cbn [f_fac f_nd]. split; [|reflexivity]. cbn. destruct (Req_EM_T 8 0); [lra|]. f_equal. field.
Qed.
