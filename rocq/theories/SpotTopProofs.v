(** The star and the spots; images that hold the same light, moved images, images without any. *)
From Coq Require Import List Arith Bool Reals ZArith Lra Lia Psatz.
From Verif Require Import Base DqModel SpotModel SpotSpec SpotProofs SpotFitProofs SpotSearchProofs.
Import ListNotations.
Local Open Scope R_scope.

Lemma spots_some : forall rots th s x y, spots rots th (Some s) (Some x) (Some y) = somes (spots_at (map (fun d => d + th) rots) s x y).
Proof.
  intros rots th s x y. unfold spots, somes, spots_at. induction rots as [|d rots IH]; [reflexivity|]. cbn [map flat_map]. rewrite map_app, <- IH. cbn [map fst snd app].
  unfold nadd, nmul, lift2. rewrite neg_cos, neg_sin. set (a := (d + th) * PI / 180).
  replace (s * cos a + x) with (x + s * cos a) by ring. replace (s * sin a + y) with (y + s * sin a) by ring. replace (s * - cos a + x) with (x - s * cos a) by ring. replace (s * - sin a + y) with (y - s * sin a) by ring. reflexivity.
Qed.
Lemma spots_none : forall rots th s x y, s = None \/ (x = None /\ y = None) -> Forall (fun p => p = (None, None)) (spots rots th s x y).
Proof.
  intros rots th s x y H. apply Forall_forall. intros p I. apply in_flat_map in I. destruct I as (d & _ & I).
  destruct H as [->|(-> & ->)]; unfold nadd, nmul in I; [|destruct s]; cbn [lift2] in I; destruct I as [<-|[<-|[]]]; reflexivity.
Qed.

Section Top.
  Variable polyfit : list num -> list num -> result (num * num * num).
  Variable lstsq : list (list num) -> list num -> result (list num).

  Theorem shapes : forall ref sat g th off sp, (ny sat <> ny ref \/ nx sat <> nx ref) -> star_center polyfit lstsq ref sat g th off sp = Raise TypeError.
  Proof using.
    intros ref sat g th off sp H. unfold star_center. destruct (Nat.eqb_spec (ny sat) (ny ref)); destruct (Nat.eqb_spec (nx sat) (nx ref)); try reflexivity. exfalso. tauto.
  Qed.
  Theorem whole : least_squares lstsq -> least_parabola polyfit -> lstsq_spoilt lstsq -> polyfit_spoilt polyfit ->
    forall ref sat g th off sp v X Y l, holds (difference sat ref) v -> makes (nx sat) (t_sub off) -> makes (nx sat) (t_sub sp) ->
    star_center polyfit lstsq ref sat g th off sp = Ok ((Some X, Some Y), l) ->
    ny ref = ny sat /\ nx ref = nx sat /\
    chain (closer (difference sat ref) v off (fst g - mid_x sat) (snd g - mid_y sat)) (t_iter off) (0, 0) (X - fst g, Y - snd g) /\
    ((exists s, separated (difference sat ref) v sp (X - mid_x sat) (Y - mid_y sat) s /\ l = somes (spots_at (map (fun d => d + th) (t_rots sp)) s (X - mid_x sat) (Y - mid_y sat))) \/
     Forall (fun p => p = (None, None)) l).
  Proof using.
    intros LS LP SL SP ref sat (gx, gy) th off sp v X Y l HV M1 M2. unfold star_center. destruct (Nat.eqb_spec (ny sat) (ny ref)) as [E1|E1]; [|discriminate]. destruct (Nat.eqb_spec (nx sat) (nx ref)) as [E2|E2]; [|discriminate]. cbn [andb negb fst snd].
    fold (mid_x sat) (mid_y sat). destruct (calc_star_location _ _ _ _ _) as [(x, y)|e] eqn:E; cbn [bind fst snd]; [|discriminate].
    destruct (calc_spot_separation _ _ _ _ _) as [s|e] eqn:S; cbn [bind]; [|discriminate]. intros H. injection H as H1 H2 H3.
    destruct x as [x|]; [|discriminate]. destruct y as [y|]; [|discriminate]. injection H1 as <-. injection H2 as <-.
    split; [congruence|]. split; [congruence|]. split.
    - apply (star_ok lstsq LS SL (difference sat ref) v HV off M1) in E. replace (x + mid_x sat - gx) with (x - (gx - mid_x sat)) by ring. replace (y + mid_y sat - gy) with (y - (gy - mid_y sat)) by ring. exact E.
    - replace (x + mid_x sat - mid_x sat) with x by ring. replace (y + mid_y sat - mid_y sat) with y by ring. subst l. destruct s as [s|].
      + left. exists s. split; [apply (sep_ok polyfit LP SP (difference sat ref) v HV sp M2); assumption|apply spots_some].
      + right. apply spots_none. left. reflexivity.
  Qed.
  (** The angle given for the spots does not touch the star. *)
  Theorem any_angle : forall ref sat g th th' off sp, match star_center polyfit lstsq ref sat g th off sp, star_center polyfit lstsq ref sat g th' off sp with Ok r, Ok r' => fst r = fst r' | Raise e, Raise e' => e = e' | _, _ => False end.
  Proof using.
    intros ref sat g th th' off sp. unfold star_center. destruct (negb _); [reflexivity|]. destruct (calc_star_location _ _ _ _ _) as [est|e]; cbn [bind]; [|reflexivity]. destruct (calc_spot_separation _ _ _ _ _) as [s|e]; cbn [bind]; reflexivity.
  Qed.
  Lemma star_loop_0 : forall img xg yg t, t_iter t = 0%nat -> calc_star_location lstsq img xg yg t = Ok (Some xg, Some yg).
  Proof using. intros img xg yg t E. unfold calc_star_location. rewrite E. cbn. rewrite !Rplus_0_l. reflexivity. Qed.

  (** Images without light, or with a hole. *)
  Lemma step_holed : lstsq_spoilt lstsq -> forall img xg yg t est r, makes (nx img) (t_sub t) -> (holed img \/ flat img) -> star_step lstsq img xg yg t est = Ok r -> r = (None, None).
  Proof using.
    intros SL img xg yg t (x, y) r MK H. unfold star_step. cbn [fst snd]. set (xv := offsets _ _ x). set (yv := offsets _ _ y).
    assert (D : exists c, (c = None \/ c = Some 0) /\ forall a b, masked_flux img (t_rots t) (Some (t_sep t)) (nadd (Some xg) b) (nadd (Some yg) a) (t_r t) (t_sub t) = Ok c).
    { destruct H as [H|H].
      - exists None. split; [auto|]. intros a b. apply light_none; assumption.
      - exists (Some 0). split; [auto|]. intros a b. destruct a as [a|]; [destruct b as [b|]|].
        + unfold nadd, lift2. rewrite (light_ok img (fun _ _ => 0)) by assumption. do 2 f_equal. unfold collected. rewrite (total_ext _ (fun _ => 0)); [apply total_const0|]. intros p _. unfold light. rewrite (total_ext _ (fun _ => 0)); [apply total_const0|]. intros q _. ring.
        + apply light_dark with (fun _ _ => 0); auto.
        + apply light_dark with (fun _ _ => 0); auto. }
    destruct D as (c & C & D). rewrite (mapR_ok _ (fun _ => map (fun _ => c) xv)). 2:{ intros a A. rewrite (mapR_ok _ (fun _ => c)); [reflexivity|]. intros b B. apply D. }
    cbn [bind]. destruct (Nat.eq_dec (t_steps t) 0) as [Z0|NZ].
    { intros E. rewrite opt2_shape in E; [discriminate|]. right. right. unfold yv, offsets. rewrite Z0. reflexivity. }
    intros E. apply opt2_spoilt in E; [assumption|assumption|].
    assert (NY : yv <> []) by (unfold yv, offsets; destruct (t_steps t); [congruence|discriminate]). assert (NX : xv <> []) by (unfold xv, offsets; destruct (t_steps t); [congruence|discriminate]).
    destruct C as [->| ->].
    - left. destruct yv as [|y0 yv0], xv as [|x0 xv0]; try congruence; left; reflexivity.
    - right. exists (List.concat (map (fun _ => map (fun _ => 0) xv) yv)). split.
      + rewrite concat_map, map_map. f_equal. apply map_ext. intros _. rewrite map_map. reflexivity.
      + split; [destruct yv as [|y0 yv0], xv as [|x0 xv0]; try congruence; left; reflexivity|]. intros z I. apply in_concat in I. destruct I as (l & L & I). apply in_map_iff in L. destruct L as (y0 & <- & _). apply in_map_iff in I. destruct I as (x0 & <- & _). lra.
  Qed.
  Lemma loop_holed : lstsq_spoilt lstsq -> forall img xg yg t k est r, makes (nx img) (t_sub t) -> (holed img \/ flat img) -> star_loop lstsq img xg yg t (S k) est = Ok r -> r = (None, None).
  Proof using.
    intros SL img xg yg t k. induction k as [|k IH]; intros est r MK H; cbn [star_loop]; destruct (star_step _ _ _ _ _ est) as [est'|e] eqn:S; cbn [bind]; try discriminate.
    - apply step_holed in S; [|assumption|assumption|assumption]. intros E. injection E as <-. assumption.
    - apply (IH est' r MK H).
  Qed.
  Theorem nothing_found : lstsq_spoilt lstsq -> forall ref sat g th off sp r, makes (nx sat) (t_sub off) -> t_iter off <> 0%nat ->
    (holed (difference sat ref) \/ flat (difference sat ref)) -> star_center polyfit lstsq ref sat g th off sp = Ok r -> fst r = (None, None) /\ Forall (fun p => p = (None, None)) (snd r).
  Proof using.
    intros SL ref sat g th off sp r M1 NI H. unfold star_center. destruct (negb _); [discriminate|]. unfold calc_star_location. destruct (t_iter off) as [|k]; [congruence|].
    destruct (star_loop _ _ _ _ _ _ _) as [est|e] eqn:E; cbn [bind]; [|discriminate]. apply loop_holed in E; [|assumption|assumption|assumption]. subst est. cbn [fst snd nadd lift2].
    destruct (calc_spot_separation _ _ _ _ _) as [s|e]; cbn [bind]; [|discriminate]. intros Q. injection Q as <-. cbn [fst snd]. split; [reflexivity|]. apply spots_none. right. split; reflexivity.
  Qed.

  (** Brighter or dimmer images. *)
  Lemma nmax_scale : forall k l, 0 < k -> nmax (map (option_map (Rmult k)) l) = match nmax l with Ok m => Ok (option_map (Rmult k) m) | Raise e => Raise e end.
  Proof using.
    intros k [|x l] K; [reflexivity|]. cbn [map nmax]. f_equal. revert x. induction l as [|y l IH]; intros x; [reflexivity|]. cbn [map fold_left]. rewrite <- IH. f_equal.
    destruct x as [x|], y as [y|]; try reflexivity. unfold nmax2, lift2. cbn [option_map]. f_equal. rewrite RmaxRmult by lra. reflexivity.
  Qed.
  Lemma ndiv_scale : forall k a b, 0 < k -> ndiv (option_map (Rmult k) a) (option_map (Rmult k) b) = ndiv a b.
  Proof using.
    intros k [a|] [b|] K; try reflexivity. cbn. destruct (Req_EM_T b 0) as [->|B].
    - rewrite Rmult_0_r. destruct (Req_EM_T 0 0); [reflexivity|congruence].
    - destruct (Req_EM_T (k * b) 0) as [Q|Q]; [apply Rmult_integral in Q; exfalso; destruct Q; [lra|contradiction]|]. f_equal. field. split; [assumption|lra].
  Qed.
  Lemma argmax_scale : forall k l, 0 < k -> argmax (map (option_map (Rmult k)) l) = argmax l.
  Proof using.
    intros k [|x l] K; [reflexivity|]. cbn [map argmax]. f_equal. generalize 0%nat as ib, 1%nat as i. revert x. induction l as [|y l IH]; intros x ib i; [reflexivity|]. cbn [map argmax_from].
    assert (B : beats (option_map (Rmult k) y) (option_map (Rmult k) x) = beats y x).
    { destruct x as [x|], y as [y|]; try reflexivity. cbn. unfold rlt. destruct (Rlt_dec x y) as [L|L]; destruct (Rlt_dec (k * x) (k * y)) as [M|M]; try reflexivity; exfalso; [apply M; apply Rmult_lt_compat_l; assumption|apply L; apply Rmult_lt_reg_l with k; assumption]. }
    rewrite B. destruct (beats y x); apply IH.
  Qed.
  Lemma opt1_scale : forall k xs ys, 0 < k -> find_optimum_1d polyfit xs (map (option_map (Rmult k)) ys) = find_optimum_1d polyfit xs ys.
  Proof using.
    intros k xs ys K. unfold find_optimum_1d. rewrite map_length. destruct (negb _); [reflexivity|]. rewrite nmax_scale by assumption. destruct (nmax ys) as [m|e]; cbn [bind]; [|reflexivity].
    rewrite map_map. rewrite (map_ext _ (fun y => ndiv y m)) by (intros; apply ndiv_scale; assumption). reflexivity.
  Qed.
  Lemma shape_map : forall {A B} (f : A -> B) (a : list (list A)), shape (map (map f) a) = shape a.
  Proof using. intros A B f [|r a]; [reflexivity|]. unfold shape. cbn [hd map]. cbn [length]. rewrite !map_length. reflexivity. Qed.
  Lemma opt2_scale : forall k xs ys a mask, 0 < k -> find_optimum_2d lstsq xs ys (map (map (option_map (Rmult k))) a) mask = find_optimum_2d lstsq xs ys a mask.
  Proof using.
    intros k xs ys a mask K. unfold find_optimum_2d. rewrite shape_map. destruct (negb _); [reflexivity|]. destruct (negb _); [reflexivity|]. destruct (negb _); [reflexivity|]. rewrite <- concat_map. rewrite nmax_scale by assumption.
    destruct (nmax (concat a)) as [m|e]; cbn [bind]; [|reflexivity]. destruct (negb _); [reflexivity|]. rewrite map_map. rewrite (map_ext (fun x => ndiv (option_map (Rmult k) x) (option_map (Rmult k) m)) (fun y => ndiv y m)) by (intros; apply ndiv_scale; assumption). reflexivity.
  Qed.
  Definition rmap {A B} (f : A -> B) (r : result A) : result B := match r with Ok a => Ok (f a) | Raise e => Raise e end.
  Lemma mapR_rmap : forall {A B C} (f : A -> result B) (g : B -> C) l, mapR (fun a => rmap g (f a)) l = rmap (map g) (mapR f l).
  Proof using.
    intros A B C f g l. induction l as [|a l IH]; [reflexivity|]. cbn [mapR]. destruct (f a) as [b|e]; cbn [bind rmap]; [|reflexivity]. rewrite IH. destruct (mapR f l); reflexivity.
  Qed.
  Definition brighter (k : R) (img img' : image) : Prop := ny img' = ny img /\ nx img' = nx img /\ forall i j, (i < ny img)%nat -> (j < nx img)%nat -> px img' i j = option_map (Rmult k) (px img i j).
  Lemma nsum_scale : forall k n f g, (forall i, (i < n)%nat -> g i = option_map (Rmult k) (f i)) -> nsum_to n g = option_map (Rmult k) (nsum_to n f).
  Proof using.
    intros k n f g. induction n as [|n IH]; intros H; [cbn; f_equal; ring|]. cbn [nsum_to]. rewrite IH by (intros; apply H; lia). rewrite (H n) by lia. destruct (nsum_to n f) as [a|], (f n) as [b|]; try reflexivity. unfold nadd. cbn [option_map lift2]. f_equal. ring.
  Qed.
  Lemma flux_scale : forall k img img' m, brighter k img img' -> flux img' m = option_map (Rmult k) (flux img m).
  Proof using.
    intros k img img' m (E1 & E2 & E3). unfold flux. rewrite E1, E2. apply nsum_scale. intros i I. apply nsum_scale. intros j J. rewrite E3 by assumption. destruct (px img i j) as [p|]; [|reflexivity]. unfold nmul. cbn [option_map lift2]. f_equal. ring.
  Qed.
  Lemma masked_scale : forall k img img' rots sep x y r n, brighter k img img' -> masked_flux img' rots sep x y r n = rmap (option_map (Rmult k)) (masked_flux img rots sep x y r n).
  Proof using.
    intros k img img' rots sep x y r n B. unfold masked_flux. assert (B' := B). destruct B' as (E1 & E2 & _). rewrite E1, E2. destruct (roi_mask _ _ _ _ _ _ _ _ _) as [m|e]; cbn [bind rmap]; [|reflexivity]. f_equal. apply flux_scale. assumption.
  Qed.
  Lemma star_step_scale : forall k img img' xg yg t est, 0 < k -> brighter k img img' -> star_step lstsq img' xg yg t est = star_step lstsq img xg yg t est.
  Proof using.
    intros k img img' xg yg t est K B. unfold star_step. set (xv := offsets _ _ (fst est)). set (yv := offsets _ _ (snd est)).
    rewrite (mapR_ext _ (fun y => rmap (map (option_map (Rmult k))) (mapR (fun x => masked_flux img (t_rots t) (Some (t_sep t)) (nadd (Some xg) x) (nadd (Some yg) y) (t_r t) (t_sub t)) xv))).
    2:{ intros a _. rewrite <- mapR_rmap. apply mapR_ext. intros b _. apply masked_scale. assumption. }
    rewrite mapR_rmap. destruct (mapR _ yv) as [c|e]; cbn [rmap bind]; [|reflexivity]. rewrite map_map. rewrite (map_ext (fun x => map (fun _ => 1%Z) (map (option_map (Rmult k)) x)) (map (fun _ => 1%Z))) by (intros; apply map_map). apply opt2_scale. assumption.
  Qed.
  Lemma sep_step_scale : forall k img img' x y t b est, 0 < k -> brighter k img img' -> sep_step polyfit img' x y t b est = sep_step polyfit img x y t b est.
  Proof using.
    intros k img img' x y t b est K B. unfold sep_step. set (sv := offsets _ _ est).
    rewrite (mapR_ext _ (fun s => rmap (option_map (Rmult k)) (masked_flux img (t_rots t) s x y (t_r t) (t_sub t)))) by (intros; apply masked_scale; assumption).
    rewrite mapR_rmap. destruct (mapR _ sv) as [c|e]; cbn [rmap bind]; [|reflexivity]. rewrite argmax_scale, opt1_scale by assumption. reflexivity.
  Qed.
  Lemma star_scale : forall k img img' xg yg t, 0 < k -> brighter k img img' -> calc_star_location lstsq img' xg yg t = calc_star_location lstsq img xg yg t.
  Proof using.
    intros k img img' xg yg t K B. unfold calc_star_location. generalize (Some 0, Some 0) as est. generalize (t_iter t) as n. induction n as [|n IH]; intros est; [reflexivity|].
    cbn [star_loop]. rewrite (star_step_scale k img img' _ _ _ _ K B). destruct (star_step _ _ _ _ _ _) as [est'|e]; cbn [bind]; [apply IH|reflexivity].
  Qed.
  Lemma sep_scale : forall k img img' x y t, 0 < k -> brighter k img img' -> calc_spot_separation polyfit img' x y t = calc_spot_separation polyfit img x y t.
  Proof using.
    intros k img img' x y t K B. unfold calc_spot_separation. generalize (Some (t_sep t)) as est. generalize true as b. generalize (t_iter t) as n. induction n as [|n IH]; intros b est; [reflexivity|].
    cbn [sep_loop]. rewrite (sep_step_scale k img img' _ _ _ _ _ K B). destruct (sep_step _ _ _ _ _ _ _) as [est'|e]; cbn [bind]; [apply IH|reflexivity].
  Qed.
  (** Only the difference of the images matters, and not its scale. *)
  Theorem same_light : forall k ref sat ref' sat' g th off sp, 0 < k -> ny ref' = ny ref -> nx ref' = nx ref -> ny sat' = ny sat -> nx sat' = nx sat ->
    (forall i j, (i < ny sat)%nat -> (j < nx sat)%nat -> nsub (px sat' i j) (px ref' i j) = option_map (Rmult k) (nsub (px sat i j) (px ref i j))) ->
    star_center polyfit lstsq ref' sat' g th off sp = star_center polyfit lstsq ref sat g th off sp.
  Proof using.
    intros k ref sat ref' sat' g th off sp K E1 E2 E3 E4 H. unfold star_center. rewrite E1, E2, E3, E4. destruct (negb _); [reflexivity|].
    assert (B : brighter k (difference sat ref) (difference sat' ref')) by (split; [exact E3|split; [exact E4|exact H]]).
    rewrite (star_scale k _ _ _ _ _ K B). destruct (calc_star_location _ _ _ _ _) as [est|e]; cbn [bind]; [|reflexivity]. rewrite (sep_scale k _ _ _ _ _ K B). reflexivity.
  Qed.
End Top.
