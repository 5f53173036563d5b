(** Where the fits are sharp the star is found; what else the search does. *)
From Coq Require Import List Arith Bool Reals ZArith Lra Lia Psatz.
From Verif Require Import Base DqModel SpotModel SpotSpec SpotProofs SpotFitProofs SpotSearchProofs SpotTopProofs.
Import ListNotations.
Local Open Scope R_scope.

Lemma greatest_unique : forall l a b, greatest l a -> greatest l b -> a = b.
Proof. intros l a b (A1 & A2) (B1 & B2). apply Rle_antisym; [apply B2|apply A2]; assumption. Qed.
Lemma combine_self : forall {A B} (f : A -> B) l, combine l (map f l) = map (fun a => (a, f a)) l.
Proof. intros A B f l. induction l as [|a l IH]; [reflexivity|]. cbn [map combine]. f_equal. assumption. Qed.
Lemma sharp_closer : forall img v t xg yg e e', sharp img v t xg yg e e' -> closer img v t xg yg e e'.
Proof.
  intros img v t xg yg e e' (q & m & B & _ & M & NL & S). exists q. split; [assumption|]. assert (P : 0 < m * m) by nra. split; [|split; [|assumption]].
  - intros Z. apply NL. left. rewrite Z, Rabs_R0. apply Rmult_lt_0_compat; [|assumption]. lra.
  - intros Z. apply NL. right. rewrite Z, Rabs_R0. apply Rmult_lt_0_compat; [apply Rabs_pos_lt; assumption|]. apply Rinv_0_lt_compat. lra.
Qed.

Section Found.
  Variable polyfit : list num -> list num -> result (num * num * num).
  Variable lstsq : list (list num) -> list num -> result (list num).
  Hypothesis LS : least_squares lstsq.
  Hypothesis LP : least_parabola polyfit.

  Section Image.
    Variable img : image.
    Variable v : nat -> nat -> R.
    Hypothesis HV : holds img v.
    Variable t : tuning.
    Hypothesis MK : makes (nx img) (t_sub t).
    Hypothesis L3 : (3 <= t_steps t)%nat.
    Hypothesis N0 : t_step t <> 0.

    Lemma star_step_found : forall xg yg x y x' y', sharp img v t xg yg (x, y) (x', y') -> star_step lstsq img xg yg t (Some x, Some y) = Ok (Some x', Some y').
    Proof using LS HV MK L3 N0.
      intros xg yg x y x' y' SH. unfold star_step. cbn [fst snd]. rewrite !offsets_some. rewrite (costs_ok img v HV t MK). cbn [bind].
      set (f := fun x y => collected img v t (t_sep t) (xg + x) (yg + y)). change (map (fun y0 => map (fun x0 => collected img v t (t_sep t) (xg + x0) (yg + y0)) (grid t x)) (grid t y)) with (map (fun y0 => map (fun x0 => f x0 y0) (grid t x)) (grid t y)).
      set (a := map (fun y0 => map (fun x0 => f x0 y0) (grid t x)) (grid t y)).
      assert (TA : table (grid t x) (grid t y) a). { split; [apply map_length|]. apply Forall_forall. intros r I. apply in_map_iff in I. destruct I as (y0 & <- & _). apply map_length. }
      assert (CA : List.concat a = map (fun p => f (fst p) (snd p)) (mesh (grid t x) (grid t y))) by apply concat_mesh.
      rewrite map_map. rewrite (map_ext _ (map (fun _ => 1%Z))) by (intros r; apply map_map). rewrite (ones_eq a _ _ TA).
      set (ones := map (fun _ : R => map (fun _ : R => 1%Z) (grid t x)) (grid t y)).
      assert (TM : table (grid t x) (grid t y) ones). { split; [apply map_length|]. apply Forall_forall. intros r I. apply in_map_iff in I. destruct I as (y0 & <- & _). apply map_length. }
      assert (ZO : zero_one ones). { intros k I. right. apply in_concat in I. destruct I as (r & I & K). apply in_map_iff in I. destruct I as (y0 & <- & _). apply in_map_iff in K. destruct K as (x0 & <- & _). reflexivity. }
      assert (CL := sharp_closer _ _ _ _ _ _ _ SH). destruct SH as (q & m & B & G & M & NL & SQ). rewrite map_map in G. cbn [snd] in G.
      assert (G' : greatest (List.concat a) m) by (rewrite CA; exact G).
      destruct (opt2 lstsq LS (grid t x) (grid t y) a ones m TA TM ZO G' M) as (q' & B' & _ & F2). unfold a, ones in B'. rewrite (cells_all f) in B'.
      assert (E : q' = q).
      { eapply (unique2 (grid t x) (grid t y)); [|apply grid_three; assumption|apply grid_three; assumption|exact B'|exact B].
        intros x0 y0 X Y. rewrite map_map. cbn [fst]. rewrite map_id. apply in_flat_map. exists y0. split; [assumption|]. apply in_map_iff. exists x0. split; [reflexivity|assumption]. }
      subst q'. destruct (F2 NL) as (x0 & y0 & E0 & D1 & D2 & S). rewrite E0. f_equal.
      assert (U : (x0, y0) = (x', y')) by (apply (closer_unique img v t xg yg (x, y)); [assumption|assumption| |assumption]; exists q; auto). injection U as -> ->. reflexivity.
    Qed.
    Lemma star_loop_found : forall xg yg k e e', chain (sharp img v t xg yg) k e e' -> star_loop lstsq img xg yg t k (Some (fst e), Some (snd e)) = Ok (Some (fst e'), Some (snd e')).
    Proof using LS HV MK L3 N0.
      intros xg yg k e e' C. induction C as [e|k (a1, a2) (b1, b2) c S C IH]; [reflexivity|]. cbn [star_loop fst snd]. rewrite (star_step_found xg yg a1 a2 b1 b2 S). cbn [bind]. exact IH.
    Qed.
    Lemma sep_step_found : forall x y b s s', (b && Nat.ltb 1 (t_iter t))%bool = false -> sharp1 img v t x y s s' -> sep_step polyfit img (Some x) (Some y) t b (Some s) = Ok (Some s').
    Proof using LP HV MK L3 N0.
      intros x y b s s' B (a & b1 & c & m & BB & G & M & NL & Q). unfold sep_step. rewrite offsets_some, (seps_ok img v HV t MK). cbn [bind]. rewrite B. set (ys := map (fun s => collected img v t s x y) (grid t s)). rewrite map_map in G. cbn [snd] in G.
      destruct (opt1 polyfit LP (grid t s) ys m ltac:(unfold ys; rewrite map_length; reflexivity) G M) as (a' & b' & c' & B' & _ & F2). unfold ys in B'. rewrite combine_self in B'.
      assert (E : (a', b', c') = (a, b1, c)). { eapply unique1; [|exact B'|exact BB]. rewrite map_map. cbn [fst]. rewrite map_id. apply grid_three; assumption. }
      injection E as -> -> ->. destruct (F2 NL) as (s0 & E0 & A & Q0). rewrite E0. do 2 f_equal. apply Rmult_eq_reg_l with (2 * a); [lra|]. intros Z. apply A. lra.
    Qed.
    Lemma sep_loop_found : forall x y k s s', chain (sharp1 img v t x y) k s s' -> sep_loop polyfit img (Some x) (Some y) t k false (Some s) = Ok (Some s').
    Proof using LP HV MK L3 N0.
      intros x y k s s' C. induction C as [s|k a b c S C IH]; [reflexivity|]. cbn [sep_loop]. rewrite (sep_step_found x y false a b eq_refl S). cbn [bind]. exact IH.
    Qed.
    Lemma sep_first_found : forall x y s s', (1 < t_iter t)%nat -> brightest img v t x y s s' -> sep_step polyfit img (Some x) (Some y) t true (Some s) = Ok (Some s').
    Proof using HV MK L3.
      intros x y s s' L B. destruct (sep_step polyfit img (Some x) (Some y) t true (Some s)) as [r|e] eqn:E.
      - apply (sep_first polyfit img v HV t MK x y s r L) in E. destruct E as (s2 & -> & B2). do 2 f_equal. eapply brightest_unique; eassumption.
      - exfalso. unfold sep_step in E. rewrite offsets_some, (seps_ok img v HV t MK) in E. cbn [bind] in E. destruct (Nat.ltb_spec 1 (t_iter t)) as [_|H]; [|lia]. cbn [andb] in E.
        destruct (argmax_some (map (fun s => collected img v t s x y) (grid t s))) as (k & c & K & _). { intros Q. apply map_eq_nil in Q. revert Q. apply grid_nil. lia. } rewrite K in E. discriminate.
    Qed.
    Lemma sep_found : forall x y s, sharply img v t x y s -> calc_spot_separation polyfit img (Some x) (Some y) t = Ok (Some s).
    Proof using LP HV MK L3 N0.
      intros x y s. unfold sharply, calc_spot_separation. destruct (t_iter t) as [|[|k]] eqn:T.
      - intros ->. reflexivity.
      - intros H. cbn [sep_loop]. rewrite (sep_step_found x y true (t_sep t) s) by (rewrite ?T; auto). reflexivity.
      - intros (s1 & B & C). remember (S k) as k1 eqn:K. cbn [sep_loop]. rewrite (sep_first_found x y (t_sep t) s1) by (try lia; assumption). cbn [bind]. apply sep_loop_found. assumption.
    Qed.
  End Image.

  Theorem found : forall ref sat g th off sp v X Y s, ny ref = ny sat -> nx ref = nx sat -> holds (difference sat ref) v -> makes (nx sat) (t_sub off) -> makes (nx sat) (t_sub sp) ->
    (3 <= t_steps off)%nat -> t_step off <> 0 -> (3 <= t_steps sp)%nat -> t_step sp <> 0 ->
    chain (sharp (difference sat ref) v off (fst g - mid_x sat) (snd g - mid_y sat)) (t_iter off) (0, 0) (X - fst g, Y - snd g) ->
    sharply (difference sat ref) v sp (X - mid_x sat) (Y - mid_y sat) s ->
    star_center polyfit lstsq ref sat g th off sp = Ok ((Some X, Some Y), somes (spots_at (map (fun d => d + th) (t_rots sp)) s (X - mid_x sat) (Y - mid_y sat))).
  Proof using LS LP.
    intros ref sat (gx, gy) th off sp v X Y s E1 E2 HV M1 M2 L1 N1 L2 N2 C S. cbn [fst snd] in C. unfold star_center. rewrite E1, E2, !Nat.eqb_refl. cbn [andb negb fst snd]. fold (mid_x sat) (mid_y sat).
    unfold calc_star_location. pose proof (star_loop_found (difference sat ref) v HV off M1 L1 N1 _ _ _ _ _ C) as F. cbn [fst snd] in F. rewrite F. cbn [bind fst snd nadd lift2]. unfold nadd, lift2.
    replace (X - gx + (gx - mid_x sat)) with (X - mid_x sat) by ring. replace (Y - gy + (gy - mid_y sat)) with (Y - mid_y sat) by ring.
    rewrite (sep_found (difference sat ref) v HV sp M2 L2 N2 _ _ _ S). cbn [bind fst snd]. rewrite spots_some. do 3 f_equal; f_equal; ring.
  Qed.
End Found.

(** A dark star is found where a bright one would be. *)
Lemma light_neg : forall img v n r x y, light img (fun i j => - v i j) n r x y = - light img v n r x y.
Proof.
  intros img v n r x y. unfold light. induction (pixels (ny img) (nx img)) as [|p l IH]; cbn [map total fold_right]; [ring|]. unfold total in IH. rewrite IH. ring.
Qed.
Lemma collected_neg : forall img v t s x y, collected img (fun i j => - v i j) t s x y = - collected img v t s x y.
Proof.
  intros img v t s x y. unfold collected. induction (spots_at (t_rots t) s x y) as [|p l IH]; cbn [map total fold_right]; [ring|]. unfold total in IH. rewrite IH, light_neg. ring.
Qed.
Definition qneg (q : bowl) : bowl := Bowl (- qa q) (- qb q) (- qc q) (- qd q) (- qe q) (- qf q).
Lemma misfit_neg : forall pts q, misfit2 (map (fun p => (fst p, - snd p)) pts) (qneg q) = misfit2 pts q.
Proof.
  intros pts q. unfold misfit2. rewrite map_map. f_equal. apply map_ext. intros ((x, y), z). cbn [fst snd]. unfold paraboloid, qneg, Rsqr. cbn. ring.
Qed.
Lemma closer_neg : forall img v t xg yg e e', closer img v t xg yg e e' -> closer img (fun i j => - v i j) t xg yg e e'.
Proof.
  intros img v t xg yg e e' (q & B & D1 & D2 & S1 & S2). exists (qneg q). split; [|cbn; split; [intros Z; apply D1; lra|split; [intros Z; apply D2; lra|split; cbn; lra]]].
  intros q'. set (pts := map (fun p => (p, collected img v t (t_sep t) (xg + fst p) (yg + snd p))) (grid2 t (fst e) (snd e))) in *.
  assert (E : map (fun p => (p, collected img (fun i j => - v i j) t (t_sep t) (xg + fst p) (yg + snd p))) (grid2 t (fst e) (snd e)) = map (fun p => (fst p, - snd p)) pts).
  { unfold pts. rewrite map_map. apply map_ext. intros p. cbn [fst snd]. rewrite collected_neg. reflexivity. }
  rewrite E, misfit_neg. replace q' with (qneg (qneg q')) by (destruct q'; unfold qneg; cbn; f_equal; ring). rewrite misfit_neg. apply B.
Qed.
Lemma chain_map : forall {A} (R S : A -> A -> Prop), (forall a b, R a b -> S a b) -> forall n a b, chain R n a b -> chain S n a b.
Proof. intros A R S H n a b C. induction C; econstructor; eauto. Qed.
Lemma closer_image : forall img img' v t xg yg e e', ny img' = ny img -> nx img' = nx img -> closer img v t xg yg e e' -> closer img' v t xg yg e e'.
Proof. intros img img' v t xg yg e e' E1 E2 H. unfold closer, collected, light in *. rewrite E1, E2. exact H. Qed.
Theorem negative : forall polyfit lstsq, least_squares lstsq -> least_parabola polyfit -> lstsq_spoilt lstsq -> polyfit_spoilt polyfit ->
  forall ref sat ref' sat' g th off sp v X Y X' Y' l l', holds (difference sat ref) v -> holds (difference sat' ref') (fun i j => - v i j) -> ny sat' = ny sat -> nx sat' = nx sat ->
  makes (nx sat) (t_sub off) -> makes (nx sat) (t_sub sp) -> (3 <= t_steps off)%nat -> t_step off <> 0 ->
  star_center polyfit lstsq ref sat g th off sp = Ok ((Some X, Some Y), l) -> star_center polyfit lstsq ref' sat' g th off sp = Ok ((Some X', Some Y'), l') -> X' = X /\ Y' = Y.
Proof.
  intros polyfit lstsq LS LP SL SP ref sat ref' sat' g th off sp v X Y X' Y' l l' HV HV' E1 E2 M1 M2 L3 N0 S S'.
  destruct (whole polyfit lstsq LS LP SL SP _ _ _ _ _ _ _ _ _ _ HV M1 M2 S) as (_ & _ & C & _).
  destruct (whole polyfit lstsq LS LP SL SP _ _ _ _ _ _ _ _ _ _ HV' ltac:(rewrite E2; exact M1) ltac:(rewrite E2; exact M2) S') as (_ & _ & C' & _).
  unfold mid_x, mid_y in C'. rewrite E1, E2 in C'. fold (mid_x sat) (mid_y sat) in C'.
  assert (C2 : chain (closer (difference sat ref) (fun i j => - v i j) off (fst g - mid_x sat) (snd g - mid_y sat)) (t_iter off) (0, 0) (X' - fst g, Y' - snd g)).
  { eapply chain_map; [|exact C']. intros a b. apply closer_image; cbn; congruence. }
  apply (chain_map _ _ (closer_neg _ _ _ _ _)) in C.
  assert (U : (X - fst g, Y - snd g) = (X' - fst g, Y' - snd g)). { eapply chain_unique; [|exact C|exact C2]. intros a b c. apply closer_unique; assumption. }
  injection U as U1 U2. split; lra.
Qed.

(** Refusals. *)
Lemma mapR_first : forall {A B} (f : A -> result B) l e, l <> [] -> (forall a, f a = Raise e) -> mapR f l = Raise e.
Proof. intros A B f [|a l] e N H; [congruence|]. cbn [mapR]. rewrite H. reflexivity. Qed.
Theorem narrow : forall polyfit lstsq ref sat g th off sp, ny ref = ny sat -> nx ref = nx sat -> t_rots off <> [] -> t_steps off <> 0%nat -> t_iter off <> 0%nat -> ~ makes (nx sat) (t_sub off) ->
  star_center polyfit lstsq ref sat g th off sp = Raise (if (nx sat <? 2)%nat then IndexError else PyException).
Proof.
  intros polyfit lstsq ref sat g th off sp E1 E2 R S I M. unfold star_center. rewrite E1, E2, !Nat.eqb_refl. cbn [andb negb]. unfold calc_star_location. destruct (t_iter off) as [|k]; [congruence|]. cbn [star_loop]. unfold star_step.
  rewrite (mapR_first _ _ (if (nx sat <? 2)%nat then IndexError else PyException)); [reflexivity| |].
  - unfold offsets. destruct (t_steps off); [congruence|discriminate].
  - intros y. apply mapR_first; [unfold offsets; destruct (t_steps off); [congruence|discriminate]|]. intros x. unfold masked_flux.
    assert (Q : roi_mask (ny (difference sat ref)) (nx (difference sat ref)) (t_rots off) (Some (t_sep off)) (nadd (Some (fst g - INR (nx sat / 2))) x) (nadd (Some (snd g - INR (ny sat / 2))) y) (t_r off) (t_sub off) (fun _ _ => 0) = Raise (if (nx sat <? 2)%nat then IndexError else PyException)).
    { apply roi_refused. split; [assumption|]. cbn [nx difference]. destruct (Nat.ltb_spec (nx sat) 2) as [L|L]; [left; auto|]. right. unfold makes in M. split; [assumption|]. split; [lia|reflexivity]. }
    rewrite Q. reflexivity.
Qed.
Theorem no_steps : forall polyfit lstsq ref sat g th off sp, ny ref = ny sat -> nx ref = nx sat -> t_steps off = 0%nat -> t_iter off <> 0%nat ->
  star_center polyfit lstsq ref sat g th off sp = Raise ValueError.
Proof.
  intros polyfit lstsq ref sat g th off sp E1 E2 S I. unfold star_center. rewrite E1, E2, !Nat.eqb_refl. cbn [andb negb]. unfold calc_star_location. destruct (t_iter off) as [|k]; [congruence|]. cbn [star_loop]. unfold star_step, offsets. rewrite S. reflexivity.
Qed.
Theorem no_turn : forall polyfit lstsq ref sat g th off sp, ny ref = ny sat -> nx ref = nx sat -> t_iter off = 0%nat -> t_iter sp = 0%nat ->
  star_center polyfit lstsq ref sat g th off sp = Ok ((Some (fst g), Some (snd g)), somes (spots_at (map (fun d => d + th) (t_rots sp)) (t_sep sp) (fst g - mid_x sat) (snd g - mid_y sat))).
Proof.
  intros polyfit lstsq ref sat g th off sp E1 E2 I1 I2. unfold star_center. rewrite E1, E2, !Nat.eqb_refl. cbn [andb negb]. unfold calc_star_location, calc_spot_separation. rewrite I1, I2. cbn [star_loop sep_loop bind fst snd].
  unfold nadd at 1 2 3 4 5 6. cbn [lift2]. fold (mid_x sat) (mid_y sat). rewrite !Rplus_0_l, spots_some. do 3 f_equal; f_equal; ring.
Qed.
Lemma picked_length : forall {A} (a : list A) mask, length a = length mask -> length (picked a mask) = length (filter (fun k => negb (Z.eqb k 0)) mask).
Proof. intros A a. induction a as [|x a IH]; intros [|k mask] L; try discriminate; [reflexivity|]. cbn [picked filter]. injection L as L. destruct (Z.eqb k 0); cbn [negb length]; rewrite (IH mask L); reflexivity. Qed.
Lemma sum_fold : forall l a, fold_left Z.add l a = (a + fold_right Z.add 0 l)%Z.
Proof. induction l as [|x l IH]; intros a; cbn [fold_left fold_right]; [lia|]. rewrite IH. lia. Qed.
Theorem mask_refused : forall lstsq xs ys a mask, shape a = shape mask -> fold_right Z.add 0%Z (List.concat mask) <> (-1)%Z ->
  List.length (List.concat mask) = (List.length xs * List.length ys)%nat ->
  fold_right Z.add 0%Z (List.concat mask) <> Z.of_nat (List.length (filter (fun k => negb (Z.eqb k 0)) (List.concat mask))) ->
  find_optimum_2d lstsq xs ys a mask = Raise ValueError.
Proof.
  intros lstsq xs ys a mask E N L S. unfold find_optimum_2d. destruct (negb _); [reflexivity|]. destruct (negb _); [reflexivity|]. destruct (negb _); [reflexivity|]. destruct (nmax (concat a)) as [m|e] eqn:NM; cbn [bind].
  2:{ unfold nmax in NM. destruct (concat a); [congruence|discriminate]. }
  rewrite sum_fold, Z.add_0_l. rewrite picked_length.
  - destruct (Z.eqb_spec (fold_right Z.add 0%Z (concat mask)) (Z.of_nat (length (filter (fun k => negb (Z.eqb k 0)) (concat mask))))) as [Q|_]; [congruence|]. destruct (Z.eqb_spec (fold_right Z.add 0%Z (concat mask)) (-1)) as [Q|_]; [congruence|]. reflexivity.
  - rewrite L. clear. induction ys as [|y ys IH]; [cbn; lia|]. cbn [flat_map]. rewrite app_length, map_length, IH. cbn [length]. lia.
Qed.

(** The joint search. *)
Section Joint.
  Context {M : Type}.
  Variable minimize : (list num -> result num) -> list R -> list (R * R) -> M -> result (option (list R)).
  Theorem cost_ok : forall img v t x y s, holds img v -> makes (nx img) (t_sub t) -> cost_func_spots [Some x; Some y; Some s] (mkfixed img (t_rots t) (t_r t) (t_sub t)) = Ok (Some (- collected img v t s x y)).
  Proof using.
    intros img v t x y s HV MK. pose proof (light_ok img v t s x y HV MK) as L. unfold masked_flux in L. unfold cost_func_spots, roi_mask_for_spots. cbn [fx_img fx_rots fx_r fx_n]. destruct (roi_mask _ _ _ _ _ _ _ _ _) as [m|e]; cbn [bind] in *; [|discriminate]. injection L as ->. reflexivity.
  Qed.
  Theorem joint_missing : forall img xg yg t ot st me, ot = None \/ st = None \/ me = None -> joint minimize img xg yg t ot st me = Raise KeyError.
  Proof using. intros img xg yg t ot st me H. unfold joint. destruct ot; [|reflexivity]. destruct st; [|reflexivity]. destruct me; [|reflexivity]. destruct H as [H|[H|H]]; discriminate. Qed.
  Theorem joint_fails : forall img xg yg t ot st me, (forall f x0 bounds m, minimize f x0 bounds m = Ok None) -> joint minimize img xg yg t (Some ot) (Some st) (Some me) = Raise ValueError.
  Proof using. intros img xg yg t ot st me H. unfold joint. cbn [getkey bind]. rewrite H. reflexivity. Qed.
  Theorem joint_ok : no_worse minimize -> forall img v xg yg t ot st me a b c m, holds img v -> makes (nx img) (t_sub t) ->
    joint minimize img xg yg t (Some ot) (Some st) (Some me) = Ok ((a, b, c), m) ->
    Rabs (a - xg) <= ot /\ Rabs (b - yg) <= ot /\ Rabs (c - t_sep t) <= st /\ collected img v t (t_sep t) xg yg <= collected img v t c a b /\
    forall i j, (i < ny img)%nat -> (j < nx img)%nat -> m i j = total (map (fun p => coverage (t_sub t) (t_r t) (INR j - mid_x img - fst p) (INR i - mid_y img - snd p)) (spots_at (t_rots t) c a b)).
  Proof using.
    intros W img v xg yg t ot st me a b c m HV MK. unfold joint. cbn [getkey bind]. destruct (minimize _ _ _ me) as [[p|]|e] eqn:E; cbn [bind]; try discriminate. apply W in E. destruct E as ((LP & F) & C).
    destruct p as [|a0 [|b0 [|c0 [|]]]]; try discriminate. cbn [map].
    destruct (roi_mask_for_spots _ _) as [(f, m0)|e] eqn:RM; cbn [bind snd]; [|discriminate]. intros H. injection H as -> -> -> ->.
    inversion F as [|? ? F1 F']; subst. inversion F' as [|? ? F2 F'']; subst. inversion F'' as [|? ? F3 _]; subst. cbn [fst snd] in F1, F2, F3.
    split; [apply Rabs_le; lra|]. split; [apply Rabs_le; lra|]. split; [apply Rabs_le; lra|]. split.
    - cbn [map] in C. pose proof (C _ _ (cost_ok img v t xg yg (t_sep t) HV MK) (cost_ok img v t a b c HV MK)). lra.
    - intros i j I J. unfold roi_mask_for_spots in RM. cbn [fx_img fx_rots fx_r fx_n] in RM. destruct (roi_ok (ny img) (nx img) (t_rots t) c a b (t_r t) (t_sub t) MK (fun _ _ => 0)) as (m1 & E & Q). rewrite E in RM. cbn [bind] in RM. injection RM as _ ->. rewrite (Q i j I J). unfold mid_x, mid_y. ring.
  Qed.
End Joint.

(** Discs that lie over each other count twice. *)
Theorem overlap : exists rots r n m, roi_mask 3 3 rots (Some 0) (Some 0) (Some 0) r n (fun _ _ => 0) = Ok m /\ 1 < m 1%nat 1%nat.
Proof.
  destruct (roi_ok 3 3 [0] 0 0 0 10 1 ltac:(split; lia) (fun _ _ => 0)) as (m & E & Q). exists [0], 10, 1%nat, m. split; [exact E|]. rewrite Q by lia. cbn [spots_at flat_map map app fst snd total fold_right].
  assert (C : coverage 1 10 (INR 1 - INR (3 / 2) - 0) (INR 1 - INR (3 / 2) - 0) = 1). { apply inside_all; [lia|]. replace (INR 1 - INR (3 / 2) - 0) with 0 by (cbn; lra). rewrite Rmult_0_l, Rplus_0_l, sqrt_0. assert (S2 : sqrt 2 <= 2) by (rewrite <- (sqrt_Rsqr 2) at 2 by lra; apply sqrt_le_1_alt; unfold Rsqr; lra). lra. }
  replace (INR 1 - INR (3 / 2) - (0 + 0 * cos (0 * PI / 180))) with (INR 1 - INR (3 / 2) - 0) by ring. replace (INR 1 - INR (3 / 2) - (0 + 0 * sin (0 * PI / 180))) with (INR 1 - INR (3 / 2) - 0) by ring.
  replace (INR 1 - INR (3 / 2) - (0 - 0 * cos (0 * PI / 180))) with (INR 1 - INR (3 / 2) - 0) by ring. replace (INR 1 - INR (3 / 2) - (0 - 0 * sin (0 * PI / 180))) with (INR 1 - INR (3 / 2) - 0) by ring. rewrite C. lra.
Qed.
(** A saddle passes for an optimum. *)
Theorem saddle : forall lstsq, least_squares lstsq -> exists xs ys q x y, three xs /\ three ys /\
  find_optimum_2d lstsq (map Some xs) (map Some ys) (map (fun y => map (fun x => Some (paraboloid q x y)) xs) ys) (map (fun _ => map (fun _ => 1%Z) xs) ys) = Ok (Some x, Some y) /\
  (exists x' y', paraboloid q x y < paraboloid q x' y') /\ exists x' y', paraboloid q x' y' < paraboloid q x y.
Proof.
  intros lstsq LS. set (q := Bowl 1 0 (-1) 0 0 1). assert (T : three [-1; 0; 1]). { exists (-1), 0, 1. cbn. repeat split; auto; lra. }
  destruct (opt2_exact lstsq LS [-1; 0; 1] [-1; 0; 1] q 2 T T) as (x & y & E & S & U).
  - unfold q, paraboloid. cbn. split; [right; right; right; left; ring|]. intros x H. repeat destruct H as [<-|H]; try destruct H; lra.
  - lra.
  - unfold level2, q. cbn [qa qb qc]. intros [L|L].
    + replace (0 * 0 - 4 * 1 * -1) with 4 in L by ring. rewrite Rabs_pos_eq in L by lra. lra.
    + rewrite Rabs_left in L by lra. rewrite Rabs_pos_eq in L by lra. lra.
  - exists [-1; 0; 1], [-1; 0; 1], q, x, y. split; [assumption|]. split; [assumption|]. split; [exact E|].
    destruct (U 0 0) as (<- & <-). { unfold stationary, q. cbn. split; ring. }
    split; [exists 1, 0|exists 0, 1]; unfold paraboloid, q; cbn; lra.
Qed.
(** The spots are given about the middle of the image, not in its pixels. *)
Theorem about_middle : forall polyfit lstsq, exists ref sat g th off sp X Y, exists p1 p2 : R * R, star_center polyfit lstsq ref sat g th off sp = Ok ((Some X, Some Y), somes [p1; p2]) /\ (fst p1 + fst p2) / 2 <> X.
Proof.
  intros polyfit lstsq. set (im := mkimage 4 4 (fun _ _ => Some 0)). set (t := mktuning 1 1 [0] 1 3 1 0). destruct (spots_at (map (fun d => d + 0) [0]) 1 (2 - mid_x im) (2 - mid_y im)) as [|p1 [|p2 [|]]] eqn:E; try discriminate.
  exists im, im, (2, 2), 0, t, t, 2, 2, p1, p2. split.
  - rewrite no_turn by reflexivity. unfold t. cbn [t_rots t_sep fst snd]. rewrite E. reflexivity.
  - cbn in E. injection E as <- <-. cbn [fst]. unfold mid_x, im. cbn. lra.
Qed.
(** Without a guess the search begins in the middle of the image. *)
Theorem guess : forall sat, guess_or_centre None sat = (mid_x sat, mid_y sat) /\ forall g, guess_or_centre (Some g) sat = g.
Proof. intros sat. split; reflexivity. Qed.
