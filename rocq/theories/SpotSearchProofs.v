(** The search of the star and of the separation of the spots. *)
From Coq Require Import List Arith Bool Reals ZArith Lra Lia Psatz.
From Verif Require Import Base DqModel SpotModel SpotSpec SpotProofs SpotFitProofs.
Import ListNotations.
Local Open Scope R_scope.

Lemma mapR_ok : forall {A B} (f : A -> result B) g l, (forall a, In a l -> f a = Ok (g a)) -> mapR f l = Ok (map g l).
Proof.
  intros A B f g l. induction l as [|a l IH]; intros H; [reflexivity|]. cbn [mapR map]. rewrite (H a (or_introl eq_refl)). cbn [bind]. rewrite IH by (intros; apply H; right; assumption). reflexivity.
Qed.
Lemma mapR_ext : forall {A B} (f g : A -> result B) l, (forall a, In a l -> f a = g a) -> mapR f l = mapR g l.
Proof.
  intros A B f g l. induction l as [|a l IH]; intros H; [reflexivity|]. cbn [mapR]. rewrite (H a (or_introl eq_refl)), IH by (intros; apply H; right; assumption). reflexivity.
Qed.
Lemma offsets_some : forall t c, offsets (t_steps t) (t_step t) (Some c) = map Some (grid t c).
Proof. intros t c. unfold offsets, grid. rewrite map_map. apply map_ext. intros k. unfold nadd, lift2. f_equal. ring. Qed.
Lemma offsets_none : forall n s, offsets n s None = map (fun _ => None) (seq 0 n).
Proof. intros n s. reflexivity. Qed.
Lemma grid_length : forall t c, length (grid t c) = t_steps t.
Proof. intros t c. unfold grid. rewrite map_length, seq_length. reflexivity. Qed.
Lemma grid_nil : forall t c, t_steps t <> 0%nat -> grid t c <> [].
Proof. intros t c H E. apply H. rewrite <- (grid_length t c), E. reflexivity. Qed.
Lemma grid_three : forall t c, (3 <= t_steps t)%nat -> t_step t <> 0 -> three (grid t c).
Proof.
  intros t c L N. set (g := fun k => c + (INR k - (INR (t_steps t) - 1) / 2) * t_step t). exists (g 0%nat), (g 1%nat), (g 2%nat).
  assert (I : forall k, (k < 3)%nat -> In (g k) (grid t c)) by (intros k K; unfold grid; apply in_map_iff; exists k; split; [reflexivity|]; apply in_seq; lia).
  assert (D : forall k l, INR k - INR l <> 0 -> g k <> g l).
  { intros k l H E. unfold g in E. assert (Q : (INR k - INR l) * t_step t = 0) by lra. apply Rmult_integral in Q. tauto. }
  repeat split; try (apply I; lia); apply D; cbn; lra.
Qed.
Lemma mesh_nil : forall xs ys, xs <> [] -> ys <> [] -> mesh xs ys <> [].
Proof. intros [|x xs] [|y ys] X Y; try congruence. discriminate. Qed.
Lemma concat_mesh : forall {A} (f : R -> R -> A) xs ys, List.concat (map (fun y => map (fun x => f x y) xs) ys) = map (fun p => f (fst p) (snd p)) (mesh xs ys).
Proof. intros A f xs ys. unfold mesh. rewrite flat_map_concat_map, concat_map, map_map. f_equal. apply map_ext. intros y. rewrite map_map. reflexivity. Qed.
Lemma cells_all : forall (f : R -> R -> R) xs ys, cells xs ys (map (fun y => map (fun x => f x y) xs) ys) (map (fun _ => map (fun _ => 1%Z) xs) ys) = map (fun p => (p, f (fst p) (snd p))) (mesh xs ys).
Proof.
  intros f xs ys. unfold cells. rewrite (concat_mesh f), (concat_mesh (fun _ _ => 1%Z)). generalize (mesh xs ys). intros l. induction l as [|p l IH]; [reflexivity|]. cbn [map combine filter snd Z.eqb Pos.eqb fst]. f_equal. exact IH.
Qed.

(** The first largest value. *)
Lemma argmax_from_some : forall l pre b ib, nth_error pre ib = Some b -> (forall k x, nth_error pre k = Some x -> x <= b /\ ((k < ib)%nat -> x < b)) ->
  exists k x, argmax_from (Some b) ib (length pre) (map Some l) = k /\ nth_error (pre ++ l) k = Some x /\ (forall j y, nth_error (pre ++ l) j = Some y -> y <= x /\ ((j < k)%nat -> y < x)).
Proof.
  induction l as [|z l IH]; intros pre b ib E H.
  - exists ib, b. cbn [map argmax_from]. rewrite app_nil_r. auto.
  - cbn [map argmax_from beats]. unfold rlt. assert (LI : (ib < length pre)%nat) by (apply nth_error_Some; rewrite E; discriminate).
    replace (pre ++ z :: l) with ((pre ++ [z]) ++ l) by (rewrite <- app_assoc; reflexivity).
    replace (S (length pre)) with (length (pre ++ [z])) by (rewrite app_length; cbn; lia).
    assert (SP : forall j y, nth_error (pre ++ [z]) j = Some y -> nth_error pre j = Some y \/ (j = length pre /\ y = z)).
    { intros j y J. destruct (lt_dec j (length pre)) as [L|L]; [left; rewrite nth_error_app1 in J by assumption; assumption|]. right. rewrite nth_error_app2 in J by lia. destruct (j - length pre)%nat as [|[|]] eqn:Q; cbn in J; try discriminate. injection J as <-. split; [lia|reflexivity]. }
    destruct (Rlt_dec b z) as [L|L].
    + apply IH; [rewrite nth_error_app2, Nat.sub_diag by lia; reflexivity|]. intros k x K. apply SP in K. destruct K as [K|(-> & ->)]; [destruct (H k x K); split; [lra|intros; lra]|split; [lra|lia]].
    + apply IH; [rewrite nth_error_app1 by assumption; assumption|]. intros k x K. apply SP in K. destruct K as [K|(-> & ->)]; [apply (H k x K)|split; [lra|lia]].
Qed.
Lemma argmax_some : forall l, l <> [] -> exists k x, argmax (map Some l) = Ok k /\ nth_error l k = Some x /\ forall j y, nth_error l j = Some y -> y <= x /\ ((j < k)%nat -> y < x).
Proof.
  intros [|a l] N; [congruence|]. cbn [map argmax]. destruct (argmax_from_some l [a] a 0%nat eq_refl) as (k & x & E & F & G).
  - intros k x K. destruct k as [|k]; [injection K as <-; split; [lra|lia]|destruct k; discriminate].
  - exists k, x. cbn [length] in E. rewrite E. auto.
Qed.

Section Search.
  Variable polyfit : list num -> list num -> result (num * num * num).
  Variable lstsq : list (list num) -> list num -> result (list num).
  Hypothesis LS : least_squares lstsq.
  Hypothesis LP : least_parabola polyfit.
  Hypothesis SL : lstsq_spoilt lstsq.
  Hypothesis SP : polyfit_spoilt polyfit.

  Section Image.
    Variable img : image.
    Variable v : nat -> nat -> R.
    Hypothesis HV : holds img v.
    Variable t : tuning.
    Hypothesis MK : makes (nx img) (t_sub t).

    Lemma costs_ok : forall xg yg x y,
      mapR (fun y => mapR (fun x => masked_flux img (t_rots t) (Some (t_sep t)) (nadd (Some xg) x) (nadd (Some yg) y) (t_r t) (t_sub t)) (map Some (grid t x))) (map Some (grid t y)) =
      Ok (map (map Some) (map (fun y => map (fun x => collected img v t (t_sep t) (xg + x) (yg + y)) (grid t x)) (grid t y))).
    Proof using HV MK.
      intros xg yg x y. rewrite (mapR_ok _ (fun y => match y with Some y => map (fun x => Some (collected img v t (t_sep t) (xg + x) (yg + y))) (grid t x) | None => [] end)).
      - f_equal. rewrite !map_map. apply map_ext. intros y0. rewrite map_map. reflexivity.
      - intros a A. apply in_map_iff in A. destruct A as (y0 & <- & _). rewrite (mapR_ok _ (fun x => match x with Some x => Some (collected img v t (t_sep t) (xg + x) (yg + y0)) | None => None end)).
        + rewrite map_map. reflexivity.
        + intros b B. apply in_map_iff in B. destruct B as (x0 & <- & _). unfold nadd, lift2. apply light_ok; assumption.
    Qed.
    Lemma ones_eq : forall {A} (l : list (list A)) xs ys, table xs ys l -> map (map (fun _ => 1%Z)) l = map (fun _ : R => map (fun _ : R => 1%Z) xs) ys.
    Proof using.
      intros A l xs ys (L & F). revert ys L. induction F as [|r l E F IH]; intros [|y ys] L; try discriminate; [reflexivity|]. cbn [map]. injection L as L. rewrite (IH ys L). f_equal.
      clear - E. revert xs E. induction r as [|a r IH]; intros [|x xs] E; try discriminate; [reflexivity|]. cbn [map]. injection E as E. rewrite (IH xs E). reflexivity.
    Qed.
    Lemma star_step_ok : forall xg yg x y x' y', star_step lstsq img xg yg t (Some x, Some y) = Ok (Some x', Some y') -> closer img v t xg yg (x, y) (x', y').
    Proof using LS SL HV MK.
      intros xg yg x y x' y'. unfold star_step. cbn [fst snd]. rewrite !offsets_some. rewrite costs_ok. cbn [bind].
      set (f := fun x y => collected img v t (t_sep t) (xg + x) (yg + y)). change (map (fun y0 => map (fun x0 => collected img v t (t_sep t) (xg + x0) (yg + y0)) (grid t x)) (grid t y)) with (map (fun y0 => map (fun x0 => f x0 y0) (grid t x)) (grid t y)).
      set (a := map (fun y0 => map (fun x0 => f x0 y0) (grid t x)) (grid t y)).
      assert (TA : table (grid t x) (grid t y) a). { split; [apply map_length|]. apply Forall_forall. intros r I. apply in_map_iff in I. destruct I as (y0 & <- & _). apply map_length. }
      destruct (Nat.eq_dec (t_steps t) 0) as [Z0|NZ].
      { intros E. rewrite opt2_shape in E; [discriminate|]. right. right. unfold a. assert (G0 : grid t y = []) by (unfold grid; rewrite Z0; reflexivity). rewrite G0. reflexivity. }
      assert (CA : List.concat a = map (fun p => f (fst p) (snd p)) (mesh (grid t x) (grid t y))) by apply concat_mesh.
      destruct (greatest_ex (List.concat a)) as (m & G). { rewrite CA. intros E. apply map_eq_nil in E. revert E. apply mesh_nil; apply grid_nil; assumption. }
      destruct (Req_EM_T m 0) as [->|M].
      { intros E. apply opt2_spoilt in E; [discriminate|assumption|]. right. exists (List.concat a). split; [symmetry; apply concat_map|assumption]. }
      rewrite map_map. rewrite (map_ext _ (map (fun _ => 1%Z))) by (intros r; apply map_map). rewrite (ones_eq a _ _ TA).
      set (ones := map (fun _ : R => map (fun _ : R => 1%Z) (grid t x)) (grid t y)).
      assert (TM : table (grid t x) (grid t y) ones). { split; [apply map_length|]. apply Forall_forall. intros r I. apply in_map_iff in I. destruct I as (y0 & <- & _). apply map_length. }
      assert (ZO : zero_one ones). { intros k I. right. apply in_concat in I. destruct I as (r & I & K). apply in_map_iff in I. destruct I as (y0 & <- & _). apply in_map_iff in K. destruct K as (x0 & <- & _). reflexivity. }
      destruct (opt2 lstsq LS (grid t x) (grid t y) a ones m TA TM ZO G M) as (q & B & F1 & F2).
      intros E. exists q. unfold a, ones in B. rewrite (cells_all f) in B. split; [exact B|].
      assert (NL : ~ level2 m q) by (intros L; rewrite (F1 L) in E; discriminate). destruct (F2 NL) as (x0 & y0 & E0 & D1 & D2 & S). rewrite E0 in E. injection E as <- <-. auto.
    Qed.
    (** A spoilt estimate stays so. *)
    Lemma star_step_spoilt : forall xg yg est r, fst est = None \/ snd est = None -> star_step lstsq img xg yg t est = Ok r -> r = (None, None).
    Proof using SL HV MK.
      intros xg yg (x, y) r H. cbn [fst snd] in H. unfold star_step. cbn [fst snd].
      set (xv := offsets _ _ x). set (yv := offsets _ _ y).
      assert (D : forall a b, In a yv -> In b xv -> masked_flux img (t_rots t) (Some (t_sep t)) (nadd (Some xg) b) (nadd (Some yg) a) (t_r t) (t_sub t) = Ok (Some 0)).
      { intros a b A B. apply light_dark with v; try assumption. right. destruct H as [->| ->]; [left; unfold xv in B; apply in_map_iff in B; destruct B as (k & <- & _)|right; unfold yv in A; apply in_map_iff in A; destruct A as (k & <- & _)]; reflexivity. }
      rewrite (mapR_ok _ (fun _ => map (fun _ => Some 0) xv)). 2:{ intros a A. rewrite (mapR_ok _ (fun _ => Some 0)); [reflexivity|]. intros b B. apply D; assumption. }
      cbn [bind]. destruct (Nat.eq_dec (t_steps t) 0) as [Z0|NZ].
      { intros E. rewrite opt2_shape in E; [discriminate|]. right. right. unfold yv, offsets. rewrite Z0. reflexivity. }
      intros E. apply opt2_spoilt in E; [assumption|assumption|]. right.
      assert (NY : yv <> []) by (unfold yv, offsets; destruct (t_steps t); [congruence|discriminate]). assert (NX : xv <> []) by (unfold xv, offsets; destruct (t_steps t); [congruence|discriminate]).
      exists (List.concat (map (fun _ => map (fun _ => 0) xv) yv)). split.
      - rewrite concat_map, map_map. f_equal. apply map_ext. intros _. rewrite map_map. reflexivity.
      - split; [destruct yv as [|y0 yv0], xv as [|x0 xv0]; try congruence; left; reflexivity|]. intros z I. apply in_concat in I. destruct I as (l & L & I). apply in_map_iff in L. destruct L as (y0 & <- & _). apply in_map_iff in I. destruct I as (x0 & <- & _). lra.
    Qed.
    Lemma star_both : forall xg yg est r, star_step lstsq img xg yg t est = Ok r -> r = (None, None) \/ exists x y, r = (Some x, Some y).
    Proof using.
      intros xg yg est r. unfold star_step. destruct (mapR _ _) as [costs|e]; cbn [bind]; [|discriminate]. unfold find_optimum_2d.
      destruct (negb _); [discriminate|]. destruct (negb _); [discriminate|]. destruct (negb _); [discriminate|]. destruct (nmax _) as [m|e]; cbn [bind]; [|discriminate]. destruct (negb _); [discriminate|]. destruct (lstsq _ _) as [c|e]; cbn [bind]; [|discriminate].
      destruct c as [|c1 [|c2 [|c3 [|c4 [|c5 c]]]]]; try discriminate. destruct (nlt (nabs (nsub _ _)) _ || _) eqn:K; [discriminate|]. intros E. injection E as <-.
      destruct c1 as [a|], c2 as [b|], c3 as [cc|], c4 as [d|], c5 as [e|]; unfold nmul, nsub, nadd, nopp; cbn [lift2 option_map ndiv]; try (left; reflexivity); try (destruct (Req_EM_T _ _); left; reflexivity).
      destruct (Req_EM_T (b * b - 4 * a * cc) 0) as [Q|Q]; cbn [lift2 option_map ndiv]; [left; reflexivity|]. destruct (Req_EM_T (2 * cc) 0) as [Q2|Q2]; [|right; eexists; eexists; reflexivity].
      exfalso. apply orb_false_iff in K. destruct K as (_ & K). unfold nmul, nabs, nlt in K. cbn [lift2 option_map] in K. rewrite Q2, Rabs_R0 in K. destruct (Rlt_dec 0 (2 * resolution)) as [|N]; [discriminate|]. apply N. pose proof res_pos. lra.
    Qed.
    Lemma star_loop_spoilt : forall xg yg k est r, est = (None, None) -> star_loop lstsq img xg yg t k est = Ok r -> r = (None, None).
    Proof using SL HV MK.
      intros xg yg k. induction k as [|k IH]; intros est r E; cbn [star_loop]; [intros H; injection H as <-; assumption|]. destruct (star_step _ _ _ _ _ est) as [est'|e] eqn:S; cbn [bind]; [|discriminate].
      apply star_step_spoilt in S; [|left; rewrite E; reflexivity]. apply IH. assumption.
    Qed.
    Lemma star_loop_ok : forall xg yg k x y x' y', star_loop lstsq img xg yg t k (Some x, Some y) = Ok (Some x', Some y') -> chain (closer img v t xg yg) k (x, y) (x', y').
    Proof using LS SL HV MK.
      intros xg yg k. induction k as [|k IH]; intros x y x' y'; cbn [star_loop]; [intros H; injection H as <- <-; constructor|]. destruct (star_step _ _ _ _ _ _) as [est'|e] eqn:S; cbn [bind]; [|discriminate]. intros H.
      destruct (star_both _ _ _ _ S) as [->|(x1 & y1 & ->)].
      - exfalso. apply star_loop_spoilt in H; [discriminate|reflexivity].
      - econstructor; [apply star_step_ok; eassumption|]. apply IH. assumption.
    Qed.
    Theorem star_ok : forall xg yg X Y, calc_star_location lstsq img xg yg t = Ok (Some X, Some Y) -> chain (closer img v t xg yg) (t_iter t) (0, 0) (X - xg, Y - yg).
    Proof using LS SL HV MK.
      intros xg yg X Y. unfold calc_star_location. destruct (star_loop _ _ _ _ _ _ _) as [(x, y)|e] eqn:E; cbn [bind fst snd]; [|discriminate].
      destruct x as [x|], y as [y|]; try discriminate; unfold nadd, lift2; intros H; injection H as <- <-. replace (x + xg - xg) with x by ring. replace (y + yg - yg) with y by ring. apply star_loop_ok. assumption.
    Qed.

    (** The separation. *)
    Lemma seps_ok : forall x y s, mapR (fun s => masked_flux img (t_rots t) s (Some x) (Some y) (t_r t) (t_sub t)) (map Some (grid t s)) = Ok (map Some (map (fun s => collected img v t s x y) (grid t s))).
    Proof using HV MK.
      intros x y s. rewrite (mapR_ok _ (fun s => match s with Some s => Some (collected img v t s x y) | None => None end)).
      - rewrite !map_map. reflexivity.
      - intros a A. apply in_map_iff in A. destruct A as (s0 & <- & _). apply light_ok; assumption.
    Qed.
    Lemma sep_first : forall x y s r, (1 < t_iter t)%nat -> sep_step polyfit img (Some x) (Some y) t true (Some s) = Ok r -> exists s', r = Some s' /\ brightest img v t x y s s'.
    Proof using HV MK.
      intros x y s r L. unfold sep_step. rewrite offsets_some, seps_ok. cbn [bind]. destruct (Nat.ltb_spec 1 (t_iter t)) as [_|H]; [|lia]. cbn [andb].
      destruct (Nat.eq_dec (t_steps t) 0) as [Z0|NZ]. { unfold grid. rewrite Z0. cbn. discriminate. }
      destruct (argmax_some (map (fun s => collected img v t s x y) (grid t s))) as (k & c & -> & E & F). { intros E. apply map_eq_nil in E. revert E. apply grid_nil. assumption. }
      cbn [bind]. rewrite nth_error_map in E. destruct (nth_error (grid t s) k) as [s'|] eqn:K; [|discriminate]. cbn [option_map] in E. injection E as <-.
      intros H. injection H as <-. exists s'. assert (LK : (k < t_steps t)%nat) by (rewrite <- (grid_length t s); apply nth_error_Some; rewrite K; discriminate).
      split; [apply nth_error_nth; rewrite nth_error_map, K; reflexivity|]. exists k. split; [assumption|]. split; [symmetry; apply nth_error_nth; assumption|]. split.
      - intros s0 I. apply In_nth_error in I. destruct I as (j & J). apply (F j). rewrite nth_error_map, J. reflexivity.
      - intros l Hl. apply (F l); [|assumption]. rewrite nth_error_map. rewrite (nth_error_nth' (grid t s) 0) by (rewrite grid_length; lia). reflexivity.
    Qed.
    Lemma sep_fit : forall x y b s s', (b && Nat.ltb 1 (t_iter t))%bool = false -> sep_step polyfit img (Some x) (Some y) t b (Some s) = Ok (Some s') -> closer1 img v t x y s s'.
    Proof using LP SP HV MK.
      intros x y b s s' B. unfold sep_step. rewrite offsets_some, seps_ok. cbn [bind]. rewrite B. set (ys := map (fun s => collected img v t s x y) (grid t s)).
      destruct (Nat.eq_dec (t_steps t) 0) as [Z0|NZ]. { intros E. rewrite opt1_shape in E; [discriminate|]. right. unfold ys, grid. rewrite Z0. reflexivity. }
      destruct (greatest_ex ys) as (m & G). { unfold ys. intros E. apply map_eq_nil in E. revert E. apply grid_nil. assumption. }
      destruct (Req_EM_T m 0) as [->|M]. { intros E. apply opt1_spoilt in E; [discriminate|assumption|]. right. exists ys. auto. }
      intros E. destruct (opt1 polyfit LP (grid t s) ys m ltac:(unfold ys; rewrite map_length; reflexivity) G M) as (a & b0 & c & BB & F1 & F2).
      exists a, b0, c. split.
      - replace (map (fun s0 => (s0, collected img v t s0 x y)) (grid t s)) with (combine (grid t s) ys); [assumption|]. unfold ys. clear. induction (grid t s) as [|g l IH]; [reflexivity|]. cbn [map combine]. f_equal. assumption.
      - assert (N : ~ level1 m a) by (intros L; rewrite (F1 L) in E; discriminate). destruct (F2 N) as (s0 & E0 & A & Q). rewrite E0 in E. injection E as <-. auto.
    Qed.
    Lemma sep_step_spoilt : forall xo yo b s r, xo = None \/ yo = None \/ s = None -> (b && Nat.ltb 1 (t_iter t))%bool = false -> sep_step polyfit img xo yo t b s = Ok r -> r = None.
    Proof using SP HV MK.
      intros xo yo b s r H B. unfold sep_step. set (sv := offsets _ _ s).
      assert (D : forall a, In a sv -> masked_flux img (t_rots t) a xo yo (t_r t) (t_sub t) = Ok (Some 0)).
      { intros a A. apply light_dark with v; try assumption. destruct H as [->|[->| ->]]; [right; left; reflexivity|right; right; reflexivity|]. left. unfold sv in A. apply in_map_iff in A. destruct A as (k & <- & _). reflexivity. }
      rewrite (mapR_ok _ (fun _ => Some 0)) by assumption. cbn [bind]. rewrite B. destruct (Nat.eq_dec (t_steps t) 0) as [Z0|NZ].
      { intros E. rewrite opt1_shape in E; [discriminate|]. right. unfold sv, offsets. rewrite Z0. reflexivity. }
      intros E. apply opt1_spoilt in E; [assumption|assumption|]. right. exists (map (fun _ => 0) sv). split; [rewrite map_map; reflexivity|]. assert (NS : sv <> []) by (unfold sv, offsets; destruct (t_steps t); [congruence|discriminate]).
      split; [destruct sv; [congruence|left; reflexivity]|]. intros z I. apply in_map_iff in I. destruct I as (x0 & <- & _). lra.
    Qed.
    Lemma sep_loop_none : forall xo yo k r, sep_loop polyfit img xo yo t k false None = Ok r -> r = None.
    Proof using SP HV MK.
      intros xo yo k. induction k as [|k IH]; intros r; cbn [sep_loop]; [intros H; injection H as <-; reflexivity|]. destruct (sep_step _ _ _ _ _ _ _) as [s'|e] eqn:E; cbn [bind]; [|discriminate].
      apply sep_step_spoilt in E; [subst s'; apply IH|auto|reflexivity].
    Qed.
    Lemma sep_loop_ok : forall x y k s s', sep_loop polyfit img (Some x) (Some y) t k false (Some s) = Ok (Some s') -> chain (closer1 img v t x y) k s s'.
    Proof using LP SP HV MK.
      intros x y k. induction k as [|k IH]; intros s s'; cbn [sep_loop]; [intros H; injection H as <-; constructor|]. destruct (sep_step _ _ _ _ _ _ _) as [[s1|]|e] eqn:E; cbn [bind]; [| |discriminate].
      - intros H. econstructor; [apply sep_fit with false; [reflexivity|eassumption]|]. apply IH. assumption.
      - intros H. apply sep_loop_none in H. discriminate.
    Qed.
    Theorem sep_ok : forall x y s, calc_spot_separation polyfit img (Some x) (Some y) t = Ok (Some s) -> separated img v t x y s.
    Proof using LP SP HV MK.
      intros x y s. unfold calc_spot_separation, separated. destruct (t_iter t) as [|[|k]] eqn:T.
      - cbn. intros H. injection H as <-. reflexivity.
      - cbn [sep_loop]. destruct (sep_step _ _ _ _ _ _ _) as [s1|e] eqn:E; cbn [bind]; [|discriminate]. intros H. injection H as ->. apply sep_fit with true; [rewrite T; reflexivity|assumption].
      - remember (S k) as k1 eqn:K. cbn [sep_loop]. destruct (sep_step _ _ _ _ _ _ _) as [s1|e] eqn:E; cbn [bind]; [|discriminate]. apply sep_first in E; [|lia]. destruct E as (s2 & -> & B). intros H. exists s2. split; [assumption|]. apply sep_loop_ok. assumption.
    Qed.
  End Image.
End Search.

(** Nothing else can come out. *)
Theorem closer_unique : forall img v t xg yg e e1 e2, (3 <= t_steps t)%nat -> t_step t <> 0 -> closer img v t xg yg e e1 -> closer img v t xg yg e e2 -> e1 = e2.
Proof.
  intros img v t xg yg e (x1, y1) (x2, y2) L N (q & B & D & D2 & (S1 & S2)) (q' & B' & _ & _ & (S3 & S4)). cbn [fst snd] in *.
  assert (E : q' = q).
  { apply unique2 with (grid t (fst e)) (grid t (snd e)) (map (fun p => (p, collected img v t (t_sep t) (xg + fst p) (yg + snd p))) (grid2 t (fst e) (snd e))); try assumption; try (apply grid_three; assumption).
    intros x y X Y. rewrite map_map. cbn [fst]. rewrite map_id. apply in_flat_map. exists y. split; [assumption|]. apply in_map_iff. exists x. split; [reflexivity|assumption]. }
  subst q'.
  assert (E1 : 2 * qa q * (x1 - x2) + qb q * (y1 - y2) = 0) by lra. assert (E2 : qb q * (x1 - x2) + 2 * qc q * (y1 - y2) = 0) by lra.
  assert (X : x1 - x2 = 0). { apply Rmult_eq_reg_l with (qb q * qb q - 4 * qa q * qc q); [|assumption]. replace ((qb q * qb q - 4 * qa q * qc q) * (x1 - x2)) with (qb q * (qb q * (x1 - x2) + 2 * qc q * (y1 - y2)) - 2 * qc q * (2 * qa q * (x1 - x2) + qb q * (y1 - y2))) by ring. rewrite E1, E2. ring. }
  assert (Y : y1 - y2 = 0). { apply Rmult_eq_reg_l with (2 * qc q); [|lra]. rewrite X in E2. lra. } f_equal; lra.
Qed.
Lemma chain_unique : forall {A} (R : A -> A -> Prop), (forall a b c, R a b -> R a c -> b = c) -> forall n a b c, chain R n a b -> chain R n a c -> b = c.
Proof.
  intros A R H n a b c C. revert c. induction C as [a|n a b c E C IH]; intros d D; inversion D; subst; [reflexivity|]. match goal with K : R a ?b' |- _ => assert (b' = b) by (apply H with a; assumption); subst b' end. apply IH. assumption.
Qed.
Theorem closer1_unique : forall img v t x y s s1 s2, (3 <= t_steps t)%nat -> t_step t <> 0 -> closer1 img v t x y s s1 -> closer1 img v t x y s s2 -> s1 = s2.
Proof.
  intros img v t x y s s1 s2 L N (a & b & c & B & A & E) (a' & b' & c' & B' & A' & E').
  assert (Q : (a', b', c') = (a, b, c)). { apply unique1 with (map (fun s => (s, collected img v t s x y)) (grid t s)); try assumption. rewrite map_map. cbn [fst]. rewrite map_id. apply grid_three; assumption. }
  injection Q as -> -> ->. apply Rmult_eq_reg_l with (2 * a); [lra|]. intros Z. apply A. lra.
Qed.
Lemma brightest_unique : forall img v t x y s s1 s2, brightest img v t x y s s1 -> brightest img v t x y s s2 -> s1 = s2.
Proof.
  intros img v t x y s s1 s2 (k & K & E & G & F) (k' & K' & E' & G' & F'). assert (I1 : In s1 (grid t s)) by (rewrite E; apply nth_In; rewrite grid_length; assumption). assert (I2 : In s2 (grid t s)) by (rewrite E'; apply nth_In; rewrite grid_length; assumption).
  specialize (G s2 I2). specialize (G' s1 I1). destruct (lt_eq_lt_dec k k') as [[L|L]|L].
  - specialize (F' k L). rewrite <- E in F'. lra.
  - subst k'. congruence.
  - specialize (F k' L). rewrite <- E' in F. lra.
Qed.
Theorem separated_unique : forall img v t x y s1 s2, (3 <= t_steps t)%nat -> t_step t <> 0 -> separated img v t x y s1 -> separated img v t x y s2 -> s1 = s2.
Proof.
  intros img v t x y s1 s2 L N. unfold separated. destruct (t_iter t) as [|[|k]]; [congruence|apply closer1_unique; assumption|].
  intros (a & A1 & A2) (b & B1 & B2). assert (a = b) by (eapply brightest_unique; eassumption). subst b. eapply chain_unique; [|eassumption|eassumption]. intros u w z. apply closer1_unique; assumption.
Qed.
