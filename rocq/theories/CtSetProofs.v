(** Proofs: transmissions, datasets, stamps and the product. *)
From Coq Require Import List Arith Bool Reals ZArith String Sorting Lia Lra FunctionalExtensionality.
From Verif Require Import Base CombineModel ComboSpec ComboProofs DqModel FindModel AngleSpec NearModel NearSpec NearProofs FlatModel FlatSpec FlatProofs FlatTopProofs FluxModel FluxSpec FluxProofs FluxBandProofs FluxTopProofs FluxRunProofs CtModel CtSpec CtProofs.
Import ListNotations.
Local Open Scope R_scope.

(** ** Files *)
Lemma filter_filter : forall A (a b : A -> bool) l, filter b (filter a l) = filter (fun x => a x && b x)%bool l.
Proof. induction l as [|x l IH]; [reflexivity|]. cbn [filter]. destruct (a x); cbn [andb filter]; rewrite IH; reflexivity. Qed.
Definition named (name ver n : string) : bool := (contains name n && contains ("v" ++ ver) n)%bool.
Lemma named_iff : forall name ver n, named name ver n = true <-> occurs name n /\ occurs ("v" ++ ver) n.
Proof. intros name ver n. unfold named. rewrite andb_true_iff, !contains_iff. reflexivity. Qed.
Lemma curve_file_iff : forall L name ver file, curve_file L name ver file <-> exists r, filter (named name ver) (l_dir L) = file :: r.
Proof.
  intros L name ver file. rewrite first_filter. unfold curve_file. split; intros (u & v & E & F & N); exists u, v; split; [exact E| |exact E|]; split.
  - apply named_iff; exact F.
  - intros y Y. specialize (N y Y). destruct (named name ver y) eqn:B; [apply named_iff in B; contradiction|reflexivity].
  - apply named_iff; exact F.
  - intros y Y K. apply named_iff in K. rewrite (N y Y) in K. discriminate.
Qed.
Lemma curve_file_one : forall L name ver f g, curve_file L name ver f -> curve_file L name ver g -> f = g.
Proof. intros L name ver f g A B. apply curve_file_iff in A. apply curve_file_iff in B. destruct A as (r & A). destruct B as (r' & B). rewrite A in B. injection B as -> _. reflexivity. Qed.
Lemma cfam_iff : forall L name ver c, get_cfam L name ver = Ok c <-> exists file m, curve_file L name ver file /\ vmax (map (fun p => Some (snd p)) (l_curve L file)) = Ok m
  /\ c = (map fst (l_curve L file), map (fun p => vdiv (Some (snd p)) m) (l_curve L file)).
Proof.
  intros L name ver c. unfold get_cfam. assert (E := filter_filter _ (contains name) (contains ("v" ++ ver)) (l_dir L)). fold (named name ver) in E. split.
  - intros H. destruct (filter (contains name) (l_dir L)) as [|n0 ns]; [discriminate|]. rewrite E in H. destruct (filter _ (l_dir L)) as [|file r] eqn:F; [discriminate|]. destruct (vmax _) as [m|] eqn:M; cbn [bind] in H; [|discriminate]. injection H as <-. exists file, m. split; [apply curve_file_iff; exists r; exact F|]. split; [exact M|reflexivity].
  - intros (file & m & F & M & ->). apply curve_file_iff in F. destruct F as (r & F). unfold named in E, F. rewrite F in E. destruct (filter (contains name) (l_dir L)) as [|n0 ns]; [discriminate|]. rewrite E, M. reflexivity.
Qed.

(** ** Lenses *)
Definition tenth (q : R * R) : R * R := (fst q / 10, snd q).
Lemma interp_tenth : forall l p x, inc (p :: l) -> interp (tenth p) (map tenth l) x = interp p l (10 * x).
Proof.
  induction l as [|q l IH]; intros p x I; [reflexivity|]. cbn [map interp tenth fst snd]. pose proof (inc_lt p q _ I (or_introl eq_refl)) as PQ.
  destruct (Rlt_dec x (fst q / 10)), (Rlt_dec (10 * x) (fst q)); try lra.
  - destruct (Rle_dec x (fst p / 10)), (Rle_dec (10 * x) (fst p)); try lra. field. lra.
  - apply IH. apply (inc_tail p). exact I.
Qed.
Lemma lens_iff : forall o q, lens o = Ok q <-> exists p t, o = Some (p :: t) /\ q = (tenth p, map tenth t).
Proof.
  intros [[|p t]|] q; cbn; (split; [intros H; try discriminate|intros (p' & t' & E & F); try discriminate]).
  - injection H as <-. exists p, t. auto.
  - injection E as -> ->. subst q. reflexivity.
Qed.
Lemma combine_fs : forall C : list (R * R), combine (map fst C) (map snd C) = C.
Proof. induction C as [|[a b] C IH]; [reflexivity|]. cbn. rewrite IH. reflexivity. Qed.
Definition weigh (g : R -> R) (C : list (R * R)) : R := fold_right Rplus 0 (map (fun p => g (fst p) * snd p) C).
Lemma through_scaled : forall (g : R -> R) (C : list (R * R)) x, x <> 0 ->
  vsum (map (fun wt => vmul (Some (g (fst wt))) (snd wt)) (combine (map fst C) (map (fun p => vdiv (Some (snd p)) (Some x)) C))) = Some (weigh g C / x).
Proof.
  intros g C x X. unfold weigh. induction C as [|[a b] C IH]; [cbn; f_equal; field; exact X|]. cbn [map combine fst snd vsum fold_right vdiv] in *. unfold vsum in IH. rewrite IH. destruct (Req_EM_T x 0); [contradiction|]. cbn [vmul vadd]. f_equal. field. exact X.
Qed.
Lemma through_zero : forall (g : R -> R) (C : list (R * R)), C <> [] -> vsum (map (fun wt => vmul (Some (g (fst wt))) (snd wt)) (combine (map fst C) (map (fun p => vdiv (Some (snd p)) (Some 0)) C))) = None.
Proof.
  intros g C N. apply vsum_none. destruct C as [|[a b] C]; [congruence|]. cbn [map combine fst snd vdiv]. destruct (Req_EM_T 0 0); [left; reflexivity|lra].
Qed.
Lemma lens_sum : forall i u (C : list (R * R)) x, inc (i :: u) -> C <> [] ->
  vsum (map (fun wt => vmul (Some (interp (tenth i) (map tenth u) (fst wt))) (snd wt)) (combine (map fst C) (map (fun p => vdiv (Some (snd p)) (Some x)) C)))
  = if Req_EM_T x 0 then None else Some (weigh (fun z => interp i u (10 * z)) C / x).
Proof.
  intros i u C x I N. destruct (Req_EM_T x 0) as [->|X]; [exact (through_zero (interp (tenth i) (map tenth u)) C N)|]. rewrite (through_scaled (interp (tenth i) (map tenth u)) C x X). do 2 f_equal. unfold weigh. f_equal. apply map_ext. intros q. rewrite interp_tenth by exact I. reflexivity.
Qed.
Lemma through_weigh : forall o p t w tt s, o = Some (p :: t) -> inc (p :: t) -> List.length w = List.length tt -> (through o w tt s <-> s = weigh (fun x => interp p t (10 * x)) (combine w tt)).
Proof.
  intros o p t w tt s -> I LE. unfold through, weigh.
  assert (F : forall vs, Forall2 (fun x v => interpolated (p :: t) (10 * x) v) w vs <-> vs = map (fun x => interp p t (10 * x)) w) by (intros vs; apply f2_map; intros x y; apply interp_iff; exact I).
  assert (S : fold_right Rplus 0 (times (map (fun x => interp p t (10 * x)) w) tt) = fold_right Rplus 0 (map (fun q => interp p t (10 * fst q) * snd q) (combine w tt))).
  { clear F. unfold times. revert tt LE. induction w as [|x w IH]; intros [|y tt] LE; try discriminate; [reflexivity|]. cbn [map combine fst snd fold_right]. rewrite IH by (injection LE as LE; exact LE). reflexivity. }
  split.
  - intros (lp & vs & E & V & ->). injection E as <-. apply F in V. subst vs. exact S.
  - intros ->. exists (p :: t), (map (fun x => interp p t (10 * x)) w). split; [reflexivity|]. split; [apply F; reflexivity|]. symmetry. exact S.
Qed.
Lemma interp_ext : forall (g h : R -> R) C, (forall x, g x = h x) -> weigh g C = weigh h C.
Proof. intros g h C E. unfold weigh. f_equal. apply map_ext. intros q. rewrite E. reflexivity. Qed.
Lemma ratio_iff : forall L name ver k, sorted_lenses L -> (di_over_pil L name ver = Ok k <-> lens_ratio L name ver k).
Proof.
  intros L name ver k SO. destruct (SO ver) as (SI & SP). unfold di_over_pil, lens_ratio. split.
  - destruct (lens (l_pupil L ver)) as [pp|] eqn:P; cbn [bind]; [|discriminate]. destruct (lens (l_imaging L ver)) as [ii|] eqn:I; cbn [bind]; [|discriminate]. destruct (get_cfam L name ver) as [c|] eqn:C; cbn [bind]; [|discriminate].
    apply lens_iff in P. destruct P as (p & t & P & ->). apply lens_iff in I. destruct I as (i & u & I & ->). apply cfam_iff in C. destruct C as (file & m & F & M & ->). intros H. apply (f_equal (fun r => match r with Ok z => z | Raise _ => None end)) in H. cbv beta iota in H. subst k. cbn [fst snd].
    set (C := l_curve L file) in *. assert (LE : List.length (map fst C) = List.length (map snd C)) by (rewrite !map_length; reflexivity).
    exists file, (map fst C), (map snd C). do 2 eexists. split; [exact F|]. split; [symmetry; apply combine_fs|]. split; [exact LE|]. split.
    { intros E. apply map_eq_nil in E. rewrite E in M. discriminate. }
    split; [apply (through_weigh _ i u _ _ _ I (SI _ I) LE); reflexivity|]. split; [apply (through_weigh _ p t _ _ _ P (SP _ P) LE); reflexivity|]. rewrite !combine_fs.
    assert (MC : exists x, m = Some x /\ most_of (map snd C) x). { apply vmax_cases in M. destruct M as [(N & _) | (xs & x & E & -> & MO)]; [apply in_map_iff in N; destruct N as (q & Q & _); discriminate|]. exists x. split; [reflexivity|]. replace (map snd C) with xs; [exact MO|]. rewrite <- (map_map snd Some) in E. symmetry. apply map_some_inj. exact E. }
    destruct MC as (x & -> & (IN & MX)). assert (CN : C <> []) by (intros E; rewrite E in IN; destruct IN). split.
    + intros (y & Y & NZ & MY). assert (x = y) by (apply Rle_antisym; [apply MY; exact IN|apply MX; exact Y]). subst y. cbv zeta. cbn [fst snd]. rewrite (lens_sum i u C x (SI _ I) CN), (lens_sum p t C x (SP _ P) CN). destruct (Req_EM_T x 0); [contradiction|]. set (a := weigh _ C). set (b := weigh _ C).
      cbn [vdiv quot]. destruct (Req_EM_T (b / x) 0) as [Z|Z], (Req_EM_T b 0) as [W|W]; [reflexivity| |exfalso; apply Z; rewrite W; field; exact NZ|f_equal; field; split; assumption]. exfalso. apply W. apply (Rmult_eq_reg_r (/ x)); [|apply Rinv_neq_0_compat; exact NZ]. unfold Rdiv in Z. lra.
    + intros (y & Y & -> & MY). assert (x = 0) by (apply Rle_antisym; [apply MY; exact IN|apply MX; exact Y]). subst x. cbv zeta. cbn [fst snd]. rewrite (lens_sum i u C 0 (SI _ I) CN). destruct (Req_EM_T 0 0); [reflexivity|lra].
  - intros (file & w & t & i & p & F & C & LE & NE & I & P & A & B). destruct I as (li & vi & EI & FI & SumI). destruct P as (lp & vp & EP & FP & SumP).
    destruct lp as [|p0 tp]; [destruct w as [|w0 w']; [congruence|]; inversion FP as [|? ? ? ? IP _]; subst; destruct (interpolated_none _ _ IP)|].
    destruct li as [|i0 ti]; [destruct w as [|w0 w']; [congruence|]; inversion FI as [|? ? ? ? II _]; subst; destruct (interpolated_none _ _ II)|].
    rewrite (proj2 (lens_iff (l_pupil L ver) (tenth p0, map tenth tp))) by (exists p0, tp; auto). rewrite (proj2 (lens_iff (l_imaging L ver) (tenth i0, map tenth ti))) by (exists i0, ti; auto). cbn [bind].
    assert (WI : i = weigh (fun x => interp i0 ti (10 * x)) (combine w t)) by (apply (through_weigh _ i0 ti w t i EI (SI _ EI) LE); exists (i0 :: ti), vi; auto).
    assert (WP : p = weigh (fun x => interp p0 tp (10 * x)) (combine w t)) by (apply (through_weigh _ p0 tp w t p EP (SP _ EP) LE); exists (p0 :: tp), vp; auto).
    assert (CN : l_curve L file <> []) by (rewrite C; apply combine_ne; [exact LE|exact NE]).
    assert (MX : exists x, vmax (map (fun q => Some (snd q)) (l_curve L file)) = Ok (Some x) /\ most_of t x).
    { rewrite C. replace (map (fun q : R * R => Some (snd q)) (combine w t)) with (map Some t) by (rewrite <- (map_map snd Some), snd_combine by exact LE; reflexivity). destruct t as [|t0 t]; [destruct w; [congruence|discriminate]|]. destruct (bigger_max t t0) as (x & E & IN & M). exists x. cbn [map vmax]. rewrite E. split; [reflexivity|split; assumption]. }
    destruct MX as (x & MX & MO). rewrite (proj2 (cfam_iff L name ver _) (ex_intro _ file (ex_intro _ (Some x) (conj F (conj MX eq_refl))))). cbn [bind fst snd]. rewrite C.
    destruct (Req_EM_T x 0) as [Z|Z].
    + rewrite (B (ex_intro _ x (conj (proj1 MO) (conj Z (proj2 MO))))). subst x. rewrite <- C, (lens_sum i0 ti _ 0 (SI _ EI) CN). destruct (Req_EM_T 0 0); [reflexivity|lra].
    + rewrite (A (ex_intro _ x (conj (proj1 MO) (conj Z (proj2 MO))))). f_equal. rewrite <- C, (lens_sum i0 ti _ x (SI _ EI) CN), (lens_sum p0 tp _ x (SP _ EP) CN), C. destruct (Req_EM_T x 0); [contradiction|]. rewrite <- WI, <- WP.
      cbn [vdiv quot]. destruct (Req_EM_T (p / x) 0) as [Y|Y], (Req_EM_T p 0) as [W|W]; [reflexivity| |exfalso; apply Y; rewrite W; field; exact Z|f_equal; field; split; assumption]. exfalso. apply W. apply (Rmult_eq_reg_r (/ x)); [|apply Rinv_neq_0_compat; exact Z]. unfold Rdiv in Y. lra.
Qed.
