(** Proofs about the master darks, part 2: build_trad_dark. *)
From Coq Require Import List Arith Bool QArith ZArith String Reals Qreals Lia Lqa Lra.
From Verif Require Import Base FloatModel CosmicModel DqModel GeomModel GeomSpec GeomProofs DarkModel DarkSpec DarkProofs.
Import ListNotations.
Local Open Scope list_scope.
Local Open Scope nat_scope.

(** * Keys *)
Lemma key_of_ok : forall h t c k, has_key h t c k -> exists x, key_of h = Ok x /\ keyeq x (t, c, k) = true.
Proof.
  intros h t c k (t' & c' & k' & E1 & E2 & E3 & Q1 & Q2 & Q3). exists (t', c', k'). unfold key_of. rewrite E1, E2, E3. cbn.
  split; [reflexivity|]. unfold keyeq. cbn. apply andb_true_iff. split; [apply andb_true_iff; split|]; apply Qeq_bool_iff; assumption.
Qed.
Lemma keyeq_iff : forall a b, keyeq a b = true <-> (fst (fst a) == fst (fst b) /\ snd (fst a) == snd (fst b) /\ snd a == snd b)%Q.
Proof. intros a b. unfold keyeq. rewrite !andb_true_iff, !Qeq_bool_iff. tauto. Qed.

Lemma unique_key_ok : forall t c k fs, fs <> [] -> Forall (fun f => has_key (k_hdr f) t c k) fs ->
  exists x, unique_key fs = Ok (Some x) /\ keyeq x (t, c, k) = true.
Proof.
  intros t c k fs NE F. unfold unique_key.
  assert (H : exists ks, mapR (fun f => key_of (k_hdr f)) fs = Ok ks /\ Forall (fun x => keyeq x (t, c, k) = true) ks /\ List.length ks = List.length fs).
  { clear NE. induction F as [|f l Hf F IH].
    - exists []. split; [reflexivity|]. split; [constructor|reflexivity].
    - destruct IH as (ks & E & Fk & L). destruct (key_of_ok _ _ _ _ Hf) as (x & Ex & Kx). exists (x :: ks). cbn. rewrite Ex. cbn. rewrite E. cbn.
      split; [reflexivity|]. split; [constructor; assumption|cbn; lia]. }
  destruct H as (ks & E & Fk & L). rewrite E. cbn [bind]. destruct ks as [|x l]; [destruct fs; [contradiction|discriminate L]|].
  inversion Fk as [|x' l' Kx Fl]; subst. exists x. split; [|exact Kx].
  replace (forallb (keyeq x) l) with true; [reflexivity|]. symmetry. apply forallb_forall. intros y I.
  assert (Ky := proj1 (Forall_forall _ _) Fl y I). cbn beta in Ky.
  apply (proj1 (keyeq_iff _ _)) in Kx. apply (proj1 (keyeq_iff _ _)) in Ky. apply keyeq_iff.
  destruct Kx as (A1 & A2 & A3), Ky as (B1 & B2 & B3). split; [rewrite A1, B1; reflexivity|]. split; [rewrite A2, B2; reflexivity|rewrite A3, B3; reflexivity].
Qed.

(** Frames with different keys, or a missing card, are refused. *)
Lemma unique_key_ok_inv : forall fs x, unique_key fs = Ok (Some x) -> Forall (fun f => has_key (k_hdr f) (fst (fst x)) (snd (fst x)) (snd x)) fs.
Proof.
  intros fs x E. unfold unique_key in E.
  assert (H : forall l ks, mapR (fun f => key_of (k_hdr f)) l = Ok ks -> forall y, Forall (fun z => keyeq y z = true) ks ->
     Forall (fun f => has_key (k_hdr f) (fst (fst y)) (snd (fst y)) (snd y)) l).
  { induction l as [|f l IH]; intros ks El y Fy; [constructor|]. cbn in El.
    destruct (key_of (k_hdr f)) as [z|] eqn:Ez; cbn in El; [|discriminate]. destruct (mapR _ l) as [zs|] eqn:Ezs; cbn in El; [|discriminate].
    injection El as <-. inversion Fy as [|z' zs' Kz Fz]; subst. constructor; [|exact (IH zs eq_refl y Fz)].
    unfold key_of in Ez. destruct (h_t (k_hdr f)) as [t|] eqn:E1; cbn in Ez; [|discriminate]. destruct (h_gc (h_cr (k_hdr f))) as [c|] eqn:E2; cbn in Ez; [|discriminate].
    destruct (h_k (k_hdr f)) as [k|] eqn:E3; cbn in Ez; [|discriminate]. injection Ez as <-. apply (proj1 (keyeq_iff _ _)) in Kz. cbn in Kz.
    destruct Kz as (A1 & A2 & A3). exists t, c, k. repeat (split; [first [exact E1|exact E2|exact E3|symmetry; assumption]|]). symmetry. exact A3. }
  destruct (mapR _ fs) as [ks|] eqn:Ek; cbn [bind] in E; [|discriminate]. destruct ks as [|k t]; [discriminate|].
  destruct (forallb (keyeq k) t) eqn:Ef; [|discriminate]. injection E as <-. apply (H fs _ Ek).
  constructor; [apply keyeq_iff; split; [reflexivity|split; reflexivity]|]. apply Forall_forall. intros z I. exact (proj1 (forallb_forall _ _) Ef z I).
Qed.

(** * Telemetry rows *)
Lemma nth_combine_seq : forall A (l : list A) i k, nth_error (combine (seq k (List.length l)) l) i = option_map (fun v => (k + i, v)) (nth_error l i).
Proof.
  intros A l. induction l as [|x t IH]; intros i k; [destruct i; reflexivity|]. cbn. destruct i as [|i].
  - cbn. rewrite Nat.add_0_r. reflexivity.
  - cbn. rewrite IH. destruct (nth_error t i); [|reflexivity]. cbn. rewrite Nat.add_succ_r. reflexivity.
Qed.

Definition telemb (nr : nat) (lo hi : Z) (r : nat) : bool :=
  Z.leb (norm_ix (Z.of_nat nr) lo) (Z.of_nat r) && Z.ltb (Z.of_nat r) (norm_ix (Z.of_nat nr) hi).
Lemma telemb_iff : forall nr lo hi r, telemb nr lo hi r = true <-> telem nr lo hi r.
Proof. intros. unfold telemb, telem. rewrite andb_true_iff, Z.leb_le, Z.ltb_lt. tauto. Qed.

Lemma set_rows_spec : forall A lo hi (v : A) f nr nc, rect f nr nc ->
  rect (set_rows lo hi v f) nr nc
  /\ forall r c, at2 (set_rows lo hi v f) r c = if telemb nr lo hi r then option_map (fun _ => v) (at2 f r c) else at2 f r c.
Proof.
  intros A lo hi v f nr nc [L F]. unfold set_rows. split.
  - split; [rewrite map_length, combine_length, seq_length; lia|]. apply Forall_forall. intros row I. apply in_map_iff in I.
    destruct I as ([i x] & <- & I). apply in_combine_r in I. assert (Lx := proj1 (Forall_forall _ _) F x I). cbn beta in Lx. cbn [fst snd].
    destruct (_ && _); [rewrite map_length|]; exact Lx.
  - intros r c. unfold at2. rewrite nth_error_map, nth_combine_seq. destruct (nth_error f r) as [row|]; cbn.
    + unfold telemb, zlen. rewrite L. destruct (_ && _); [apply nth_error_map|reflexivity].
    + destruct (telemb nr lo hi r); reflexivity.
Qed.

(** * Pixels of a stack *)
Definition pixs {A} (img : dkf -> list (list A)) (r c : nat) (fs : list dkf) (l : list (A * N)) : Prop :=
  Forall2 (fun f p => at2 (img f) r c = Some (fst p) /\ at2 (k_dq f) r c = Some (snd p)) fs l.
Definition goods {A} (l : list (A * N)) : list A := map fst (filter (fun p => N.eqb (snd p) 0) l).

Lemma pixs_ex : forall A (img : dkf -> list (list A)) nr nc r c fs, r < nr -> c < nc ->
  Forall (fun f => rect (img f) nr nc /\ rect (k_dq f) nr nc) fs -> exists l, pixs img r c fs l.
Proof.
  intros A img nr nc r c fs Hr Hc F. induction F as [|f t [R1 R2] F IH]; [exists []; constructor|].
  destruct IH as [l Hl]. destruct (rect_at2 _ _ _ _ r c R1 Hr Hc) as [v Ev]. destruct (rect_at2 _ _ _ _ r c R2 Hr Hc) as [m Em].
  exists ((v, m) :: l). constructor; [split; assumption|exact Hl].
Qed.
Lemma pixs_good : forall A (img : dkf -> list (list A)) r c fs l, pixs img r c fs l -> good_values img r c fs = goods l.
Proof.
  intros A img r c fs l H. induction H as [|f p t l [E1 E2] H IH]; [reflexivity|]. unfold good_values, goods in *. cbn. rewrite E1, E2.
  rewrite IH. destruct p as [v m]. cbn. destruct m; reflexivity.
Qed.
Lemma goods_len : forall A B (l : list (A * N)) (m : list (B * N)), map snd l = map snd m -> List.length (goods l) = List.length (goods m).
Proof.
  intros A B l. induction l as [|[v d] t IH]; intros [|[w e] u] E; try discriminate E; [reflexivity|]. cbn in E. injection E as -> E.
  unfold goods in *. cbn. destruct (N.eqb e 0); cbn; rewrite (IH u E); reflexivity.
Qed.
Lemma pixs_dq : forall A B (img : dkf -> list (list A)) (img' : dkf -> list (list B)) r c fs l m,
  pixs img r c fs l -> pixs img' r c fs m -> map snd l = map snd m.
Proof.
  intros A B img img' r c fs l m H. revert m. induction H as [|f p t l [E1 E2] H IH]; intros m M; inversion M as [|f' q t' m' [F1 F2] M']; subst; [reflexivity|].
  cbn. rewrite E2 in F2. injection F2 as ->. f_equal. exact (IH m' M').
Qed.

(** * The accumulated sums *)
Section Fold.
Context {A : Type}.
Variable zero : A.
Variable add : A -> A -> A.
Variable pre : A -> A.
Definition qstep (s : A * nat) (p : A * N) : A * nat :=
  if N.eqb (snd p) 0 then (add (fst s) (pre (fst p)), S (snd s)) else (add (fst s) (pre zero), snd s).

Lemma fold_pix : forall (img : dkf -> list (list A)) r c fs l s, pixs img r c fs l ->
  fold_left (pstep zero add pre r c) (map (fun f => (img f, map2d (fun d => if N.eqb d 0 then 0%N else 1%N) (k_dq f))) fs) s
  = fold_left qstep l s.
Proof.
  intros img r c fs l s H. revert s. induction H as [|f p t l [E1 E2] H IH]; intros s; [reflexivity|]. cbn [map fold_left].
  rewrite IH. f_equal. unfold pstep, qstep. cbn [fst snd]. rewrite at2_map2d, E1, E2. cbn [option_map].
  destruct (snd p); reflexivity.
Qed.
Lemma fold_count : forall l s, snd (fold_left qstep l s) = snd s + List.length (goods l).
Proof.
  induction l as [|[v m] t IH]; intros s; [cbn; lia|]. cbn [fold_left]. rewrite IH. unfold qstep, goods. cbn.
  destruct (N.eqb m 0); cbn; lia.
Qed.
End Fold.

Lemma fold_fin : forall l qs q0 n, finite_vals (goods l) qs ->
  exists q, fst (fold_left (qstep (Fin 0) fadd (fun x => x)) l (Fin q0, n)) = Fin q /\ (q == q0 + Qsum qs)%Q.
Proof.
  induction l as [|[v m] t IH]; intros qs q0 n F.
  - inversion F; subst. exists q0. split; [reflexivity|]. cbn. ring.
  - unfold goods in F. cbn in F. cbn [fold_left]. unfold qstep at 2. cbn [fst snd]. destruct (N.eqb m 0) eqn:E; cbn in F.
    + inversion F as [|x q vs qs' Ex F']; subst. cbn [fadd]. destruct (IH qs' (q0 + q)%Q (S n) F') as (z & Ez & Qz).
      exists z. split; [exact Ez|]. rewrite Qz. change (Qsum (q :: qs')) with (q + Qsum qs')%Q. ring.
    + cbn [fadd]. destruct (IH qs (q0 + 0)%Q n F) as (z & Ez & Qz). exists z. split; [exact Ez|]. rewrite Qz. ring.
Qed.
Lemma fold_nan : forall l s, (fst s = NaN \/ In NaN (goods l)) -> fst (fold_left (qstep (Fin 0) fadd (fun x => x)) l s) = NaN.
Proof.
  induction l as [|[v m] t IH]; intros s H.
  - destruct H as [H|[]]. exact H.
  - cbn [fold_left]. apply IH. unfold qstep. cbn [fst snd]. unfold goods in H. cbn in H. destruct (N.eqb m 0) eqn:E; cbn in H |- *.
    + destruct H as [H|[H|H]]; [left; rewrite H; reflexivity|left; rewrite H; destruct (fst s); reflexivity|right; exact H].
    + destruct H as [H|H]; [left; rewrite H; reflexivity|right; exact H].
Qed.
Lemma fold_rl : forall l rs r0 n, real_vals (goods l) rs ->
  fst (fold_left (qstep (Some 0%R) rl_add rl_sq) l (Some r0, n)) = Some (r0 + Rsum (map (fun x => x * x) rs))%R.
Proof.
  induction l as [|[v m] t IH]; intros rs r0 n F.
  - inversion F; subst. cbn. f_equal. lra.
  - unfold goods in F. cbn in F. cbn [fold_left]. unfold qstep at 2. cbn [fst snd]. destruct (N.eqb m 0) eqn:E; cbn in F.
    + inversion F as [|x q vs rs' Ex F']; subst. cbn [rl_add rl_sq option_map]. rewrite (IH rs' _ _ F'). f_equal. unfold Rsum. cbn [map fold_right]. ring.
    + cbn [rl_add rl_sq option_map]. rewrite (IH rs _ _ F). f_equal. lra.
Qed.

(** * Samples *)
Lemma samples_spec : forall nr nc l acc, rect acc nr nc ->
  Forall (fun fm => rect (fst fm) nr nc /\ rect (snd fm) nr nc) l ->
  exists out, samples acc l = Ok out /\ rect out nr nc
    /\ forall r c s, at2 acc r c = Some s -> at2 out r c = Some (fold_left (fun s fm =>
        match at2 (fst fm) r c, at2 (snd fm) r c with Some v, Some m => if N.eqb m 0 then s ++ [to_rl v] else s | _, _ => s end) l s).
Proof.
  intros nr nc l. induction l as [|[im bp] t IH]; intros acc R F.
  - exists acc. split; [reflexivity|]. split; [exact R|]. intros r c s E. exact E.
  - inversion F as [|fm' t' [R1 R2] F']; subst. cbn [fst snd] in *.
    destruct (zip2_spec _ _ _ (fun v m => (v, m)) im bp nr nc R1 R2) as (px & E1 & RP & N1).
    destruct (zip2_spec _ _ _ (fun l p => if N.eqb (snd p) 0 then l ++ [to_rl (fst p)] else l) acc px nr nc R RP) as (a & E2 & RA & N2).
    destruct (IH a RA F') as (out & E3 & RO & N3).
    exists out. cbn [samples]. unfold add_samples. cbn [fst snd]. rewrite E1. cbn [bind]. rewrite E2. cbn [bind]. rewrite E3.
    split; [reflexivity|]. split; [exact RO|]. intros r c s E. cbn [fold_left]. apply N3. rewrite N2, E, N1. cbn [fst snd].
    destruct (at2_total _ _ _ _ _ _ r c R R1 (ex_intro _ s E)) as [v Ev]. destruct (at2_total _ _ _ _ _ _ r c R R2 (ex_intro _ s E)) as [m Em].
    rewrite Ev, Em. reflexivity.
Qed.
Lemma samples_pix : forall (img : dkf -> list (list fl)) r c fs l s, pixs img r c fs l ->
  fold_left (fun s fm => match at2 (fst fm) r c, at2 (snd fm) r c with Some v, Some m => if N.eqb m 0 then s ++ [to_rl v] else s | _, _ => s end)
    (map (fun f => (img f, map2d (fun d => if N.eqb d 0 then 0%N else 1%N) (k_dq f))) fs) s
  = s ++ map to_rl (goods l).
Proof.
  intros img r c fs l s H. revert s. induction H as [|f p t l [E1 E2] H IH]; intros s; [cbn; rewrite app_nil_r; reflexivity|]. cbn [map fold_left].
  rewrite IH. cbn [fst snd]. rewrite at2_map2d, E1, E2. cbn [option_map]. unfold goods. cbn. destruct (snd p); cbn; [rewrite <- app_assoc|]; reflexivity.
Qed.

(** * Errors *)
Lemma rl_sum_some : forall l, rl_sum (map Some l) = Some (Rsum l).
Proof. induction l as [|x t IH]; [reflexivity|]. unfold rl_sum in *. cbn. rewrite IH. reflexivity. Qed.
Lemma to_rl_fin : forall vs qs, finite_vals vs qs -> map to_rl vs = map Some (map Q2R qs).
Proof. intros vs qs H. induction H as [|x q l m E H IH]; [reflexivity|]. cbn. rewrite E, IH. reflexivity. Qed.
Lemma rl_mean_some : forall l, rl_mean (map Some l) = Some (Rmean l).
Proof. intros l. unfold rl_mean. rewrite rl_sum_some, map_length. reflexivity. Qed.
Lemma rl_std_some : forall l, rl_std (map Some l) = Some (sqrt (Rvar l)).
Proof.
  intros l. unfold rl_std. rewrite rl_mean_some. rewrite map_map.
  rewrite (map_ext _ (fun x => Some ((x - Rmean l) * (x - Rmean l))%R)) by (intros x; reflexivity).
  rewrite <- (map_map (fun x => (x - Rmean l) * (x - Rmean l))%R Some), rl_mean_some. cbn.
  unfold Rvar, Rmean. rewrite map_length. reflexivity.
Qed.
Lemma Rsum_sq_pos : forall l, (0 <= Rsum (map (fun x => x * x) l))%R.
Proof. induction l as [|x t IH]; unfold Rsum in *; cbn [map fold_right]; [lra|]. assert (H := Rle_0_sqr x). unfold Rsqr in H. lra. Qed.
Lemma Rvar_pos : forall l, l <> [] -> (0 <= Rvar l)%R.
Proof.
  intros l NE. unfold Rvar. set (m := Rmean l). clearbody m.
  assert (0 <= Rsum (map (fun x => (x - m) * (x - m)) l))%R.
  { rewrite <- (map_map (fun x => x - m)%R (fun y => y * y)%R). apply Rsum_sq_pos. }
  apply Rmult_le_pos; [exact H|]. left. apply Rinv_0_lt_compat. apply lt_0_INR. destruct l; [contradiction|cbn; lia].
Qed.
Lemma Rmean_sq_pos : forall l, l <> [] -> (0 <= Rmean (map (fun x => x * x) l))%R.
Proof.
  intros l NE. unfold Rmean. rewrite map_length. apply Rmult_le_pos; [apply Rsum_sq_pos|].
  left. apply Rinv_0_lt_compat. apply lt_0_INR. destruct l; [contradiction|cbn; lia].
Qed.

Lemma total_err_spec : forall hidden l ms, l <> [] -> (0 <= ms)%R ->
  exists e, total_err hidden (map Some l) (Some (sqrt ms)) = Some e /\ (0 <= e)%R /\ (e * e = ms + Rvar l / INR (List.length l))%R.
Proof.
  intros hidden l ms NE P. unfold total_err. destruct (map Some l) eqn:E; [destruct l; [contradiction|discriminate]|]. rewrite <- E. clear E.
  rewrite rl_std_some, map_length. cbn. eexists. split; [reflexivity|]. split; [apply sqrt_pos|].
  assert (N : (0 < INR (List.length l))%R) by (apply lt_0_INR; destruct l; [contradiction|cbn; lia]).
  assert (V := Rvar_pos l NE). rewrite (sqrt_sqrt ms P).
  assert (Es : (sqrt (Rvar l) / sqrt (INR (List.length l)) * (sqrt (Rvar l) / sqrt (INR (List.length l))) = Rvar l / INR (List.length l))%R).
  { assert (N2 : sqrt (INR (List.length l)) <> 0%R) by (apply Rgt_not_eq, sqrt_lt_R0, N).
    replace (sqrt (Rvar l) / sqrt (INR (List.length l)) * (sqrt (Rvar l) / sqrt (INR (List.length l))))%R
      with ((sqrt (Rvar l) * sqrt (Rvar l)) / (sqrt (INR (List.length l)) * sqrt (INR (List.length l))))%R by (field; exact N2).
    rewrite !sqrt_sqrt by lra. reflexivity. }
  rewrite Es. rewrite sqrt_sqrt; [reflexivity|].
  assert (0 <= Rvar l / INR (List.length l))%R by (apply Rmult_le_pos; [exact V|left; apply Rinv_0_lt_compat; exact N]). lra.
Qed.

(** * The master dark *)
Lemma combine_maps : forall A B C (f : A -> B) (g : A -> C) l, combine (map f l) (map g l) = map (fun x => (f x, g x)) l.
Proof. intros A B C f g l. induction l as [|x t IH]; [reflexivity|]. cbn. rewrite IH. reflexivity. Qed.
Lemma good_values_ext : forall A (i j : dkf -> list (list A)) r c fs,
  (forall f, In f fs -> at2 (i f) r c = at2 (j f) r c) -> good_values i r c fs = good_values j r c fs.
Proof.
  intros A i j r c fs H. unfold good_values. induction fs as [|f t IH]; [reflexivity|]. cbn. rewrite (H f (or_introl eq_refl)).
  rewrite IH; [reflexivity|]. intros g I. exact (H g (or_intror I)).
Qed.
Lemma mapR_map : forall A B (f : A -> result B) (g : A -> B) l, (forall x, In x l -> f x = Ok (g x)) -> mapR f l = Ok (map g l).
Proof.
  intros A B f g l H. induction l as [|x t IH]; [reflexivity|]. cbn. rewrite (H x (or_introl eq_refl)). cbn.
  rewrite IH; [reflexivity|]. intros y I. exact (H y (or_intror I)).
Qed.
Lemma mapR_raise : forall A B (f : A -> result B) e l, (forall x, In x l -> (exists y, f x = Ok y) \/ f x = Raise e) ->
  (exists x, In x l /\ f x = Raise e) -> mapR f l = Raise e.
Proof.
  intros A B f e l. induction l as [|x t IH]; intros H (z & I & E); [destruct I|]. cbn.
  destruct (H x (or_introl eq_refl)) as [[y Ey]|Ey]; rewrite Ey; [|reflexivity]. cbn.
  destruct I as [->|I]; [rewrite E in Ey; discriminate|]. rewrite IH; [reflexivity| |exists z; auto]. intros w J. exact (H w (or_intror J)).
Qed.

Section Trad.
Variable hidden : option R.
Variable rg : regions.
Variable a : area.
Variable si : section.
Hypothesis RI : region_of rg "SCI" "image" a si.
Hypothesis FI : fits a si.
Let nr := Z.to_nat (a_rows a).
Let nc := Z.to_nat (a_cols a).
Variables lo hi : Z.

Notation image_ok := (image_clean si nr lo hi).
Definition tv (f : dkf) : list (list fl) := set_rows lo hi (Fin 0) (k_data f).
Definition mask (f : dkf) : list (list N) := map2d (fun d => if N.eqb d 0 then 0%N else 1%N) (k_dq f).

Lemma inside_part : forall r c, r < Z.to_nat (s_rows si) -> c < Z.to_nat (s_cols si) -> inside si (Z.to_nat (s_r0 si) + r) (Z.to_nat (s_c0 si) + c).
Proof. intros r c Hr Hc. unfold inside. unfold fits in FI. lia. Qed.
Lemma part_inside : forall r c, inside si r c -> exists i j, i < Z.to_nat (s_rows si) /\ j < Z.to_nat (s_cols si)
  /\ r = Z.to_nat (s_r0 si) + i /\ c = Z.to_nat (s_c0 si) + j.
Proof. intros r c H. unfold inside in H. unfold fits in FI. exists (r - Z.to_nat (s_r0 si)), (c - Z.to_nat (s_c0 si)). lia. Qed.
Lemma inside_bound : forall r c, inside si r c -> r < nr /\ c < nc.
Proof. intros r c H. unfold inside in H. unfold fits in FI. unfold nr, nc. lia. Qed.

Lemma prep_ok : forall f, frame_shape nr nc f -> image_ok f -> prep_frame rg lo hi f = Ok (tv f, mask f, k_err f).
Proof.
  intros f (R1 & R2 & R3) H. unfold prep_frame.
  destruct (set_rows_spec _ lo hi NaN _ _ _ R1) as [RN EN].
  destruct (slice_section_spec rg "SCI" "image" a si RI FI _ _ RN) as (out & E & [RO P]). rewrite E. cbn [bind].
  replace (any2 is_nan out) with false; [reflexivity|]. symmetry. apply any2_false. intros r c v Ev.
  destruct (at2_bound _ _ _ _ _ _ _ RO Ev) as [Br Bc]. rewrite (P r c Br Bc), EN in Ev.
  destruct (H _ _ (inside_part r c Br Bc)) as [NT NN].
  destruct (telemb nr lo hi (Z.to_nat (s_r0 si) + r)) eqn:Et; [apply telemb_iff in Et; contradiction|].
  rewrite Ev in NN. destruct v; [reflexivity|reflexivity|contradiction].
Qed.
Lemma prep_bad : forall f r c, frame_shape nr nc f -> inside si r c -> (telem nr lo hi r \/ at2 (k_data f) r c = Some NaN) ->
  prep_frame rg lo hi f = Raise ValueError.
Proof.
  intros f r c (R1 & R2 & R3) I H. unfold prep_frame.
  destruct (set_rows_spec _ lo hi NaN _ _ _ R1) as [RN EN].
  destruct (slice_section_spec rg "SCI" "image" a si RI FI _ _ RN) as (out & E & [RO P]). rewrite E. cbn [bind].
  replace (any2 is_nan out) with true; [reflexivity|]. symmetry. apply any2_spec.
  destruct (part_inside r c I) as (i & j & Hi & Hj & -> & ->). exists i, j, NaN. split; [|reflexivity]. rewrite (P i j Hi Hj), EN.
  destruct (inside_bound _ _ I) as [Br Bc]. destruct (rect_at2 _ _ _ _ _ _ R1 Br Bc) as [v Ev]. rewrite Ev.
  destruct (telemb nr lo hi (Z.to_nat (s_r0 si) + i)) eqn:Et; [reflexivity|].
  destruct H as [H|H]; [apply telemb_iff in H; rewrite H in Et; discriminate|]. rewrite H in Ev. injection Ev as <-. reflexivity.
Qed.

Variables t c k : Q.
Variable fs : list dkf.
Hypothesis NE : fs <> [].
Hypothesis KEY : Forall (fun f => has_key (k_hdr f) t c k) fs.
Hypothesis SH : Forall (frame_shape nr nc) fs.

Lemma trad_rejects : forall full f r c', In f fs -> inside si r c' -> (telem nr lo hi r \/ at2 (k_data f) r c' = Some NaN) ->
  build_trad_dark hidden (Some rg) (Some lo) (Some hi) full fs = Raise ValueError.
Proof.
  intros full f r c' I Hin H. unfold build_trad_dark. destruct (unique_key_ok t c k fs NE KEY) as (x & E & _). rewrite E. cbn [bind getkey].
  rewrite (mapR_raise _ _ (prep_frame rg lo hi) ValueError); [reflexivity| |].
  - intros g J. assert (Sg := proj1 (Forall_forall _ _) SH g J). cbn beta in Sg. destruct Sg as (R1 & R2 & R3). unfold prep_frame.
    destruct (set_rows_spec _ lo hi NaN _ _ _ R1) as [RN EN].
    destruct (slice_section_spec rg "SCI" "image" a si RI FI _ _ RN) as (out & Eo & _). rewrite Eo. cbn [bind].
    destruct (any2 is_nan out); [right; reflexivity|left; eexists; reflexivity].
  - exists f. split; [exact I|]. exact (prep_bad f r c' (proj1 (Forall_forall _ _) SH f I) Hin H).
Qed.

Hypothesis IMG : Forall image_ok fs.

Lemma trad_spec : exists d, build_trad_dark hidden (Some rg) (Some lo) (Some hi) true fs = Ok d
  /\ rect (dk_data d) nr nc /\ rect (dk_err d) nr nc /\ rect (dk_dq d) nr nc
  /\ (forall r c, r < nr -> c < nc -> trad_pixel fs (telem nr lo hi) d r c)
  /\ exists d', build_trad_dark hidden (Some rg) (Some lo) (Some hi) false fs = Ok d'
     /\ part_of (dk_data d) (s_r0 si) (s_c0 si) (s_rows si) (s_cols si) (dk_data d')
     /\ part_of (dk_err d) (s_r0 si) (s_c0 si) (s_rows si) (s_cols si) (dk_err d')
     /\ part_of (dk_dq d) (s_r0 si) (s_c0 si) (s_rows si) (s_cols si) (dk_dq d').
Proof.
  unfold build_trad_dark. destruct (unique_key_ok t c k fs NE KEY) as (x & E & _). rewrite E. cbn [bind getkey].
  rewrite (mapR_map _ _ (prep_frame rg lo hi) (fun f => (tv f, mask f, k_err f))).
  2:{ intros f I. apply prep_ok; [exact (proj1 (Forall_forall _ _) SH f I)|exact (proj1 (Forall_forall _ _) IMG f I)]. }
  cbn [bind]. rewrite !map_map. cbn [fst snd].
  change (map (fun x => tv x) fs) with (map tv fs). change (map (fun x => mask x) fs) with (map mask fs). change (map (fun x => k_err x) fs) with (map k_err fs).
  assert (RT : forall f, In f fs -> rect (tv f) nr nc).
  { intros f I. destruct (proj1 (Forall_forall _ _) SH f I) as (R1 & _). exact (proj1 (set_rows_spec _ lo hi (Fin 0) _ _ _ R1)). }
  assert (RM : forall f, In f fs -> rect (mask f) nr nc).
  { intros f I. destruct (proj1 (Forall_forall _ _) SH f I) as (_ & _ & R3). apply rect_map2d. exact R3. }
  assert (RE : forall f, In f fs -> rect (k_err f) nr nc) by (intros f I; exact (proj1 (proj2 (proj1 (Forall_forall _ _) SH f I)))).
  assert (FM : Forall (fun bp => rect bp nr nc /\ forall r c v, at2 bp r c = Some v -> v = 0%N \/ v = 1%N) (map mask fs)).
  { apply Forall_forall. intros bp I. apply in_map_iff in I. destruct I as (f & <- & I). split; [exact (RM f I)|].
    intros r c0 v Ev. unfold mask in Ev. rewrite at2_map2d in Ev. destruct (at2 (k_dq f) r c0) as [dv|]; [|discriminate]. cbn in Ev. injection Ev as <-.
    destruct (N.eqb dv 0); auto. }
  assert (NEm : forall A (g : dkf -> A), map g fs <> []) by (intros A g; destruct fs; [contradiction|discriminate]).
  destruct (mean_combine_spec (Fin 0) fadd (fun x n => fdiv x (Fin (inject_Z (Z.of_nat n)))) (fun x => x) (fun x => x) nr nc (map tv fs) (map mask fs))
    as (m & Em & R1 & R2 & R3 & P); [apply NEm|rewrite !map_length; reflexivity| |exact FM|].
  { apply Forall_forall. intros im I. apply in_map_iff in I. destruct I as (f & <- & I). exact (RT f I). }
  unfold mean_data. rewrite Em. cbn [bind].
  destruct (mean_combine_spec (Some 0%R) rl_add rl_divn rl_sq rl_sqrt nr nc (map k_err fs) (map mask fs))
    as (e & Ee & R1e & R2e & R3e & Pe); [apply NEm|rewrite !map_length; reflexivity| |exact FM|].
  { apply Forall_forall. intros im I. apply in_map_iff in I. destruct I as (f & <- & I). exact (RE f I). }
  unfold mean_err. rewrite Ee. cbn [bind].
  destruct (samples_spec nr nc (combine (map tv fs) (map mask fs)) (map2d (fun _ => []) (m_im m))) as (smp & Es & Rs & Ps);
    [apply rect_map2d; exact R1| |].
  { apply Forall_forall. intros [im bp] I. cbn [fst snd]. split.
    - apply in_combine_l in I. apply in_map_iff in I. destruct I as (f & <- & I). exact (RT f I).
    - apply in_combine_r in I. apply in_map_iff in I. destruct I as (f & <- & I). exact (RM f I). }
  rewrite Es. cbn [bind].
  destruct (zip2_spec _ _ _ (total_err hidden) smp (m_im e) nr nc Rs R1e) as (er & Eer & Rer & Ner). rewrite Eer. cbn [bind].
  destruct (zip2_spec _ _ _ (fun d (b : bool) => if b then 1%N else d)
     (map2d (fun n => if Nat.ltb (2 * n) (List.length fs) then 256%N else 0%N) (m_num m)) (m_bp m) nr nc) as (dq & Edq & Rdq & Ndq);
    [apply rect_map2d; exact R3|exact R2|]. rewrite Edq. cbn [bind].
  eexists. split; [reflexivity|]. cbn [dk_data dk_err dk_dq]. split; [exact R1|]. split; [exact Rer|]. split; [exact Rdq|]. split.
  - intros r c0 Hr Hc.
    destruct (P r c0 Hr Hc) as (P1 & P2 & P3). destruct (Pe r c0 Hr Hc) as (Pe1 & _). cbv zeta in P1, P2, P3, Pe1.
    rewrite combine_maps in P1, P2, P3, Pe1. 
    destruct (pixs_ex _ tv nr nc r c0 fs Hr Hc) as [lt Ht].
    { apply Forall_forall. intros f I. split; [exact (RT f I)|exact (proj2 (proj2 (proj1 (Forall_forall _ _) SH f I)))]. }
    destruct (pixs_ex _ k_data nr nc r c0 fs Hr Hc) as [ld Hd].
    { apply Forall_forall. intros f I. split; [exact (proj1 (proj1 (Forall_forall _ _) SH f I))|exact (proj2 (proj2 (proj1 (Forall_forall _ _) SH f I)))]. }
    destruct (pixs_ex _ k_err nr nc r c0 fs Hr Hc) as [le He].
    { apply Forall_forall. intros f I. split; [exact (RE f I)|exact (proj2 (proj2 (proj1 (Forall_forall _ _) SH f I)))]. }
    unfold mask in P1, P2, P3, Pe1.
    rewrite (fold_pix (Fin 0) fadd (fun x => x) tv r c0 fs lt _ Ht) in P1, P2, P3.
    rewrite (fold_pix (Some 0%R) rl_add rl_sq k_err r c0 fs le _ He) in Pe1.
    assert (Cn : snd (fold_left (qstep (Fin 0) fadd (fun x => x)) lt (Fin 0, 0)) = List.length (goods lt)) by (rewrite fold_count; reflexivity).
    assert (Ce : snd (fold_left (qstep (Some 0%R) rl_add rl_sq) le (Some 0%R, 0)) = List.length (goods le)) by (rewrite fold_count; reflexivity).
    rewrite Cn in P1, P2, P3. rewrite Ce in Pe1.
    assert (Lt : List.length (goods lt) = List.length (goods ld)) by (apply goods_len; exact (pixs_dq _ _ _ _ _ _ _ _ _ Ht Hd)).
    assert (Le : List.length (goods le) = List.length (goods ld)) by (apply goods_len; exact (pixs_dq _ _ _ _ _ _ _ _ _ He Hd)).
    assert (Smp : at2 smp r c0 = Some (map to_rl (goods lt))).
    { rewrite (Ps r c0 []) by (rewrite at2_map2d, P1; reflexivity). rewrite combine_maps. unfold mask.
      rewrite (samples_pix tv r c0 fs lt [] Ht). reflexivity. }
    assert (Er : at2 er r c0 = Some (total_err hidden (map to_rl (goods lt)) (rl_sqrt (if Nat.eqb (List.length (goods le)) 0 then Some 0%R
        else rl_divn (fst (fold_left (qstep (Some 0%R) rl_add rl_sq) le (Some 0%R, 0))) (List.length (goods le)))))).
    { rewrite Ner, Smp, Pe1. reflexivity. }
    assert (ETn : ~ telem nr lo hi r -> goods lt = goods ld).
    { intros NT. rewrite <- (pixs_good _ _ _ _ _ _ Ht), <- (pixs_good _ _ _ _ _ _ Hd). apply good_values_ext. intros f I. unfold tv.
      destruct (proj1 (Forall_forall _ _) SH f I) as (Rd & _). rewrite (proj2 (set_rows_spec _ lo hi (Fin 0) _ _ _ Rd)).
      destruct (telemb nr lo hi r) eqn:Et; [apply telemb_iff in Et; contradiction|reflexivity]. }
    assert (ETt : telem nr lo hi r -> Forall (fun v => v = Fin 0) (goods lt)).
    { intros T. apply Forall_forall. intros v I. unfold goods in I. apply in_map_iff in I. destruct I as (p & <- & I).
      apply filter_In in I. destruct I as [I _]. clear - Ht I T SH. revert I. induction Ht as [|f q l l' [E1 _] Ht IH]; intros I; [destruct I|].
      inversion SH as [|f' l'' Sf SH']; subst. destruct I as [->|I]; [|exact (IH SH' I)].
      unfold tv in E1. destruct Sf as (Rd & _). rewrite (proj2 (set_rows_spec _ lo hi (Fin 0) _ _ _ Rd)) in E1.
      rewrite (proj2 (telemb_iff nr lo hi r) T) in E1. destruct (at2 (k_data f) r c0); [|discriminate]. cbn in E1. injection E1 as E1. symmetry. exact E1. }
    (* the mean of finite samples *)
    assert (MEAN : forall qs, finite_vals (goods lt) qs -> exists q, at2 (m_im m) r c0 = Some (Fin q) /\ (q * qlen qs == Qsum qs)%Q /\ (qs = [] -> (q == 0)%Q)).
    { intros qs Fq. assert (Lq : List.length (goods lt) = List.length qs) by (clear - Fq; induction Fq; [reflexivity|cbn; lia]).
      destruct (fold_fin lt qs 0%Q 0 Fq) as (q & Eq & Qq). rewrite P1. rewrite Eq, Lq. destruct qs as [|q1 qs].
      - cbn [List.length Nat.eqb]. exists 0%Q. split; [reflexivity|]. split; [cbn; reflexivity|reflexivity].
      - cbn [List.length]. cbn [Nat.eqb]. 
        assert (NZ : ~ (inject_Z (Z.of_nat (S (List.length qs))) == 0)%Q).
        { intros Z0. unfold Qeq in Z0. cbn -[Z.of_nat] in Z0. lia. }
        cbn [fdiv]. unfold qzero. destruct (Qeq_bool _ 0) eqn:Zb; [apply Qeq_bool_iff in Zb; contradiction|].
        eexists. split; [reflexivity|]. split; [|discriminate]. unfold qlen. cbn [List.length]. rewrite Qq. field. exact NZ. }
    unfold trad_pixel. cbv zeta. rewrite (pixs_good _ _ _ _ _ _ Hd), (pixs_good _ _ _ _ _ _ He). cbn [dk_data dk_err dk_dq].
    split; [|split; [|split; [|split; [|split]]]].
    + intros NT qs Fq. rewrite <- (ETn NT) in Fq. exact (MEAN qs Fq).
    + intros NT IN. rewrite <- (ETn NT) in IN. rewrite P1. rewrite (fold_nan lt (Fin 0, 0) (or_intror IN)).
      destruct (Nat.eqb (List.length (goods lt)) 0) eqn:El; [apply Nat.eqb_eq in El; destruct (goods lt); [destruct IN|discriminate El]|reflexivity].
    + intros T. assert (Fz : finite_vals (goods lt) (map (fun _ => 0%Q) (goods lt))).
      { specialize (ETt T). clear - ETt. induction ETt as [|v l Ev F IH]; [constructor|]. constructor; [exact Ev|exact IH]. }
      destruct (MEAN _ Fz) as (q & Eq & Q1 & Q2). exists q. split; [exact Eq|].
      assert (S0 : (Qsum (map (fun _ : fl => 0%Q) (goods lt)) == 0)%Q).
      { clear. induction (goods lt) as [|v l IH]; [reflexivity|]. change (Qsum (map (fun _ : fl => 0%Q) (v :: l))) with (0 + Qsum (map (fun _ : fl => 0%Q) l))%Q.
        rewrite IH. reflexivity. }
      rewrite S0 in Q1. destruct (goods lt) as [|v l]; [apply Q2; reflexivity|].
      apply Qmult_integral in Q1. destruct Q1 as [Q1|Q1]; [exact Q1|]. exfalso. unfold qlen in Q1. cbn [map List.length] in Q1.
      unfold Qeq in Q1. cbn -[Z.of_nat] in Q1. lia.
    + rewrite Ndq, at2_map2d, P3, P2, Lt. cbn [option_map lift2]. unfold dark_flag. destruct (Nat.eqb (List.length (goods ld)) 0); reflexivity.
    + intros NT qs rs Fq Fr NZ. rewrite <- (ETn NT) in Fq.
      assert (Lq : List.length (goods lt) = List.length qs) by (clear - Fq; induction Fq; [reflexivity|cbn; lia]).
      assert (Lr : List.length (goods le) = List.length rs) by (clear - Fr; induction Fr; [reflexivity|cbn; lia]).
      rewrite Er. rewrite (to_rl_fin _ _ Fq). rewrite (fold_rl le rs 0%R 0 Fr), Lr.
      destruct (Nat.eqb (List.length rs) 0) eqn:Z0; [apply Nat.eqb_eq in Z0; destruct rs; [contradiction|discriminate Z0]|].
      cbn [rl_divn option_map rl_sqrt]. rewrite Rplus_0_l.
      destruct (total_err_spec hidden (map Q2R qs) (Rmean (map (fun x => x * x)%R rs))) as (ev & Ev & Pos & Sq).
      { intros Z1. destruct qs; [|discriminate Z1]. cbn in Lq. rewrite Lt, <- Le, Lr in Lq. destruct rs; [contradiction|discriminate Lq]. }
      { apply Rmean_sq_pos. exact NZ. }
      exists ev. unfold Rmean at 1 in Ev. rewrite map_length in Ev. split; [rewrite Ev; reflexivity|]. split; [exact Pos|]. rewrite Sq, map_length.
      rewrite <- Lq, Lt, <- Le, Lr. reflexivity.
    + intros T rs Fr NZ. specialize (ETt T).
      assert (Lr : List.length (goods le) = List.length rs) by (clear - Fr; induction Fr; [reflexivity|cbn; lia]).
      assert (Et : map to_rl (goods lt) = map Some (map (fun _ => 0%R) (goods lt))).
      { clear - ETt. induction ETt as [|v l Ev F IH]; [reflexivity|]. cbn. rewrite Ev, IH. cbn. rewrite RMicromega.Q2R_0. reflexivity. }
      rewrite Er, Et. rewrite (fold_rl le rs 0%R 0 Fr), Lr.
      destruct (Nat.eqb (List.length rs) 0) eqn:Z0; [apply Nat.eqb_eq in Z0; destruct rs; [contradiction|discriminate Z0]|].
      cbn [rl_divn option_map rl_sqrt]. rewrite Rplus_0_l.
      destruct (total_err_spec hidden (map (fun _ => 0%R) (goods lt)) (Rmean (map (fun x => x * x)%R rs))) as (ev & Ev & Pos & Sq).
      { intros Z1. destruct (goods lt); [|discriminate Z1]. cbn in Lt. rewrite <- Lt in Le. rewrite Le in Lr. destruct rs; [contradiction|discriminate Lr]. }
      { apply Rmean_sq_pos. exact NZ. }
      exists ev. unfold Rmean at 1 in Ev. rewrite map_length in Ev. split; [rewrite Ev; reflexivity|]. split; [exact Pos|]. rewrite Sq.
      assert (SZ : forall l : list fl, Rsum (map (fun _ => 0%R) l) = 0%R).
      { clear. induction l as [|v l IH]; [reflexivity|]. unfold Rsum in *. cbn [map fold_right]. rewrite IH. lra. }
      assert (VZ : Rvar (map (fun _ => 0%R) (goods lt)) = 0%R).
      { unfold Rvar. assert (M0 : Rmean (map (fun _ => 0%R) (goods lt)) = 0%R) by (unfold Rmean; rewrite SZ; unfold Rdiv; apply Rmult_0_l).
        rewrite M0, map_map. rewrite (map_ext _ (fun _ => 0%R)) by (intros; ring). rewrite SZ. unfold Rdiv. apply Rmult_0_l. }
      rewrite VZ. unfold Rdiv. rewrite Rmult_0_l. apply Rplus_0_r.
  - destruct (slice_section_spec rg "SCI" "image" a si RI FI _ dq Rdq) as (o1 & E1 & Q1).
    destruct (slice_section_spec rg "SCI" "image" a si RI FI _ er Rer) as (o2 & E2 & Q2).
    destruct (slice_section_spec rg "SCI" "image" a si RI FI _ (m_im m) R1) as (o3 & E3 & Q3).
    rewrite E1. cbn [bind]. rewrite E2. cbn [bind]. rewrite E3. cbn [bind].
    eexists. split; [reflexivity|]. cbn [dk_data dk_err dk_dq]. split; [exact Q3|]. split; [exact Q2|exact Q1].
Qed.
End Trad.
Lemma trad_half : forall hidden rg a si, region_of rg "SCI" "image" a si -> fits a si -> forall lo hi t c k fs,
  fs <> [] -> Forall (fun f => has_key (k_hdr f) t c k) fs ->
  Forall (frame_shape (Z.to_nat (a_rows a)) (Z.to_nat (a_cols a))) fs ->
  Forall (image_clean si (Z.to_nat (a_rows a)) lo hi) fs ->
  exists d, build_trad_dark hidden (Some rg) (Some lo) (Some hi) true fs = Ok d
  /\ forall r c, r < Z.to_nat (a_rows a) -> c < Z.to_nat (a_cols a) ->
       2 * List.length (good_values k_data r c fs) = List.length fs -> at2 (dk_dq d) r c = Some 0%N.
Proof.
  intros hidden rg a si RI FI lo hi t c k fs NE KEY SH IMG.
  destruct (trad_spec hidden rg a si RI FI lo hi t c k fs NE KEY SH IMG) as (d & E & _ & _ & _ & P & _). exists d. split; [exact E|].
  intros r c0 Hr Hc H. destruct (P r c0 Hr Hc) as (_ & _ & _ & Q & _). rewrite Q. unfold dark_flag.
  destruct fs as [|f l]; [contradiction|].
  destruct (Nat.eqb _ 0) eqn:Z0; [apply Nat.eqb_eq in Z0; rewrite Z0 in H; discriminate H|].
  destruct (Nat.ltb _ _) eqn:L; [apply Nat.ltb_lt in L; lia|reflexivity].
Qed.
