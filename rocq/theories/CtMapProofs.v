(** Proofs: the interpolated throughputs and the map. *)
From Coq Require Import List Arith Bool Reals ZArith String Sorting Lia Lra.
From Verif Require Import Base CombineModel ComboSpec ComboProofs DqModel AngleModel AngleSpec NearModel NearSpec NearProofs FlatModel FlatSpec FlatProofs FlatTopProofs FluxModel FluxSpec FluxProofs FluxBandProofs FluxRunProofs CtModel CtSpec CtProofs CtSetProofs CtDataProofs CtInterpProofs.
Import ListNotations.
Local Open Scope R_scope.

Definition keep (tvs : list ((R * R) * val)) : list (R * (R * R)) := flat_map (fun tv => match snd tv with Some v => [(v, fst tv)] | None => [] end) tvs.
Lemma keep_iff : forall tvs out, (exists ch, sieve (fun tv : (R * R) * val => snd tv <> None) tvs ch /\ Forall2 (fun tv (o : R * (R * R)) => snd tv = Some (fst o) /\ fst tv = snd o) ch out) <-> out = keep tvs.
Proof.
  assert (F : forall tv : (R * R) * val, negb (is_nan (snd tv)) = true <-> snd tv <> None) by (intros [t [v|]]; cbn; split; congruence).
  intros tvs out. assert (E : forall out, Forall2 (fun tv (o : R * (R * R)) => snd tv = Some (fst o) /\ fst tv = snd o) (filter (fun tv : (R * R) * val => negb (is_nan (snd tv))) tvs) out <-> out = keep tvs).
  { clear out. induction tvs as [|[t [v|]] tvs IH]; intros out; cbn [filter is_nan snd negb keep flat_map app fst].
    - split; [intros H; inversion H; reflexivity|]. intros ->. constructor.
    - split.
      + intros H. inversion H as [|? [a b] ? o (A & B) H']; subst. cbn [fst snd] in A, B. injection A as <-. subst b. f_equal. apply IH. exact H'.
      + intros ->. constructor; [split; reflexivity|]. apply IH. reflexivity.
    - apply IH. }
  split; [intros (ch & S0 & H); apply (proj1 (sieve_filter _ _ _ F tvs ch)) in S0; subst ch; apply E; exact H|]. intros H. eexists. split; [apply (proj2 (sieve_filter _ _ _ F tvs _)); reflexivity|apply E; exact H].
Qed.
Lemma keep_nil : forall ts vs, List.length ts = List.length vs -> (forallb is_nan vs = false <-> keep (combine ts vs) <> []).
Proof.
  induction ts as [|t ts IH]; intros [|[v|] vs] L; try discriminate; cbn [combine keep flat_map fst snd app forallb is_nan andb]; [split; [discriminate|congruence]|split; [discriminate|reflexivity]|]. apply IH. cbn in L. lia.
Qed.
Lemma f2_len : forall A B (P : A -> B -> Prop) l m, Forall2 P l m -> List.length l = List.length m.
Proof. intros A B P l m F. induction F; cbn; congruence. Qed.
Lemma unit_iff : forall vs, existsb out_of_unit vs = false <-> forall v, In (Some v) vs -> 0 <= v <= 1.
Proof.
  intros vs. split.
  - intros H v I. assert (O : out_of_unit (Some v) = false). { destruct (out_of_unit (Some v)) eqn:E; [|reflexivity]. assert (X : existsb out_of_unit vs = true) by (apply existsb_exists; exists (Some v); auto). congruence. } cbn in O. destruct (Rlt_dec v 0); [discriminate|]. destruct (Rlt_dec 1 v); [discriminate|]. lra.
  - intros H. destruct (existsb out_of_unit vs) eqn:E; [|reflexivity]. apply existsb_exists in E. destruct E as ([v|] & I & O); [|discriminate]. specialize (H v I). cbn in O. destruct (Rlt_dec v 0); [lra|]. destruct (Rlt_dec 1 v); [lra|]. discriminate.
Qed.
Section Interpolate.
Variable linear : list (val * R) -> list R -> result (val * val -> val).
Definition azs_of (grid : list ((R * R) * R)) : list R := map (fun g => arctan2 (snd (fst g)) (fst (fst g))) grid.
Definition scale (logr : bool) (x : R) : val := if logr then log10 x else Some x.
Lemma raw_iff : forall grid logr ts vs, raw_values linear grid logr ts vs <->
  exists a0 m q, rmin (azs_of grid) = Ok a0 /\ rmax (map (fun a => a - a0) (azs_of grid)) = Ok m
    /\ linear (combine (map (scale logr) (map (fun g => radius (fst g)) grid)) (map (fun a => a - a0) (azs_of grid))) (map snd grid) = Ok q
    /\ vs = map (fun t => q (scale logr (radius t), pymod (arctan2 (snd t) (fst t) - a0) m)) ts.
Proof.
  intros grid logr ts vs. unfold raw_values.
  assert (A : forall azs, Forall2 (fun g a => azimuth (fst g) a) grid azs <-> azs = azs_of grid) by (intros azs; apply f2_map; intros g a; apply azimuth_iff).
  assert (PT : forall a0 pts, Forall2 (fun ga (p : val * R) => scaled logr (far (fst (fst ga))) (fst p) /\ snd p = snd ga - a0) (combine grid (azs_of grid)) pts <-> pts = combine (map (scale logr) (map (fun g => radius (fst g)) grid)) (map (fun a => a - a0) (azs_of grid))).
  { intros a0 pts. assert (X : combine (map (scale logr) (map (fun g => radius (fst g)) grid)) (map (fun a => a - a0) (azs_of grid)) = map (fun ga => (scale logr (far (fst (fst ga))), snd ga - a0)) (combine grid (azs_of grid))) by (unfold azs_of; clear; induction grid as [|g grid IH]; [reflexivity|]; cbn [map combine fst snd]; rewrite radius_far, IH; reflexivity). rewrite X. apply f2_map. intros ga [p a]. cbn [fst snd]. rewrite scaled_iff. unfold scale. split; [intros (-> & ->); reflexivity|intros E; injection E as -> ->; split; reflexivity]. }
  assert (TV : forall a0 m q, Forall2 (fun t v => exists r a b, azimuth t a /\ scaled logr (far t) r /\ folded (a - a0) m b /\ v = q (r, b)) ts vs <-> vs = map (fun t => q (scale logr (radius t), pymod (arctan2 (snd t) (fst t) - a0) m)) ts).
  { intros a0 m q. apply f2_map. intros t v. split.
    - intros (r & a & b & AZ & SC & FO & ->). apply azimuth_iff in AZ. apply scaled_iff in SC. apply folded_iff in FO. subst. rewrite radius_far. reflexivity.
    - intros ->. do 3 eexists. split; [apply azimuth_iff; reflexivity|]. split; [apply scaled_iff; reflexivity|]. split; [apply folded_iff; reflexivity|]. rewrite radius_far. reflexivity. }
  split.
  - intros (azs & a0 & m & pts & q & AZ & LO & HI & P & Q & V). apply A in AZ. subst azs. apply PT in P. subst pts. exists a0, m, q. split; [apply rmin_iff; exact LO|]. split; [apply rmax_iff; apply most_shift; exact HI|]. split; [exact Q|apply TV; exact V].
  - intros (a0 & m & q & LO & HI & Q & V). exists (azs_of grid), a0, m. do 2 eexists. split; [apply A; reflexivity|]. split; [apply rmin_iff; exact LO|]. split; [apply most_shift; apply rmax_iff; exact HI|]. split; [apply PT; reflexivity|]. split; [exact Q|apply TV; exact V].
Qed.
Lemma range_iff : forall (grid : list ((R * R) * R)) lo hi l m, rmin (map (fun g => radius (fst g)) grid) = Ok lo -> rmax (map (fun g => radius (fst g)) grid) = Ok hi ->
  (sieve (in_range (map fst grid)) l m <-> m = filter (fun t => if Rle_dec (radius t) hi then true else false) (filter (fun t => if Rle_dec lo (radius t) then true else false) l)).
Proof.
  intros grid lo hi l m LO HI. apply sieve_twice. intros t. unfold in_range. destruct (rmin_spec _ _ LO) as (ILO & MLO). destruct (rmax_spec _ _ HI) as (IHI & MHI). apply in_map_iff in ILO, IHI. destruct ILO as (gl & GL & IL). destruct IHI as (gh & GH & IH). split.
  - destruct (Rle_dec lo (radius t)); [|discriminate]. destruct (Rle_dec (radius t) hi); [|discriminate]. intros _. split; [exists (fst gl)|exists (fst gh)]; rewrite <- !radius_far; (split; [apply in_map; assumption|lra]).
  - intros ((a & IA & A) & (b & IB & B)). rewrite <- !radius_far in A, B. apply in_map_iff in IA, IB. destruct IA as (ga & <- & IA). destruct IB as (gb & <- & IB). pose proof (MLO _ (in_map (fun g => radius (fst g)) _ _ IA)). pose proof (MHI _ (in_map (fun g => radius (fst g)) _ _ IB)). cbn beta in *. destruct (Rle_dec lo (radius t)); [|lra]. destruct (Rle_dec (radius t) hi); [reflexivity|lra].
Qed.
Lemma rmin_total : forall l, l <> [] -> exists m, rmin l = Ok m. Proof. intros [|x l] H; [congruence|eexists; reflexivity]. Qed.
Lemma rmax_total : forall l, l <> [] -> exists m, rmax l = Ok m. Proof. intros [|x l] H; [congruence|eexists; reflexivity]. Qed.
Lemma map_ne : forall A B (f : A -> B) l, l <> [] -> map f l <> []. Proof. intros A B f [|x l] H; [congruence|discriminate]. Qed.
Lemma rmin_ne : forall l m, rmin l = Ok m -> l <> []. Proof. intros [|x l] m H; discriminate. Qed.

Lemma interpolate_iff : forall table fpam fsam M0 M1 cor xs ys logr out,
  interpolate_ct linear table fpam fsam M0 M1 cor xs ys logr = Ok out <-> interpolation linear table fpam fsam M0 M1 cor xs ys logr out.
Proof.
  intros table fpam fsam M0 M1 cor xs ys logr out. unfold interpolate_ct, interpolation. destruct (Nat.eqb_spec (List.length xs) (List.length ys)) as [LE|LE]; cbn [negb]; [|split; [discriminate|intros (H & _); contradiction]]. split.
  - destruct (ct_fpm_position fpam fsam M0 M1 cor) as [[c c']|] eqn:C; cbn [bind fst snd]; [|discriminate]. set (grid := map _ table). change (map (fun g => arctan2 (snd (fst g)) (fst (fst g))) grid) with (azs_of grid). destruct (rmin (azs_of grid)) as [a0|] eqn:A0; cbn [bind]; [|discriminate]. destruct (rmin (map (fun g => radius (fst g)) grid)) as [lo|] eqn:LO; cbn [bind]; [|discriminate].
    set (t1 := filter _ (combine xs ys)). destruct (Nat.eqb_spec (List.length t1) 0); [discriminate|]. destruct (rmax (map (fun g => radius (fst g)) grid)) as [hi|] eqn:HI; cbn [bind]; [|discriminate]. set (t2 := filter _ t1). destruct (Nat.eqb_spec (List.length t2) 0); [discriminate|]. destruct (rmax (map (fun a => a - a0) (azs_of grid))) as [m|] eqn:M; cbn [bind]; [|discriminate].
    change (fun x : R => if logr then log10 x else Some x) with (scale logr). destruct (linear _ (map snd grid)) as [q|] eqn:Q; cbn [bind]; [|discriminate]. set (vs := map (fun t => q _) t2). destruct (existsb out_of_unit vs) eqn:U; [discriminate|]. change (map fst (filter (fun tv : R * R * val => is_nan (snd tv)) (combine t2 vs))) with (nans (combine t2 vs)). destruct (repair _ grid vs) as [vs'|] eqn:RP; cbn [bind]; [|discriminate]. destruct (forallb is_nan vs') eqn:FN; [discriminate|]. change (flat_map _ (combine t2 vs')) with (keep (combine t2 vs')). intros H.
    assert (H' : out = keep (combine t2 vs')) by congruence. clear H. split; [exact LE|]. assert (L2 : List.length t2 = List.length vs) by (unfold vs; rewrite map_length; reflexivity). pose proof (repair_ok _ _ _ _ RP) as (L3 & _). apply repaired_iff in RP; [|exact L2].
    exists c, c', grid, t2, vs, vs'. split; [apply mask_iff; exact C|]. split; [apply shifted_iff; reflexivity|]. split; [intros E; rewrite E in LO; discriminate|]. split; [apply (range_iff grid lo hi); auto|]. split; [apply raw_iff; exists a0, m, q; auto|]. split; [apply unit_iff; exact U|]. split; [exact RP|]. split; [rewrite H'; apply keep_nil; [congruence|exact FN]|apply keep_iff; exact H'].
  - intros (_ & c & c' & grid & ts & vs & vs' & C & SH & NE & SV & RW & U & RP & ON & K). apply mask_iff in C. rewrite C. cbn [bind fst snd]. apply shifted_iff in SH. rewrite <- SH. apply raw_iff in RW. destruct RW as (a0 & m & q & A0 & M & Q & V). change (map (fun g => arctan2 (snd (fst g)) (fst (fst g))) grid) with (azs_of grid). rewrite A0. cbn [bind].
    destruct (rmin_total (map (fun g => radius (fst g)) grid) (map_ne _ _ _ _ NE)) as (lo & LO). destruct (rmax_total (map (fun g => radius (fst g)) grid) (map_ne _ _ _ _ NE)) as (hi & HI). rewrite LO, HI. cbn [bind]. apply (range_iff grid lo hi) in SV; [|exact LO|exact HI]. apply keep_iff in K.
    assert (TN : ts <> []) by (intros E; apply ON; rewrite K, E; reflexivity). rewrite <- SV. destruct (Nat.eqb_spec (List.length (filter (fun t => if Rle_dec lo (radius t) then true else false) (combine xs ys))) 0) as [E|_]; [exfalso; apply TN; rewrite SV; apply length_zero_iff_nil in E; rewrite E; reflexivity|]. destruct (Nat.eqb_spec (List.length ts) 0) as [E|_]; [apply length_zero_iff_nil in E; contradiction|].
    rewrite M. cbn [bind]. change (fun x : R => if logr then log10 x else Some x) with (scale logr). rewrite Q. cbn [bind]. change (map (fun t : R * R => q ((if logr then log10 (radius t) else Some (radius t)), pymod (arctan2 (snd t) (fst t) - a0) m)) ts) with (map (fun t => q (scale logr (radius t), pymod (arctan2 (snd t) (fst t) - a0) m)) ts). rewrite <- V. apply unit_iff in U. rewrite U. change (map fst (filter (fun tv : R * R * val => is_nan (snd tv)) (combine ts vs))) with (nans (combine ts vs)).
    assert (L2 : List.length ts = List.length vs) by (rewrite V, map_length; reflexivity). pose proof (proj1 RP) as L3. rewrite combine_length in L3. apply repaired_iff in RP; [|exact L2]. rewrite RP. cbn [bind]. rewrite K in ON. apply keep_nil in ON; [|lia]. rewrite ON. f_equal. symmetry. exact K.
Qed.

(** ** The map *)
Lemma nth_error_ext_len : forall A (l m : list A), (forall k, nth_error l k = nth_error m k) -> l = m.
Proof. induction l as [|a l IH]; intros [|b m] H; [reflexivity|specialize (H 0%nat); discriminate|specialize (H 0%nat); discriminate|]. pose proof (H 0%nat) as E. injection E as ->. f_equal. apply IH. intros k. apply (H (S k)). Qed.
Lemma nth_map_seq : forall A (f : nat -> A) n i, nth_error (map f (seq 0 n)) i = if Nat.ltb i n then Some (f i) else None.
Proof.
  intros A f n i. rewrite nth_error_map. destruct (Nat.ltb_spec i n) as [I|I].
  - rewrite (nth_error_nth' (seq 0 n) 0%nat) by (rewrite seq_length; exact I). rewrite seq_nth by exact I. reflexivity.
  - rewrite (proj2 (nth_error_None (seq 0 n) i)) by (rewrite seq_length; exact I). reflexivity.
Qed.
Lemma evenly_iff : forall a b n l, evenly a b n l <-> l = linspace a b n.
Proof.
  intros a b n l. unfold evenly, linspace. split.
  - intros (L & H). apply nth_error_ext_len. intros i. rewrite nth_map_seq. destruct (Nat.ltb_spec i n) as [I|I]; [|apply nth_error_None; lia]. destruct (nth_error l i) as [x|] eqn:N; [|apply nth_error_None in N; lia]. destruct (H i x N) as (E & O). f_equal.
    destruct (Nat.eqb_spec n 1) as [E1|N1]; [apply O; exact E1|]. assert (P : INR (n - 1) <> 0) by (apply not_0_INR; lia). apply Rmult_eq_reg_r with (r := INR (n - 1)); [|exact P]. assert (E2 : x * INR (n - 1) = a * INR (n - 1) + INR i * (b - a)) by lra. rewrite E2. field. exact P.
  - intros ->. split; [rewrite map_length, seq_length; reflexivity|]. intros i x N. rewrite nth_map_seq in N. destruct (Nat.ltb_spec i n) as [I|I]; [|discriminate]. injection N as <-.
    destruct (Nat.eqb_spec n 1) as [->|N1]; [replace i with 0%nat by lia; cbn; split; [ring|reflexivity]|]. split; [|contradiction]. assert (P : INR (n - 1) <> 0) by (apply not_0_INR; lia). field. exact P.
Qed.
Lemma nth_app_at : forall A (u v : list A) k j, List.length u = k -> nth_error (u ++ v) (k + j) = nth_error v j.
Proof. intros A u v k j <-. rewrite nth_error_app2 by lia. f_equal. lia. Qed.
Lemma prod_nth : forall (gy gx : list R) i j, (i < List.length gy)%nat -> (j < List.length gx)%nat ->
  nth_error (map snd (list_prod gy gx)) (i * List.length gx + j) = nth_error gx j /\ nth_error (map fst (list_prod gy gx)) (i * List.length gx + j) = nth_error gy i.
Proof.
  induction gy as [|y gy IH]; intros gx i j I J; [cbn in I; lia|]. cbn [list_prod]. rewrite !map_app, !map_map. cbn [fst snd]. destruct i as [|i].
  - cbn [Nat.mul Nat.add nth_error]. rewrite !nth_error_app1 by (rewrite map_length; exact J). rewrite map_id. split; [reflexivity|]. rewrite nth_error_map. destruct (nth_error gx j) eqn:E; [reflexivity|]. apply nth_error_None in E. lia.
  - cbn [List.length] in I. replace (S i * List.length gx + j)%nat with (List.length gx + (i * List.length gx + j))%nat by lia. rewrite !nth_app_at by (rewrite map_length; reflexivity). cbn [nth_error]. apply IH; lia.
Qed.
Lemma list_by_rows : forall A (l m : list A) ny nx, List.length l = (ny * nx)%nat -> List.length m = (ny * nx)%nat -> (forall i j, (i < ny)%nat -> (j < nx)%nat -> nth_error l (i * nx + j) = nth_error m (i * nx + j)) -> l = m.
Proof.
  intros A l m ny nx L M H. apply nth_error_ext_len. intros k. destruct (Nat.lt_ge_cases k (ny * nx)) as [K|K].
  - assert (NX : nx <> 0%nat) by (intros ->; rewrite Nat.mul_0_r in K; lia). rewrite (Nat.div_mod k nx NX). rewrite (Nat.mul_comm nx). apply H; [apply Nat.div_lt_upper_bound; [exact NX|lia]|apply Nat.mod_upper_bound; exact NX].
  - rewrite (proj2 (nth_error_None l k)), (proj2 (nth_error_None m k)) by lia. reflexivity.
Qed.
Lemma places_iff : forall xr yr nx ny xs ys, grid_places xr yr nx ny xs ys <->
  xs = map snd (list_prod (linspace (fst yr) (snd yr) ny) (linspace (fst xr) (snd xr) nx)) /\ ys = map fst (list_prod (linspace (fst yr) (snd yr) ny) (linspace (fst xr) (snd xr) nx)).
Proof.
  intros xr yr nx ny xs ys. set (gx := linspace (fst xr) (snd xr) nx). set (gy := linspace (fst yr) (snd yr) ny).
  assert (LX : List.length gx = nx) by (unfold gx, linspace; rewrite map_length, seq_length; reflexivity). assert (LY : List.length gy = ny) by (unfold gy, linspace; rewrite map_length, seq_length; reflexivity).
  pose proof (prod_nth gy gx) as P. rewrite LX, LY in P. unfold grid_places. split.
  - intros (gx' & gy' & EX & EY & A & B & H). apply evenly_iff in EX. apply evenly_iff in EY. subst gx' gy'. fold gx gy in H. split; (apply (list_by_rows _ _ _ ny nx); [assumption|rewrite map_length, prod_length, LX, LY; reflexivity|]); intros i j I J; destruct (H i j I J) as (H1 & H2); destruct (P i j I J) as (P1 & P2); congruence.
  - intros (-> & ->). exists gx, gy. split; [apply evenly_iff; reflexivity|]. split; [apply evenly_iff; reflexivity|]. split; [rewrite map_length, prod_length, LX, LY; reflexivity|]. split; [rewrite map_length, prod_length, LX, LY; reflexivity|]. exact P.
Qed.
Lemma map_iff : forall table fpam fsam M0 M1 cor xr yr nx ny target logr filepath save default out file,
  create_ct_map linear table fpam fsam M0 M1 cor xr yr nx ny target logr filepath save default = Ok (out, file) <->
  (exists xs ys vs, (match target with Some t => t = (xs, ys) | None => grid_places xr yr nx ny xs ys end)
     /\ interpolation linear table fpam fsam M0 M1 cor xs ys logr vs /\ Forall2 (fun e o => snd o = fst e /\ fst o = snd e) vs out)
  /\ (save = true /\ filepath = None -> file = Some default) /\ (~ (save = true /\ filepath = None) -> file = None).
Proof.
  intros table fpam fsam M0 M1 cor xr yr nx ny target logr filepath save default out file. unfold create_ct_map.
  assert (O : forall vs, Forall2 (fun (e : R * (R * R)) (o : R * R * R) => snd o = fst e /\ fst o = snd e) vs out <-> out = map (fun e => (fst (snd e), snd (snd e), fst e)) vs).
  { intros vs. apply f2_map. intros [v [x y]] [[x' y'] v']. cbn [fst snd]. split; [intros (-> & E); injection E as -> ->; reflexivity|intros E; injection E as -> -> ->; split; reflexivity]. }
  assert (FI : forall w, w = (if save then match filepath with None => Some default | Some _ => None end else None) <-> (save = true /\ filepath = None -> w = Some default) /\ (~ (save = true /\ filepath = None) -> w = None)).
  { intros w. destruct save; [destruct filepath as [p|]|].
    - split; [intros ->; split; [intros (_ & X); discriminate|reflexivity]|]. intros (_ & H). apply H. intros (_ & X). discriminate.
    - split; [intros ->; split; [reflexivity|intros n; exfalso; apply n; split; reflexivity]|]. intros (H & _). apply H. split; reflexivity.
    - split; [intros ->; split; [intros (X & _); discriminate|reflexivity]|]. intros (_ & H). apply H. intros (X & _). discriminate. }
  set (t := match target with Some t => t | None => _ end).
  assert (T : forall xs ys, (match target with Some t => t = (xs, ys) | None => grid_places xr yr nx ny xs ys end) <-> t = (xs, ys)).
  { intros xs ys. unfold t. destruct target; [reflexivity|]. rewrite places_iff. split; [intros (-> & ->); reflexivity|intros E; injection E as <- <-; split; reflexivity]. }
  clearbody t. split.
  - destruct (interpolate_ct linear table fpam fsam M0 M1 cor (fst t) (snd t) logr) as [vs|] eqn:I; cbn [bind]; [|discriminate]. intros H. assert (HO : out = map (fun e => (fst (snd e), snd (snd e), fst e)) vs) by congruence. assert (HF : file = (if save then match filepath with None => Some default | Some _ => None end else None)) by congruence. clear H. split; [|apply FI; exact HF]. exists (fst t), (snd t), vs. split; [apply T; destruct t; reflexivity|]. split; [apply interpolate_iff; exact I|apply O; exact HO].
  - intros ((xs & ys & vs & HT & I & HO) & HF). apply T in HT. subst t. cbn [fst snd]. apply interpolate_iff in I. rewrite I. cbn [bind]. apply O in HO. apply FI in HF. rewrite HO, HF. reflexivity.
Qed.
End Interpolate.
