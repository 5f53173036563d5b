(** Noise maps: bias offset and the function as a whole. *)
From Verif Require CtDataProofs.
From Coq Require Import List Arith Bool Reals ZArith Lia Lra Sorting.Sorted String.
From Verif Require Import Base CombineModel CombineSpec CombineProofs ComboSpec ComboProofs DqModel DqProofs GeomModel GeomSpec FlatModel FlatSpec FlatProofs FlatTopProofs NoiseModel NoiseSpec NoiseFitProofs NoiseProofs NoiseTopProofs.
Import ListNotations.
Local Open Scope R_scope.

(** ** Offsets *)
Lemma f2_fun : forall A B (f : A -> B) l m, Forall2 (fun a b => b = f a) l m <-> m = map f l.
Proof.
  intros A B f l m. split.
  - intros F. induction F as [|a b l m H F IH]; [reflexivity|]. cbn [map]. congruence.
  - intros ->. induction l as [|a l IH]; cbn [map]; constructor; [reflexivity|exact IH].
Qed.
Lemma f2_ext : forall A B (P Q : A -> B -> Prop) l m, (forall a b, In a l -> (P a b <-> Q a b)) -> (Forall2 P l m <-> Forall2 Q l m).
Proof.
  intros A B P Q l. induction l as [|a l IH]; intros [|b m] H; split; intros F; try (inversion F; fail); try constructor; inversion F; subst; try (apply (H a b); [left; reflexivity|assumption]); apply (IH m); try assumption; intros; apply H; right; assumption.
Qed.
Definition med_left (res : list frame -> R -> R -> nat -> nat -> val) (ps : list (nat * nat)) (z : list frame * (R * R) * R) : val :=
  offset_of ps (res (fst (fst z)) (fst (snd (fst z))) (snd (snd (fst z)))) (snd z).
Lemma median_some : forall l m, median_of l (Some m) <-> nanmedian l = Some m.
Proof.
  intros l m. split.
  - intros H. apply (median_one l); [apply nanmedian_of|exact H].
  - intros <-. apply nanmedian_of.
Qed.
Lemma offset_iff : forall tel left res ps ss gts ks b, combine (combine ss gts) ks <> [] -> Forall (fun k => 0 < k) ks ->
  (forall s p pt v, In pt ps -> ((exists y, stack_mean tel s (fst pt) (snd pt) y /\ left pt y p v) <-> v = res s (fst p) (snd p) (fst pt) (snd pt))) ->
  (offset tel left ps ss gts ks b <-> mean_all (map (med_left res ps) (combine (combine ss gts) ks)) = Some b).
Proof.
  intros tel left res ps ss gts ks b NE K H. unfold offset.
  assert (G : forall os, Forall2 (fun z o => exists vs m, Forall2 (fun p v => exists y, stack_mean tel (fst (fst z)) (fst p) (snd p) y /\ left p y (snd (fst z)) v) ps vs /\ median_of vs (Some m) /\ o = m / snd z) (combine (combine ss gts) ks) os
     <-> Forall2 (fun z o => med_left res ps z = Some o) (combine (combine ss gts) ks) os).
  { intros os. apply f2_ext. intros z o Z. assert (NZ : snd z <> 0). { rewrite Forall_forall in K. assert (In (snd z) ks) as Q by (destruct z as [z k]; eapply in_combine_r; exact Z). specialize (K _ Q). lra. }
    assert (V : forall vs, Forall2 (fun p v => exists y, stack_mean tel (fst (fst z)) (fst p) (snd p) y /\ left p y (snd (fst z)) v) ps vs <-> vs = map (fun p => res (fst (fst z)) (fst (snd (fst z))) (snd (snd (fst z))) (fst p) (snd p)) ps).
    { intros vs. rewrite <- f2_fun. apply f2_ext. intros pt v I. apply H. exact I. }
    unfold med_left, offset_of. split.
    - intros (vs & m & F & M & E). apply V in F. subst vs. apply median_some in M. rewrite M. cbn [vdiv]. destruct (Req_EM_T (snd z) 0); [contradiction|]. congruence.
    - intros E. destruct (nanmedian _) as [m|] eqn:M in E; [|discriminate E]. cbn [vdiv] in E. destruct (Req_EM_T (snd z) 0); [contradiction|]. exists (map (fun p => res (fst (fst z)) (fst (snd (fst z))) (snd (snd (fst z))) (fst p) (snd p)) ps), m.
      split; [apply V; reflexivity|]. split; [apply median_some; exact M|]. congruence. }
  unfold mean_all. split.
  - intros (os & M & F). apply G in F. apply f2_map_some in F. rewrite F, allsome_map, somes_map, map_length. f_equal. symmetry. apply mean_iff; [exact (proj1 M)|exact M].
  - intros E. destruct (allsome _) eqn:A in E; [|discriminate E]. apply allsome_iff in A. set (os := somes _) in *. exists os. split.
    + assert (N : os <> []). { intros Z. rewrite Z in A. destruct (combine (combine ss gts) ks); [congruence|discriminate A]. }
      apply mean_iff; [exact N|]. assert (X : List.length (map (med_left res ps) (combine (combine ss gts) ks)) = List.length os) by (rewrite A; apply map_length). rewrite X in E. congruence.
    + apply G. apply f2_map_some. exact A.
Qed.

Section Main.
Variable rg : regions.
Variable tel : Z * option Z.

Lemma left_mid_iff : forall nr gts ss (fits : nat -> nat -> option ((R * R * R) * (R * R * R))) s p pt v, fits (fst pt) (snd pt) = parts tel nr gts ss (fst pt) (snd pt) ->
  ((exists y, stack_mean tel s (fst pt) (snd pt) y /\ leaves (fits (fst pt) (snd pt)) y p v) <-> v = left_mid tel nr gts ss s (fst p) (snd p) (fst pt) (snd pt)).
Proof.
  intros nr gts ss fits s p pt v ->. unfold left_mid, leaves.
  assert (X : (exists y, stack_mean tel s (fst pt) (snd pt) y /\ match parts tel nr gts ss (fst pt) (snd pt), y with Some (q, _), Some m => v = Some (m - predicted p q) | _, _ => v = None end)
    <-> match parts tel nr gts ss (fst pt) (snd pt), mean_pix tel s (fst pt) (snd pt) with Some (q, _), Some m => v = Some (m - predicted p q) | _, _ => v = None end).
  { split; [intros (y & Y & E); apply stack_mean_iff in Y; subst y; exact E|intros E; exists (mean_pix tel s (fst pt) (snd pt)); split; [apply stack_mean_iff; reflexivity|exact E]]. }
  rewrite X. destruct (parts _ _ _ _ _ _) as [[[[F C0] D] e]|]; [|tauto]. destruct (mean_pix _ _ _ _) as [m|]; [|tauto]. unfold predicted. cbn [fst snd].
  replace (m - (F + fst p * C0 + fst p * snd p * D)) with (m - fst p * C0 - F - fst p * snd p * D) by ring. tauto.
Qed.
Lemma parts_dev : forall nr gts ss r c q e, parts tel nr gts ss r c = Some (q, e) -> 0 <= fst (fst e) /\ 0 <= snd (fst e) /\ 0 <= snd e.
Proof. intros nr gts ss r c q e H. unfold parts in H. destruct (observed _ _ _ _ _); [|discriminate H]. injection H as <- <-. cbn [fst snd]. repeat split; apply sqrt_pos. Qed.
Lemma stacks_err_pos : forall ss r c e, stacks_err tel ss r c = Some e -> 0 <= e.
Proof. intros ss r c e H. unfold stacks_err in H. destruct (allsome _); [|discriminate H]. injection H as <-. apply sqrt_pos. Qed.
Lemma left_over_iff : forall d nr gts ss (fits : nat -> nat -> option ((R * R * R) * (R * R * R))) (pool : nat -> nat -> val) s p pt v,
  fits (fst pt) (snd pt) = parts tel nr gts ss (fst pt) (snd pt) -> pool (fst pt) (snd pt) = stacks_err tel ss (fst pt) (snd pt) ->
  ((exists y, stack_mean tel s (fst pt) (snd pt) y /\ leaves_by d (fits (fst pt) (snd pt)) (pool (fst pt) (snd pt)) y p v) <-> v = left_over tel nr gts ss d s (fst p) (snd p) (fst pt) (snd pt)).
Proof.
  intros d nr gts ss fits pool s p pt v -> ->. unfold left_over, leaves_by.
  assert (X : (exists y, stack_mean tel s (fst pt) (snd pt) y /\ match parts tel nr gts ss (fst pt) (snd pt), stacks_err tel ss (fst pt) (snd pt), y with Some (q, e), Some u, Some m => v = Some (m - predicted p q + d * (u + predicted p e)) | _, _, _ => v = None end)
    <-> match parts tel nr gts ss (fst pt) (snd pt), stacks_err tel ss (fst pt) (snd pt), mean_pix tel s (fst pt) (snd pt) with Some (q, e), Some u, Some m => v = Some (m - predicted p q + d * (u + predicted p e)) | _, _, _ => v = None end).
  { split; [intros (y & Y & E); apply stack_mean_iff in Y; subst y; exact E|intros E; exists (mean_pix tel s (fst pt) (snd pt)); split; [apply stack_mean_iff; reflexivity|exact E]]. }
  rewrite X. destruct (parts _ _ _ _ _ _) as [[[[F C0] D] [[sF sC] sD]]|]; [|tauto]. destruct (stacks_err _ _ _ _) as [u|] eqn:U; [|tauto]. destruct (mean_pix _ _ _ _) as [m|]; [|tauto]. unfold predicted. cbn [fst snd].
  rewrite (Rabs_pos_eq u (stacks_err_pos _ _ _ _ U)).
  replace (m - (F + fst p * C0 + fst p * snd p * D) + d * (u + (sF + fst p * sC + fst p * snd p * sD))) with (m + d * u - fst p * (C0 - d * sC) - (F - d * sF) - fst p * snd p * (D - d * sD)) by ring. tauto.
Qed.

(** Both bounds exist together. *)
Lemma left_none : forall nr gts ss d d' s g t r c, left_over tel nr gts ss d s g t r c = None -> left_over tel nr gts ss d' s g t r c = None.
Proof. intros nr gts ss d d' s g t r c H. unfold left_over in *. destruct (parts _ _ _ _ _ _) as [[[[F C0] D] [[sF sC] sD]]|]; [|reflexivity]. destruct (stacks_err _ _ _ _); [|reflexivity]. destruct (mean_pix _ _ _ _); [discriminate H|reflexivity]. Qed.
Lemma nanmedian_none : forall l, nanmedian l = None <-> Forall (fun v => v = None) l.
Proof.
  intros l. assert (Q : nanmedian l = None <-> somes l = []).
  { split; [intros H; pose proof (nanmedian_of l) as M; rewrite H in M; exact M|]. intros H. apply (median_one l); [apply nanmedian_of|exact H]. }
  rewrite Q. induction l as [|[x|] l IH]; cbn [somes]; [split; [constructor|reflexivity]|split; [discriminate|intros F; inversion F; discriminate]|].
  split; [intros H; constructor; [reflexivity|apply IH; [|exact H]]|intros F; inversion F; subst; apply IH; [|assumption]].
  - split; [intros X; pose proof (nanmedian_of l) as M; rewrite X in M; exact M|]. intros X. apply (median_one l); [apply nanmedian_of|exact X].
  - split; [intros X; pose proof (nanmedian_of l) as M; rewrite X in M; exact M|]. intros X. apply (median_one l); [apply nanmedian_of|exact X].
Qed.
Lemma bounds_together : forall nr gts ss d d' ps zs b, mean_all (map (med_left (left_over tel nr gts ss d) ps) zs) = Some b -> exists b', mean_all (map (med_left (left_over tel nr gts ss d') ps) zs) = Some b'.
Proof.
  intros nr gts ss d d' ps zs b H. unfold mean_all in *. destruct (allsome _) eqn:A in H; [|discriminate H]. destruct (allsome (map (med_left (left_over tel nr gts ss d') ps) zs)) eqn:A'; [eexists; reflexivity|]. exfalso.
  apply allsome_false in A'. apply in_map_iff in A' as (z & E & Z). assert (X : In None (map (med_left (left_over tel nr gts ss d) ps) zs)).
  { apply in_map_iff. exists z. split; [|exact Z]. unfold med_left, offset_of in *.
    destruct (Req_EM_T (snd z) 0) as [Z0|N0]; [match goal with |- vdiv ?x _ = None => destruct x end; [|reflexivity]; cbn [vdiv]; destruct (Req_EM_T (snd z) 0); [reflexivity|contradiction]|].
    destruct (nanmedian _) as [m|] eqn:M in E; [cbn [vdiv] in E; destruct (Req_EM_T (snd z) 0); [contradiction|discriminate E]|].
    apply nanmedian_none in M. assert (M' : nanmedian (map (fun p => left_over tel nr gts ss d (fst (fst z)) (fst (snd (fst z))) (snd (snd (fst z))) (fst p) (snd p)) ps) = None).
    { apply nanmedian_none. rewrite Forall_forall in *. intros v V. apply in_map_iff in V as (p & <- & P). apply (left_none _ _ _ d'). apply M. apply in_map_iff. exists p. split; [reflexivity|exact P]. }
    rewrite M'. reflexivity. }
  apply allsome_false in X. congruence.
Qed.

(** ** Settings of the sub-stacks *)
Definition times (ss : list (list frame)) : list R := map (fun s => match s with f :: _ => f_time f | [] => 0 end) ss.
Definition kgains (ss : list (list frame)) : list R := map (fun s => match s with f :: _ => f_kgain f | [] => 0 end) ss.
Lemma settings_split : forall ss gts ks, settings ss gts ks <-> exists gs, Forall2 (fun s g => exists f t, s = f :: t /\ gain_is f g) ss gs /\ gts = combine gs (times ss) /\ ks = kgains ss.
Proof.
  intros ss gts ks. unfold settings. split.
  - intros [F G]. exists (map fst gts). assert (K : ks = kgains ss). { apply f2_fun. revert G. apply CtDataProofs.f2_impl. intros s k (f & t & -> & ->). reflexivity. }
    split; [|split; [|exact K]].
    + clear G K. induction F as [|s p ss' gts' (f & t & -> & A & B) F IH]; cbn [map]; constructor; [exists f, t; auto|exact IH].
    + clear G K. induction F as [|s [g u] ss' gts' (f & t & -> & A & B) F IH]; [reflexivity|]. cbn [map fst snd times combine]. cbn [fst snd] in A, B. unfold times in IH. subst u. f_equal. exact IH.
  - intros (gs & F & -> & ->). split.
    + induction F as [|s g ss' gs' (f & t & -> & A) F IH]; [constructor|]. unfold times. cbn [map combine]. constructor; [exists f, t; cbn [fst snd]; auto|exact IH].
    + induction F as [|s g ss' gs' (f & t & -> & A) F IH]; [constructor|]. unfold kgains. cbn [map]. constructor; [exists f, t; auto|exact IH].
Qed.

Lemma geom_iff : forall a h w r0 c0, lookup "SCI" rg = Some a -> (imaging_area_geom rg "SCI" = Ok (h, w, r0, c0) <-> shielded a r0 c0 h w).
Proof.
  intros a h w r0 c0 A. unfold imaging_area_geom, unpack_geom, get_area, shielded. rewrite A. cbn [getkey bind]. split.
  - intros H. destruct (lookup "prescan" (a_secs a)) as [pre|]; [|discriminate H]. cbn [getkey bind] in H. destruct (lookup "serial_overscan" (a_secs a)) as [ser|]; [|discriminate H]. cbn [getkey bind] in H.
    destruct (lookup "parallel_overscan" (a_secs a)) as [par|]; [|discriminate H]. cbn [getkey bind] in H. destruct (lookup "image" (a_secs a)) as [im|]; [|discriminate H]. cbn [getkey bind] in H.
    exists pre, ser, par, im. repeat (split; [reflexivity|]). injection H as <- <- <- <-. repeat split; lia.
  - intros (pre & ser & par & im & -> & -> & -> & -> & -> & -> & -> & ->). cbn [getkey bind]. do 2 f_equal. f_equal. lia.
Qed.
Lemma clip_floor : forall v, clip v = floor0 v.
Proof. intros [x|]; [|reflexivity]. cbn [clip floor0 option_map]. f_equal. destruct (Rlt_dec x 0); [rewrite Rmax_left by lra; reflexivity|rewrite Rmax_right by lra; reflexivity]. Qed.
Lemma pymax_some : forall x y, pymax (Some x) (Some y) = Some (Rmax x y).
Proof. intros x y. cbn [pymax]. f_equal. destruct (Rlt_dec x y); [rewrite Rmax_right by lra; reflexivity|rewrite Rmax_left by lra; reflexivity]. Qed.
Lemma in_area_iff : forall nr nc r0 c0 h w r c, (among (cut nr r0 (r0 + h)) r && among (cut nc c0 (c0 + w)) c) = true <-> in_box nr nc r0 c0 h w (r, c).
Proof. intros. rewrite andb_true_iff, !among_iff. reflexivity. Qed.
Lemma f2_length : forall A B (P : A -> B -> Prop) l m, Forall2 P l m -> List.length l = List.length m.
Proof. intros A B P l m F. induction F; cbn; congruence. Qed.

Definition per (ps : list (nat * nat)) (ss : list (list frame)) (gts : list (R * R)) (ks : list R) (res : list frame -> R -> R -> nat -> nat -> val) : val :=
  mean_all (map (med_left res ps) (combine (combine ss gts) ks)).
(** What calibrate_darks computes once it accepts its input. *)
Definition product (a : area) (ss : list (list frame)) (gts : list (R * R)) (r0 c0 h w : Z) (b be : R) : maps :=
  let nr := Z.to_nat (a_rows a) in let nc := Z.to_nat (a_cols a) in
  let in_area r c := among (cut nr r0 (r0 + h)) r && among (cut nc c0 (c0 + w)) c in
  mkmaps nr nc
        (fun r c => option_map (fun q => fst (fst (fst q))) (parts tel nr gts ss r c))
        (fun r c => clip (option_map (fun q => snd (fst (fst q))) (parts tel nr gts ss r c)))
        (fun r c => if in_area r c then clip (option_map (fun q => snd (fst q)) (parts tel nr gts ss r c)) else if among (telem tel nr) r then None else Some 0)
        (fun r c => option_map (fun q => fst (fst (snd q))) (parts tel nr gts ss r c))
        (fun r c => match parts tel nr gts ss r c, stacks_err tel ss r c with Some q, Some e => Some (sqrt (snd (fst (snd q)) ^ 2 + e ^ 2)) | _, _ => None end)
        (fun r c => if in_area r c then option_map (fun q => snd (snd q)) (parts tel nr gts ss r c) else Some 0)
        (flag ss) b be.
Lemma calibrate_ok : forall fs m, calibrate_darks rg tel fs = Ok m <->
  exists a si sp gs r0 c0 h w b up low, let ss := substacks fs in let gts := combine gs (times ss) in let ks := kgains ss in let ps := cells (mkimg (Z.to_nat (a_rows a)) (Z.to_nat (a_cols a)) (fun _ _ => None)) sp in
   (3 < List.length ss)%nat /\ lookup "SCI" rg = Some a /\ lookup "image" (a_secs a) = Some si /\ lookup "prescan" (a_secs a) = Some sp /\ shielded a r0 c0 h w
   /\ gather rg tel a None ss = Ok gs /\ settings_bad gs (times ss) ks = false /\ no_gain_above gts = false /\ det (normal_of gts) <> 0 /\ ps <> []
   /\ per ps ss gts ks (left_mid tel (Z.to_nat (a_rows a)) gts ss) = Some b /\ per ps ss gts ks (left_over tel (Z.to_nat (a_rows a)) gts ss 1) = Some up
   /\ per ps ss gts ks (left_over tel (Z.to_nat (a_rows a)) gts ss (-1)) = Some low
   /\ m = product a ss gts r0 c0 h w b (Rmax (up - b) (b - low)).
Proof.
  intros fs m. unfold calibrate_darks. set (ss := substacks fs). fold (times ss). fold (kgains ss). split.
  - intros H. destruct (Nat.leb_spec (List.length ss) 3) as [L|L]; [discriminate H|]. unfold get_area in H. destruct (lookup "SCI" rg) as [a|] eqn:A; [|discriminate H]. cbn [getkey bind] in H.
    destruct (gather rg tel a None ss) as [gs|] eqn:G; [|discriminate H]. cbn [bind] in H. destruct (settings_bad gs (times ss) (kgains ss)) eqn:SB; [discriminate H|]. destruct (no_gain_above (combine gs (times ss))) eqn:NG; [discriminate H|].
    destruct (imaging_area_geom rg "SCI") as [[[[h w] r0] c0]|] eqn:IG; [|discriminate H]. cbn [bind] in H. destruct (Req_EM_T (det (normal_of (combine gs (times ss)))) 0) as [D|D]; [discriminate H|].
    apply (geom_iff a h w r0 c0 A) in IG. unfold unpack_geom, get_area in H. rewrite A in H. cbn [getkey bind] in H. destruct (lookup "prescan" (a_secs a)) as [sp|] eqn:SP; [|discriminate H]. cbn [getkey bind] in H.
    destruct (cells (mkimg (Z.to_nat (a_rows a)) (Z.to_nat (a_cols a)) (fun _ _ => None)) sp) as [|p0 ps] eqn:PS; [discriminate H|]. assert (SI : exists si, lookup "image" (a_secs a) = Some si) by (destruct IG as (? & ? & ? & im & _ & _ & _ & I & _); exists im; exact I). destruct SI as (si & SI).
    fold (med_left (left_mid tel (Z.to_nat (a_rows a)) (combine gs (times ss)) ss) (p0 :: ps)) in H. fold (med_left (left_over tel (Z.to_nat (a_rows a)) (combine gs (times ss)) ss 1) (p0 :: ps)) in H. fold (med_left (left_over tel (Z.to_nat (a_rows a)) (combine gs (times ss)) ss (-1)) (p0 :: ps)) in H.
    change (match per (p0 :: ps) ss (combine gs (times ss)) (kgains ss) (left_mid tel (Z.to_nat (a_rows a)) (combine gs (times ss)) ss) with Some b => match
      pymax (vsub (per (p0 :: ps) ss (combine gs (times ss)) (kgains ss) (left_over tel (Z.to_nat (a_rows a)) (combine gs (times ss)) ss 1)) (Some b))
            (vsub (Some b) (per (p0 :: ps) ss (combine gs (times ss)) (kgains ss) (left_over tel (Z.to_nat (a_rows a)) (combine gs (times ss)) ss (-1)))) with
      | Some be => Ok (product a ss (combine gs (times ss)) r0 c0 h w b be) | _ => Raise ValueError end | _ => Raise ValueError end = Ok m) in H.
    destruct (per (p0 :: ps) ss (combine gs (times ss)) (kgains ss) (left_mid tel (Z.to_nat (a_rows a)) (combine gs (times ss)) ss)) as [b|] eqn:B; [|discriminate H].
    destruct (per (p0 :: ps) ss (combine gs (times ss)) (kgains ss) (left_over tel (Z.to_nat (a_rows a)) (combine gs (times ss)) ss 1)) as [up|] eqn:U; [|discriminate H].
    destruct (bounds_together _ _ _ 1 (-1) _ _ _ U) as (low & LO). change (per (p0 :: ps) ss (combine gs (times ss)) (kgains ss) (left_over tel (Z.to_nat (a_rows a)) (combine gs (times ss)) ss (-1)) = Some low) in LO. rewrite LO in H.
    cbn [vsub] in H. rewrite pymax_some in H. exists a, si, sp, gs, r0, c0, h, w, b, up, low. cbv zeta. rewrite PS. repeat (split; [first [assumption|reflexivity|discriminate]|]). congruence.
  - intros (a & si & sp & gs & r0 & c0 & h & w & b & up & low & L & A & SI & SP & IG & G & SB & NG & D & PS & B & U & LO & ->).
    destruct (Nat.leb_spec (List.length ss) 3) as [L'|_]; [lia|]. unfold get_area. rewrite A. cbn [getkey bind]. rewrite G. cbn [bind]. rewrite SB, NG. apply (geom_iff a h w r0 c0 A) in IG. rewrite IG. cbn [bind].
    destruct (Req_EM_T (det (normal_of (combine gs (times ss)))) 0) as [D'|_]; [contradiction|]. unfold unpack_geom, get_area. rewrite A. cbn [getkey bind]. rewrite SP. cbn [getkey bind].
    destruct (cells (mkimg (Z.to_nat (a_rows a)) (Z.to_nat (a_cols a)) (fun _ _ => None)) sp) as [|p0 ps]; [congruence|].
    change (match per (p0 :: ps) ss (combine gs (times ss)) (kgains ss) (left_mid tel (Z.to_nat (a_rows a)) (combine gs (times ss)) ss) with Some b => match
      pymax (vsub (per (p0 :: ps) ss (combine gs (times ss)) (kgains ss) (left_over tel (Z.to_nat (a_rows a)) (combine gs (times ss)) ss 1)) (Some b))
            (vsub (Some b) (per (p0 :: ps) ss (combine gs (times ss)) (kgains ss) (left_over tel (Z.to_nat (a_rows a)) (combine gs (times ss)) ss (-1)))) with
      | Some be => Ok (product a ss (combine gs (times ss)) r0 c0 h w b be) | _ => Raise ValueError end | _ => Raise ValueError end = Ok (product a ss (combine gs (times ss)) r0 c0 h w b (Rmax (up - b) (b - low)))).
    rewrite B, U, LO. cbn [vsub]. rewrite pymax_some. reflexivity.
Qed.

Theorem maps_iff : forall fs m, noise_maps rg tel fs m <-> exists q, calibrate_darks rg tel fs = Ok q /\ same_maps q m.
Proof.
  intros fs m. split.
  - intros (ss & a & si & sp & gts & ks & r0 & c0 & h & w & fits & pool & ps & up & low & SP & L & A & SI & PRE & SH & EQ & RD & ST & AD & GA & DT & RO & CO & FT & PL & H1 & H2 & H3 & H4 & H5 & H6 & H7 & SV & PN & O1 & O2 & O3 & OE).
    apply splits_iff in SP. subst ss. set (ss := substacks fs) in *. apply settings_split in ST as (gs & GS & -> & ->). set (gts := combine gs (times ss)) in *.
    assert (Lg : List.length gs = List.length (times ss)) by (unfold times; rewrite map_length; symmetry; exact (f2_length _ _ _ _ _ GS)).
    assert (Lt : List.length gts = List.length ss) by (unfold gts; rewrite combine_length, <- Lg, Nat.min_id; symmetry; exact (f2_length _ _ _ _ _ GS)).
    assert (NE : gts <> []) by (intros Z; rewrite Z in Lt; cbn in Lt; lia).
    assert (D : det (normal_of gts) <> 0) by (apply regular_iff; assumption).
    assert (Rn : m_rows m = Z.to_nat (a_rows a)) by lia. assert (Cn : m_cols m = Z.to_nat (a_cols a)) by lia. rewrite Rn in RO, FT, H3, H4, SV. rewrite Cn in CO, H3, H4, SV. set (nr := Z.to_nat (a_rows a)) in *. set (nc := Z.to_nat (a_cols a)) in *.
    assert (FE : forall r c, fits r c = parts tel nr gts ss r c) by (intros r c; apply fitted_iff; [exact D|exact Lt|lia|apply FT]).
    assert (PE : forall r c, pool r c = stacks_err tel ss r c) by (intros r c; apply pooled_iff; [intros Z; rewrite Z in L; cbn in L; lia|apply PL]).
    assert (PSE : ps = cells (mkimg nr nc (fun _ _ => None)) sp) by (apply cells_sieve; exact SV).
    assert (CN : combine (combine ss gts) (kgains ss) <> []). { intros Z. apply (f_equal (@List.length _)) in Z. rewrite !combine_length in Z. unfold kgains in Z. rewrite map_length, Lt in Z. cbn in Z. lia. }
    assert (KP : Forall (fun k => 0 < k) (kgains ss)) by (destruct AD as (_ & _ & _ & K & _); exact K).
    assert (B : per ps ss gts (kgains ss) (left_mid tel nr gts ss) = Some (m_off m)) by (refine (proj1 (offset_iff tel _ (left_mid tel nr gts ss) ps ss gts (kgains ss) (m_off m) CN KP _) O1); intros s p pt v _; apply left_mid_iff; apply FE).
    assert (U : per ps ss gts (kgains ss) (left_over tel nr gts ss 1) = Some up) by (refine (proj1 (offset_iff tel _ (left_over tel nr gts ss 1) ps ss gts (kgains ss) up CN KP _) O2); intros s p pt v _; apply left_over_iff; [apply FE|apply PE]).
    assert (LO : per ps ss gts (kgains ss) (left_over tel nr gts ss (-1)) = Some low) by (refine (proj1 (offset_iff tel _ (left_over tel nr gts ss (-1)) ps ss gts (kgains ss) low CN KP _) O3); intros s p pt v _; apply left_over_iff; [apply FE|apply PE]).
    exists (product a ss gts r0 c0 h w (m_off m) (Rmax (up - m_off m) (m_off m - low))). split.
    + apply calibrate_ok. exists a, si, sp, gs, r0, c0, h, w, (m_off m), up, low. cbv zeta. fold ss gts nr nc. rewrite <- PSE.
      split; [exact L|]. split; [exact A|]. split; [exact SI|]. split; [exact PRE|]. split; [exact SH|].
      split; [apply (gather_iff rg tel a si ss None gs A SI); split; [exact GS|]; split; [|split; [exact EQ|intros n s Z; discriminate Z]]|].
      { apply Forall_forall. intros s S0. apply Forall_forall. intros f F. rewrite Forall_forall in RD. apply (RD f). apply substacks_all. exists s. auto. }
      split; [apply settings_iff; [exact Lg|exact AD]|]. split; [apply gain_above_iff; exact GA|]. split; [exact D|]. split; [exact PN|]. split; [exact B|]. split; [exact U|]. split; [exact LO|]. reflexivity.
    + unfold same_maps, product. cbn [m_rows m_cols m_fpn m_cic m_dc e_fpn e_cic e_dc m_dq m_off m_off_err]. fold nr nc. split; [symmetry; exact Rn|]. split; [symmetry; exact Cn|]. split; [|split; [reflexivity|symmetry; exact OE]].
      intros r c. rewrite H1, H2, H5. rewrite FE. rewrite !clip_floor. split; [reflexivity|]. split; [reflexivity|].
      assert (X : (if among (cut nr r0 (r0 + h)) r && among (cut nc c0 (c0 + w)) c then floor0 (option_map (fun q => snd (fst q)) (parts tel nr gts ss r c)) else if among (telem tel nr) r then None else Some 0) = m_dc m r c
        /\ (if among (cut nr r0 (r0 + h)) r && among (cut nc c0 (c0 + w)) c then option_map (fun q => snd (snd q)) (parts tel nr gts ss r c) else Some 0) = e_dc m r c).
      { destruct (among (cut nr r0 (r0 + h)) r && among (cut nc c0 (c0 + w)) c) eqn:IN.
        - apply in_area_iff in IN. destruct (H3 r c IN) as [E1 E2]. rewrite E1, E2, FE. split; reflexivity.
        - assert (NI : ~ in_box nr nc r0 c0 h w (r, c)) by (intros Z; apply in_area_iff in Z; congruence). destruct (H4 r c NI) as (E1 & E2 & E3). rewrite E3. split; [|reflexivity].
          destruct (among (telem tel nr) r) eqn:T; [apply telem_iff in T; symmetry; exact (E1 T)|]. symmetry. apply E2. intros Z. apply telem_iff in Z. congruence. }
      destruct X as [X1 X2]. split; [exact X1|]. split; [reflexivity|]. split; [|split; [exact X2|]].
      * specialize (H6 r c). rewrite FE, PE in H6. destruct (parts tel nr gts ss r c) as [x|]; [|symmetry; exact H6]. destruct (stacks_err tel ss r c) as [e|]; [|symmetry; exact H6].
        destruct H6 as (u & -> & U0 & UE). f_equal. rewrite <- UE. apply sqrt_pow2. exact U0.
      * symmetry. apply flag_iff. apply H7.
  - intros (q & Q & SM). apply calibrate_ok in Q as (a & si & sp & gs & r0 & c0 & h & w & b & up & low & L & A & SI & PRE & SH & G & SB & NG & D & PN & B & U & LO & ->).
    set (ss := substacks fs) in *. set (gts := combine gs (times ss)) in *. apply (gather_iff rg tel a si ss None gs A SI) in G as (GS & RD & EQ & _).
    assert (Lg : List.length gs = List.length (times ss)) by (unfold times; rewrite map_length; symmetry; exact (f2_length _ _ _ _ _ GS)).
    assert (Lt : List.length gts = List.length ss) by (unfold gts; rewrite combine_length, <- Lg, Nat.min_id; symmetry; exact (f2_length _ _ _ _ _ GS)).
    assert (NE : gts <> []) by (intros Z; rewrite Z in Lt; cbn in Lt; lia).
    apply settings_iff in SB; [|exact Lg]. assert (KP : Forall (fun k => 0 < k) (kgains ss)) by (destruct SB as (_ & _ & _ & K & _); exact K).
    assert (CN : combine (combine ss gts) (kgains ss) <> []). { intros Z. apply (f_equal (@List.length _)) in Z. rewrite !combine_length in Z. unfold kgains in Z. rewrite map_length, Lt in Z. cbn in Z. lia. }
    set (nr := Z.to_nat (a_rows a)) in *. set (nc := Z.to_nat (a_cols a)) in *.
    assert (F0 : exists f, In f fs /\ Z.of_nat (rows (f_img f)) = a_rows a /\ Z.of_nat (cols (f_img f)) = a_cols a).
    { destruct ss as [|s t] eqn:SS; [cbn in L; lia|]. inversion GS as [|? ? ? ? (f & t0 & Es & _) _]; subst. inversion RD as [|? ? R1 _]; subst. inversion R1 as [|? ? R2 _]; subst. exists f. split; [|exact (proj2 R2)].
      apply substacks_all. exists (f :: t0). fold ss. rewrite SS. split; left; reflexivity. }
    destruct F0 as (f0 & _ & R0 & C0). assert (Rn : Z.of_nat nr = a_rows a) by (unfold nr; lia). assert (Cn : Z.of_nat nc = a_cols a) by (unfold nc; lia). clear f0 R0 C0.
    destruct SM as (SR & SC & SE & SO & SOE). unfold product in SR, SC, SE, SO, SOE. cbn [m_rows m_cols m_fpn m_cic m_dc e_fpn e_cic e_dc m_dq m_off m_off_err] in SR, SC, SE, SO, SOE. fold nr nc in SR, SC, SE.
    exists ss, a, si, sp, gts, (kgains ss), r0, c0, h, w, (parts tel nr gts ss), (stacks_err tel ss), (cells (mkimg nr nc (fun _ _ => None)) sp), up, low. rewrite <- SR, <- SC, <- SO, <- SOE.
    split; [apply splits_iff; reflexivity|]. split; [exact L|]. split; [exact A|]. split; [exact SI|]. split; [exact PRE|]. split; [exact SH|]. split; [exact EQ|].
    split. { apply Forall_forall. intros f F. apply substacks_all in F as (s & S0 & F). rewrite Forall_forall in RD. specialize (RD s S0). rewrite Forall_forall in RD. destruct (RD f F) as [X [Y Z]]. auto. }
    split; [apply settings_split; exists gs; auto|]. split; [exact SB|]. split; [apply gain_above_iff; exact NG|]. split; [apply regular_iff; assumption|]. split; [exact Rn|]. split; [exact Cn|].
    split; [intros r c; apply fitted_iff; [exact D|exact Lt|lia|reflexivity]|]. split; [intros r c; apply pooled_iff; [intros Z; rewrite Z in L; cbn in L; lia|reflexivity]|].
    split; [intros r c; symmetry; apply (SE r c)|]. split; [intros r c; rewrite <- clip_floor; symmetry; apply (SE r c)|].
    split. { intros r c IN. apply in_area_iff in IN. destruct (SE r c) as (_ & _ & E1 & _ & _ & E2 & _). rewrite IN in E1, E2. rewrite <- clip_floor. split; symmetry; assumption. }
    split. { intros r c NI. assert (IN : (among (cut nr r0 (r0 + h)) r && among (cut nc c0 (c0 + w)) c) = false) by (destruct (among _ _ && among _ _) eqn:Z; [apply in_area_iff in Z; contradiction|reflexivity]).
      destruct (SE r c) as (_ & _ & E1 & _ & _ & E2 & _). rewrite IN in E1, E2. split; [intros T; apply telem_iff in T; rewrite T in E1; symmetry; exact E1|]. split; [|symmetry; exact E2].
      intros T. assert (T' : among (telem tel nr) r = false) by (destruct (among (telem tel nr) r) eqn:Z; [apply telem_iff in Z; contradiction|reflexivity]). rewrite T' in E1. symmetry. exact E1. }
    split; [intros r c; symmetry; apply (SE r c)|].
    split. { intros r c. destruct (SE r c) as (_ & _ & _ & _ & E1 & _). destruct (parts tel nr gts ss r c) as [x|]; [|symmetry; exact E1]. destruct (stacks_err tel ss r c) as [e|]; [|symmetry; exact E1].
      exists (sqrt (snd (fst (snd x)) ^ 2 + e ^ 2)). split; [symmetry; exact E1|]. split; [apply sqrt_pos|]. apply pow2_sqrt. pose proof (pow2_ge_0 (snd (fst (snd x)))). pose proof (pow2_ge_0 e). lra. }
    split; [intros r c; apply flag_iff; symmetry; apply (SE r c)|].
    split; [apply (cells_sieve (mkimg nr nc (fun _ _ => None)) sp); reflexivity|]. split; [exact PN|].
    split; [refine (proj2 (offset_iff tel _ (left_mid tel nr gts ss) _ ss gts (kgains ss) b CN KP _) B); intros s p pt v _; apply left_mid_iff; reflexivity|].
    split; [refine (proj2 (offset_iff tel _ (left_over tel nr gts ss 1) _ ss gts (kgains ss) up CN KP _) U); intros s p pt v _; apply left_over_iff; reflexivity|].
    split; [refine (proj2 (offset_iff tel _ (left_over tel nr gts ss (-1)) _ ss gts (kgains ss) low CN KP _) LO); intros s p pt v _; apply left_over_iff; reflexivity|]. reflexivity.
Qed.
End Main.
