(** C57: core throughput. *)
From Coq Require Import List Arith Bool Reals ZArith String Sorting Lia Lra.
From Verif Require Import Base CombineModel ComboSpec AngleModel AngleSpec NearModel NearSpec FlatModel FlatSpec FluxModel FluxSpec CtModel CtSpec CtProofs CtSetProofs CtDataProofs CtInterpProofs CtMapProofs CtLawProofs CtFactProofs CtDemoProofs.
Import ListNotations.
Local Open Scope R_scope.

Theorem C57_centroid : forall f r x y, centroid_with_roi f r = Ok (x, y) <-> position f r x y.
Proof. exact position_iff. Qed.
Print Assumptions C57_centroid.
Theorem C57_centroid_fails : forall f r e, centroid_with_roi f r = Raise e <-> e = ValueError /\ forall p, inside_of f p -> value_of f p = None.
Proof. exact centroid_fails. Qed.
Print Assumptions C57_centroid_fails.
Theorem C57_centroid_within : forall f r x y, (forall p v, inside_of f p -> value_of f p = Some v -> 0 <= v) -> position f r (Some x) (Some y) ->
  exists p, is_peak f p /\ INR (snd p) - INR r <= x <= INR (snd p) + INR r /\ INR (fst p) - INR r <= y <= INR (fst p) + INR r.
Proof. exact centroid_within. Qed.
Print Assumptions C57_centroid_within.
Theorem C57_centroid_symmetric : forall f p r x y, is_peak f p -> (r <= fst p)%nat -> (fst p + r < rows f)%nat -> (r <= snd p)%nat -> (snd p + r < cols f)%nat -> symmetric f p r -> position f r (Some x) (Some y) -> x = INR (snd p) /\ y = INR (fst p).
Proof. exact symmetric_position. Qed.
Print Assumptions C57_centroid_symmetric.
Theorem C57_centroid_scale : forall k f g r x y, 0 < k -> brighter k f g -> position f r x y -> position g r x y.
Proof. exact position_scale. Qed.
Print Assumptions C57_centroid_scale.
Theorem C57_core : forall norm f v, psf_ct norm f = Ok v <-> throughput norm f v.
Proof. exact throughput_iff. Qed.
Print Assumptions C57_core.
Theorem C57_core_scale : forall k f g n v, 0 < k -> brighter k f g -> throughput n f v -> throughput (option_map (Rmult k) n) g v /\ throughput n g (option_map (Rmult k) v).
Proof. exact throughput_scale. Qed.
Print Assumptions C57_core_scale.
Theorem C57_core_unit : forall f s n v, (forall p w, inside_of f p -> value_of f p = Some w -> 0 <= w) -> total (map (value_of f) (places f)) (Some s) -> 0 < n -> s <= n -> throughput (Some n) f (Some v) -> 0 <= v <= s / n /\ v <= 1.
Proof. exact throughput_unit. Qed.
Print Assumptions C57_core_unit.
Theorem C57_core_nan_refuted : forall f p n v, inside_of f p -> value_of f p = None -> throughput n f v -> v = quot (Some 0) n.
Proof. exact nan_core. Qed.
Print Assumptions C57_core_nan_refuted.
Theorem C57_lens : forall L name ver k, sorted_lenses L -> (di_over_pil L name ver = Ok k <-> lens_ratio L name ver k).
Proof. exact ratio_iff. Qed.
Print Assumptions C57_lens.
Theorem C57_lens_constant : forall L name ver lp c k, increasing (map fst lp) -> l_pupil L ver = Some lp -> l_imaging L ver = Some (map (fun q => (fst q, c * snd q)) lp) -> lens_ratio L name ver (Some k) -> k = c.
Proof. exact ratio_constant. Qed.
Print Assumptions C57_lens_constant.
Theorem C57_estimate : forall L ver r l pos ct, sorted_lenses L -> (estimate L ver r l = Ok (pos, ct) <-> estimates L ver r l pos ct).
Proof. exact estimate_iff. Qed.
Print Assumptions C57_estimate.
Theorem C57_placement : forall L ver r l l' ps ch pos ct, sieve pupil_frame l ps -> sieve pupil_frame l' ps -> offaxis l ch -> offaxis l' ch -> estimates L ver r l pos ct -> estimates L ver r l' pos ct.
Proof. exact placement. Qed.
Print Assumptions C57_placement.
Theorem C57_stamp : forall n t loc s, cut n t loc = Ok s <-> cut_of n t loc s.
Proof. exact cut_iff. Qed.
Print Assumptions C57_stamp.
Theorem C57_stamp_interior : forall n t x y ix iy s, rounds x ix -> rounds y iy -> (0 <= n <= ix)%Z -> (n <= iy)%Z -> (ix + n < Z.of_nat (cols (t_img t)))%Z -> (iy + n < Z.of_nat (rows (t_img t)))%Z -> cut_of n t (Some x, Some y) s ->
  Z.of_nat (rows (fst s)) = (2 * n + 1)%Z /\ Z.of_nat (cols (fst s)) = (2 * n + 1)%Z
  /\ forall i j, pix (fst s) i j = pix (t_img t) (Z.to_nat (iy - n) + i) (Z.to_nat (ix - n) + j) /\ snd s i j = t_dq t (Z.to_nat (iy - n) + i)%nat (Z.to_nat (ix - n) + j)%nat.
Proof. exact interior_stamp. Qed.
Print Assumptions C57_stamp_interior.
Theorem C57_stamp_edge : forall n t x y ix iy s, rounds x ix -> rounds y iy -> (0 <= n)%Z -> (0 <= iy < Z.of_nat (rows (t_img t)))%Z -> cut_of n t (Some x, Some y) s ->
  (iy < n \/ Z.of_nat (rows (t_img t)) <= iy + n)%Z -> (Z.of_nat (rows (fst s)) < 2 * n + 1)%Z.
Proof. exact cut_short. Qed.
Print Assumptions C57_stamp_edge.
Theorem C57_cube : forall L name ver l locs ss, generate_psf_cube L name ver l locs = Ok ss <-> cube_of L name ver l locs ss.
Proof. exact cube_iff. Qed.
Print Assumptions C57_cube.
Theorem C57_ragged_refuted : forall L name ver n l locs us ch, half_side L name ver n -> offaxis l ch -> Forall2 (fun t x => cut_of n t (fst x) (snd x)) ch us -> map fst us = locs -> ~ alike (map snd us) -> generate_psf_cube L name ver l locs = Raise ValueError.
Proof. exact ragged. Qed.
Print Assumptions C57_ragged_refuted.
Theorem C57_product : forall L ver r l k, sorted_lenses L -> (generate_ct_cal L ver r l = Ok k <-> cal_of L ver r l k).
Proof. exact cal_iff. Qed.
Print Assumptions C57_product.
Theorem C57_pairs : forall L ver r l k ch, cal_of L ver r l k -> offaxis l ch ->
  List.length (k_table k) = List.length ch /\ List.length (k_cube k) = List.length ch
  /\ exists cfam norm n, one_filter l cfam /\ unocculted L cfam ver l norm /\ half_side L cfam ver n
     /\ forall i t, nth_error ch i = Some t -> exists p v s, nth_error (k_table k) i = Some (p, v) /\ nth_error (k_cube k) i = Some s /\ position (t_img t) r (fst p) (snd p) /\ throughput norm (t_img t) v /\ cut_of n t p s.
Proof. exact table_pairs. Qed.
Print Assumptions C57_pairs.
Theorem C57_first_frame_refuted : exists L ver r p o k k', pupil_frame p /\ ~ pupil_frame o /\ generate_ct_cal L ver r [p; o] = Ok k /\ generate_ct_cal L ver r [o; p] = Ok k' /\ k_table k = k_table k' /\ k_cube k = k_cube k' /\ k_fpam k <> k_fpam k'.
Proof. exact first_position. Qed.
Print Assumptions C57_first_frame_refuted.
Theorem C57_mask : forall fpam fsam M0 M1 cor p q, ct_fpm_position fpam fsam M0 M1 cor = Ok (p, q) <-> mask_at fpam fsam M0 M1 cor p q.
Proof. exact mask_iff. Qed.
Print Assumptions C57_mask.
Theorem C57_mask_same : forall fpam fsam M0 M1 h r c, cards_of (c_star h) c -> cards_of (c_fpam h) fpam -> cards_of (c_fsam h) fsam -> mask_at fpam fsam M0 M1 (h :: r) c c.
Proof. exact mask_same. Qed.
Print Assumptions C57_mask_same.
Theorem C57_interpolate : forall (linear : list (val * R) -> list R -> result (val * val -> val)) table fpam fsam M0 M1 cor xs ys logr out,
  interpolate_ct linear table fpam fsam M0 M1 cor xs ys logr = Ok out <-> interpolation linear table fpam fsam M0 M1 cor xs ys logr out.
Proof. exact interpolate_iff. Qed.
Print Assumptions C57_interpolate.
Theorem C57_interpolate_within : forall (linear : list (val * R) -> list R -> result (val * val -> val)) table fpam fsam M0 M1 cor xs ys logr out v t, (forall p w, In (p, w) table -> 0 <= w <= 1) -> interpolation linear table fpam fsam M0 M1 cor xs ys logr out -> In (v, t) out ->
  0 <= v <= 1 /\ In t (combine xs ys) /\ exists c c', mask_at fpam fsam M0 M1 cor c c' /\ in_range (map (fun e => AngleSpec.minus (fst e) c) table) t.
Proof. exact results_within. Qed.
Print Assumptions C57_interpolate_within.
Theorem C57_interpolate_node : forall (linear : list (val * R) -> list R -> result (val * val -> val)) grid logr i g c v,
  (forall pts zs q, linear pts zs = Ok q -> forall j r a z, nth_error pts j = Some (Some r, a) -> nth_error zs j = Some z -> q (Some r, Some a) = Some z) ->
  nth_error grid i = Some (g, c) -> g <> (0, 0) -> (exists h d a b, In (h, d) grid /\ azimuth h b /\ azimuth g a /\ a < b) -> raw_values linear grid logr [g] [v] -> v = Some c.
Proof. exact node_value. Qed.
Print Assumptions C57_interpolate_node.
Theorem C57_azimuth_refuted : forall (linear : list (val * R) -> list R -> result (val * val -> val)) grid logr t u v w azs a0 a m, Forall2 (fun g a => azimuth (fst g) a) grid azs -> least_of azs a0 -> most_of azs (a0 + m) -> azimuth t a -> azimuth u (a + m) -> far t = far u -> raw_values linear grid logr [t; u] [v; w] -> v = w.
Proof. exact folded_targets. Qed.
Print Assumptions C57_azimuth_refuted.
Theorem C57_repair_refuted : exists linear table fpam fsam M0 M1 cor out, mask_at fpam fsam M0 M1 cor (0, 0) (0, 0) /\ In ((1, 0), 1 / 10) table /\ In ((0, 2), 2 / 10) table
  /\ interpolate_ct linear table fpam fsam M0 M1 cor [0; 1] [2; 0] false = Ok out /\ In (1 / 10, (0, 2)) out /\ In (2 / 10, (1, 0)) out /\ ~ In (2 / 10, (0, 2)) out
  /\ forall out', interpolate_ct linear table fpam fsam M0 M1 cor [0] [2] false <> Ok out'.
Proof. exact swapped. Qed.
Print Assumptions C57_repair_refuted.
Theorem C57_map : forall (linear : list (val * R) -> list R -> result (val * val -> val)) table fpam fsam M0 M1 cor xr yr nx ny target logr filepath save default out file,
  create_ct_map linear table fpam fsam M0 M1 cor xr yr nx ny target logr filepath save default = Ok (out, file) <->
  (exists xs ys vs, (match target with Some t => t = (xs, ys) | None => grid_places xr yr nx ny xs ys end)
     /\ interpolation linear table fpam fsam M0 M1 cor xs ys logr vs /\ Forall2 (fun e o => snd o = fst e /\ fst o = snd e) vs out)
  /\ (save = true /\ filepath = None -> file = Some default) /\ (~ (save = true /\ filepath = None) -> file = None).
Proof. exact map_iff. Qed.
Print Assumptions C57_map.
Theorem C57_map_file_refuted : forall linear table fpam fsam M0 M1 cor xr yr nx ny target logr p save default out file,
  create_ct_map linear table fpam fsam M0 M1 cor xr yr nx ny target logr (Some p) save default = Ok (out, file) -> file = None.
Proof. exact map_unwritten. Qed.
Print Assumptions C57_map_file_refuted.
Example C57_used : sorted_lenses glass /\ (exists k, generate_ct_cal glass "0.0" 1 [pup; off] = Ok k /\ k_table k = [((Some 1, Some 0), Some (1 / 3))]) /\ lens_ratio glass "1F" "0.0" (Some (3 / 4))
  /\ (exists n, half_side glass "1F" "0.0" n /\ cut_of n off (Some 1, Some 0) (spot, fun _ _ => 0%Z))
  /\ (exists pts zs q, two_nodes pts zs = Ok q) /\ exists v, raw_values two_nodes table2 false [(1, 0); (0, 1)] [v; v] /\ raw_values two_nodes table2 false [(1, 0)] [v].
Proof.
  destruct sieves as (A & B & _). split; [exact glass_sorted|]. split; [exists (demo_cal pup (1, 1)); split; [apply cal_iff; [exact glass_sorted|]; apply (demo_cal_of _ pup [off]); auto; [intros t [<- | [<- | []]]; auto|reflexivity]|reflexivity]|]. split; [exact glass_ratio|]. split; [destruct demo_side as (n & HS & N); exists n; split; [exact HS|apply demo_cut; exact N]|].
  split; [|exact two_raw]. destruct two_raw as (v & (azs & a0 & m & pts & q & _ & _ & _ & _ & Q & _) & _). exists pts, (map snd table2), q. exact Q.
Qed.
