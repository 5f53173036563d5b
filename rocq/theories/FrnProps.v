(** C61: flux ratio noise curve. *)
From Coq Require Import List Arith Bool Reals ZArith Sorted Permutation Lia Lra.
From Verif Require Import Base DqModel NearModel NearSpec CombineModel CombineSpec ComboSpec FlatModel FlatSpec ThruModel ThruSpec FrnModel FrnSpec FrnProofs FrnRunProofs FrnLawProofs.
Import ListNotations.
Local Open Scope R_scope.

Theorem C61_reading : forall xs ys x, NoDup xs -> List.length ys = List.length xs -> (2 <= List.length xs)%nat -> exists v, reads xs ys x v /\ forall w, reads xs ys x w -> w = v.
Proof. exact reads_value. Qed.
Print Assumptions C61_reading.
Theorem C61_node : forall xs ys x y v, reads xs ys x v -> In (x, Some y) (combine xs ys) -> (forall p, In p (combine xs ys) -> snd p <> None) -> v = Some y.
Proof. exact reads_node. Qed.
Print Assumptions C61_node.
Theorem C61_between : forall a b x y p q, fst a <= x <= fst b -> fst a < fst b -> on_line a b x (Some y) -> snd a = Some p -> snd b = Some q -> Rmin p q <= y <= Rmax p q.
Proof. exact on_line_between. Qed.
Print Assumptions C61_between.
Theorem C61_gap : forall l g, rmin (gaps l) = Ok g <-> least_gap l g.
Proof. exact rmin_gaps. Qed.
Print Assumptions C61_gap.
Theorem C61_star : forall f p, peak f = Ok p <-> brightest f p.
Proof. exact peak_iff. Qed.
Print Assumptions C61_star.
Theorem C61_curves : forall S (star : S -> img) (gauss : S -> nat * nat -> R * R -> result (list (R * R * val))) (od : R -> R -> val), forall frames stars given req hw outs, frames <> [] -> (forall f, In f frames -> tidy f) ->
  (compute_flux_ratio_noise S star gauss od frames stars given req hw = Ok outs <-> curves_of S star gauss od frames stars given req hw outs).
Proof. exact frn_iff. Qed.
Print Assumptions C61_curves.
Theorem C61_flux : forall S (star : S -> img) (gauss : S -> nat * nat -> R * R -> result (list (R * R * val))) (od : R -> R -> val), forall s i given v, star_flux S star gauss od s i given = Ok v <-> flux_of S star gauss od s i given v.
Proof. exact flux_iff. Qed.
Print Assumptions C61_flux.
Theorem C61_succeeds : forall S (star : S -> img) (gauss : S -> nat * nat -> R * R -> result (list (R * R * val))) (od : R -> R -> val), forall frames stars given req hw, frames <> [] -> (forall f, In f frames -> tidy f) ->
  ((exists outs, compute_flux_ratio_noise S star gauss od frames stars given req hw = Ok outs) <->
   List.length frames = List.length stars /\ chosen_settings frames hw
   /\ forall i f s, nth_error frames i = Some f -> nth_error stars i = Some s -> complete S star gauss od i f s given).
Proof. exact succeeds. Qed.
Print Assumptions C61_succeeds.
Theorem C61_alone : forall S (star : S -> img) (gauss : S -> nat * nat -> R * R -> result (list (R * R * val))) (od : R -> R -> val), forall frames stars given r h outs, frames <> [] -> (forall f, In f frames -> tidy f) ->
  (compute_flux_ratio_noise S star gauss od frames stars given (Some r) (Some h) = Ok outs <->
   List.length frames = List.length stars /\ List.length outs = List.length frames
   /\ forall i f s out, nth_error frames i = Some f -> nth_error stars i = Some s -> nth_error outs i = Some out ->
      compute_flux_ratio_noise S star gauss od [f] [s] (later i given) (Some r) (Some h) = Ok [out]).
Proof. exact alone. Qed.
Print Assumptions C61_alone.
Theorem C61_first : forall S (star : S -> img) (gauss : S -> nat * nat -> R * R -> result (list (R * R * val))) (od : R -> R -> val), forall frames stars given req hw outs f kl, frames <> [] -> (forall f, In f frames -> tidy f) ->
  compute_flux_ratio_noise S star gauss od frames stars given req hw = Ok outs -> hd_error frames = Some f -> f_kl f = Some kl ->
  forall out, In out outs -> fst (fst out) = match req with Some r => r | None => fst kl end.
Proof. exact first_separations. Qed.
Print Assumptions C61_first.
Theorem C61_counts : forall S (star : S -> img) (gauss : S -> nat * nat -> R * R -> result (list (R * R * val))) (od : R -> R -> val), forall frames stars given req hw, List.length frames <> List.length stars -> compute_flux_ratio_noise S star gauss od frames stars given req hw = Raise ValueError.
Proof. exact count_differs. Qed.
Print Assumptions C61_counts.
Theorem C61_scaled : forall a b cen hw kl ct flux f g tab sep v, b <> 0 -> rows g = rows f -> cols g = cols f -> (forall r c, pix g r c = option_map (fun x => a * x) (pix f r c)) ->
  value_of cen hw kl ct flux f tab sep v -> value_of cen hw kl ct (option_map (fun x => b * x) flux) g tab sep (option_map (fun x => Rabs a / b * x) v).
Proof. exact value_scaled. Qed.
Print Assumptions C61_scaled.
Theorem C61_level : forall a cen hw kl ct flux f g tab sep v, rows g = rows f -> cols g = cols f -> (forall r c, pix g r c = option_map (fun x => x + a) (pix f r c)) ->
  value_of cen hw kl ct flux f tab sep v -> value_of cen hw kl ct flux g tab sep v.
Proof. exact value_level. Qed.
Print Assumptions C61_level.
Theorem C61_nonneg : forall cen hw kl ct fl f tab sep x tp c, 0 < fl -> reads kl (map fst tab) sep (Some tp) -> reads (fst ct) (snd ct) sep (Some c) -> 0 < tp -> 0 < c ->
  NoDup kl -> List.length tab = List.length kl -> NoDup (fst ct) -> List.length (snd ct) = List.length (fst ct) -> value_of cen hw kl ct (Some fl) f tab sep (Some x) -> 0 <= x.
Proof. exact value_nonneg. Qed.
Print Assumptions C61_nonneg.
(** At a separation of the table the reading need not be the entry there: it is NaN if the entry before is. *)
Theorem C61_nan_refuted : exists xs ys x y, NoDup xs /\ List.length ys = List.length xs /\ In (x, Some y) (combine xs ys) /\ reads xs ys x None.
Proof. exact nan_node. Qed.
Print Assumptions C61_nan_refuted.
(** Without separations given, the second frame's curve is at the separations of the first frame's subtraction, not at its own, nor at those of the core throughput. *)
Theorem C61_own_refuted : exists frames stars outs f kl ct out, (forall f, In f frames -> tidy f) /\ compute_flux_ratio_noise unit (fun _ => star0) gauss0 (fun _ _ => Some 3) frames stars None None None = Ok outs
  /\ nth_error frames 1 = Some f /\ nth_error outs 1 = Some out /\ f_kl f = Some kl /\ f_ct f = Some ct /\ fst (fst out) <> fst kl /\ fst (fst out) <> fst ct.
Proof. exact borrowed. Qed.
Print Assumptions C61_own_refuted.
(** The entries of the ND calibration, optical densities, multiply the flux: for a filter that absorbs nothing no value is a number. *)
Theorem C61_density_refuted : forall S (star : S -> img) (gauss : S -> nat * nat -> R * R -> result (list (R * R * val))) (od : R -> R -> val), (forall x y, od x y = Some 0) -> forall frames stars given req hw outs, frames <> [] -> (forall f, In f frames -> tidy f) ->
  compute_flux_ratio_noise S star gauss od frames stars given req hw = Ok outs -> forall out row v, In out outs -> In row (snd out) -> In v row -> v = None.
Proof. exact no_density. Qed.
Print Assumptions C61_density_refuted.
(** Positions of the stars given as floats, as documented, are refused. *)
Theorem C61_float_refuted : forall S (star : S -> img) (gauss : S -> nat * nat -> R * R -> result (list (R * R * val))) (od : R -> R -> val), forall frames stars given req hw a b x i, frames <> [] -> (forall f, In f frames -> tidy f) -> given = Some (a, b) -> (i < List.length frames)%nat -> (nth_error a i = Some (D x) \/ nth_error b i = Some (D x)) ->
  forall outs, compute_flux_ratio_noise S star gauss od frames stars given req hw <> Ok outs.
Proof. exact float_place. Qed.
Print Assumptions C61_float_refuted.
(** A star in the last row or column of a frame with an even number of them is refused. *)
Theorem C61_even_refuted : forall S (star : S -> img) (gauss : S -> nat * nat -> R * R -> result (list (R * R * val))) (od : R -> R -> val), forall frames stars req hw i s p, frames <> [] -> (forall f, In f frames -> tidy f) -> nth_error stars i = Some s -> brightest (star s) p ->
  (Nat.Even (rows (star s)) /\ Datatypes.S (fst p) = rows (star s) \/ Nat.Even (cols (star s)) /\ Datatypes.S (snd p) = cols (star s)) ->
  forall outs, compute_flux_ratio_noise S star gauss od frames stars None req hw <> Ok outs.
Proof. exact last_row. Qed.
Print Assumptions C61_even_refuted.
(** The fit is not started at the brightest pixel: row and column are swapped. *)
Theorem C61_start_refuted : brightest star0 (0%nat, 1%nat) /\ (exists found, gauss1 tt (1%nat, 3%nat) (1, 0) = Ok found) /\ forall v, star_flux unit (fun _ => star0) gauss1 (fun _ _ => Some 3) tt 0 None <> Ok v.
Proof. exact swapped_start. Qed.
Print Assumptions C61_start_refuted.

(** Two frames succeed; their tables are tidy. *)
Example C61_run : exists outs, compute_flux_ratio_noise unit (fun _ => star0) gauss0 (fun _ _ => Some 3) [frame0 1; frame0 2] [tt; tt] None None None = Ok outs.
Proof. exact run0. Qed.
Example C61_tidy : tidy (frame0 1).
Proof. exact (tidy0 1). Qed.
(** The value at separation 1 of the first frame: rows 0, 1, 2 in a ring of eight pixels, FWHM 2, star flux 6, throughputs 1/2 and 1/4. *)
Lemma ring0 : forall p, in_ring (1, 1) (1 / 2) 1 [] p <-> 1 / 4 < (INR (snd p) - 1) ^ 2 + (INR (fst p) - 1) ^ 2 < 9 / 4.
Proof.
  intros p. unfold in_ring, distance, at_pixel. cbn [fst snd]. set (d := (INR (snd p) - 1) ^ 2 + (INR (fst p) - 1) ^ 2). assert (D0 : 0 <= d) by (unfold d; pose proof (pow2_ge_0 (INR (snd p) - 1)); pose proof (pow2_ge_0 (INR (fst p) - 1)); lra). pose proof (sqrt_pos d) as S0. pose proof (sqrt_sqrt d D0) as SS. split.
  - intros ((A & B) & _). split; nra.
  - intros (A & B). split; [|intros c []]. split; nra.
Qed.
Example C61_value : value_of (1, 1) (1 / 2) [1; 1 + 1] ([0; 4], [Some (1 / 4); Some (1 / 4)]) (Some 6) FrnLawProofs.image0 [(Some (1 / 2), Some 2); (Some (1 / 2), Some 2)] 1
  (Some (PI * sqrt (3 / 4) * 2 ^ 2 / (4 * ln 2) / 6 / (1 / 2 * (1 / 4)))).
Proof.
  exists (Some (sqrt (3 / 4))), (Some 2), (Some (1 / 2)), (Some (1 / 4)). split.
  - exists [(0%nat, 0%nat); (0%nat, 1%nat); (0%nat, 2%nat); (1%nat, 0%nat); (1%nat, 2%nat); (2%nat, 0%nat); (2%nat, 1%nat); (2%nat, 2%nat)]. split.
    + unfold places. cbn [rows cols FrnLawProofs.image0 seq list_prod map app].
      repeat match goal with |- sieve _ [] [] => constructor | |- sieve _ ((1%nat, 1%nat) :: _) _ => apply ComboSpec.sieve_out; [rewrite ring0; cbn; lra|] | |- sieve _ (_ :: _) (_ :: _) => apply ComboSpec.sieve_in; [rewrite ring0; cbn; lra|] end.
    + cbn [map pix FrnLawProofs.image0 fst snd spread_of somes]. split; [apply sqrt_pos|]. exists 1. unfold is_mean. assert (SQ : sqrt (3 / 4) ^ 2 = 3 / 4) by (cbn [pow]; rewrite Rmult_1_r; apply sqrt_sqrt; lra). rewrite SQ. split; (split; [discriminate|cbn; lra]).
  - assert (R0 : forall x0 x1 y, x0 < x1 -> x0 <= 1 <= x1 -> reads [x0; x1] [Some y; Some y] 1 (Some y)).
    { intros x0 x1 y L X. exists [], (x0, Some y), (x1, Some y), []. split; [apply Permutation_refl|]. split; [repeat constructor; cbn; exact L|]. split; [left; reflexivity|]. split; [left; reflexivity|]. exists y. split; [reflexivity|cbn; ring]. }
    split; [apply R0; lra|]. split; [apply R0; lra|]. split; [apply R0; lra|]. cbn [volume times over]. destruct (Req_EM_T 6 0); [lra|]. cbn [over]. destruct (Req_EM_T (1 / 2 * (1 / 4)) 0); [lra|reflexivity].
Qed.
