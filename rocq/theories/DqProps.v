(** Property theorems C13, C14 and C28. *)
From Coq Require Import List Arith Bool QArith NArith String Lia.
From Verif Require Import Base BaseProofs FloatModel NonlinModel NonlinSpec NonlinProofs CosmicModel CosmicSpec CosmicProofs DqModel DqSpec DqProofs.
Import ListNotations.
Local Open Scope nat_scope.

(** * C13 *)

(** Any sequence of steps keeps the lowest eight DQ bits of every pixel, and
    all bits if it does not contain correct_bad_pixels. *)
Theorem C13_monotone : forall l fs fs', (forall cal thr c, In (SNonlin cal thr) l -> cal = Some c -> well_shaped c) ->
  run_steps l fs = Ok fs' -> keeps (fun b => (b < 8)%N \/ ~ has_bad l) fs fs'.
Proof. exact run_steps_keeps. Qed.
Print Assumptions C13_monotone.

(** The bits each step adds: saturation and cosmic ray bits. *)
Theorem C13_cosmic : forall fs sms fs', flag_frames fs sms = Ok fs' ->
  List.length sms = List.length fs /\
  each (fun f f' => f_err f' = f_err f /\ List.length (f_px f') = List.length (f_px f) /\ forall j v, pixel f j v -> pixel f' j v) fs fs'
  /\ forall i f f' sm, nth_error fs i = Some f -> nth_error fs' i = Some f' -> nth_error sms i = Some sm ->
     adds_exactly (fun j b => (b = 5%N /\ exists v, pixel f j v /\ at_least v (fst sm)) \/ (b = 7%N /\ nth_error (snd sm) j = Some true)) f f'.
Proof. exact flag_frames_spec. Qed.
Print Assumptions C13_cosmic.

(** correct_nonlinearity: bit 6 exactly where the uncorrected value exceeds the
    threshold; every value is multiplied by the relative gain for the frame's
    EM gain; error maps are kept. *)
Theorem C13_nonlinearity : forall cal thr fs fs', (forall c, cal = Some c -> well_shaped c) -> correct_nonlinearity cal thr fs = Ok fs' ->
  each (fun f f' =>
    adds_exactly (fun j b => b = 6%N /\ exists v, pixel f j v /\ exceeds v thr) f f'
    /\ f_err f' = f_err f
    /\ exists g, gain_of (f_hdr f) g
       /\ forall j v, pixel f j v -> exists w, pixel f' j (fmul v w) /\ match cal with None => w = Fin 1 | Some c => pixel_gain c g v w end) fs fs'.
Proof. exact nonlin_spec. Qed.
Print Assumptions C13_nonlinearity.

(** dark_subtraction: exactly the bits of the dark. *)
Theorem C13_dark : forall d fs fs', mapR (subtract_dark d) fs = Ok fs' ->
  each (fun f f' => List.length d = List.length (f_px f)
    /\ adds_exactly (fun j b => exists y, nth_error d j = Some y /\ N.testbit (snd y) b = true) f f'
    /\ forall j v y, pixel f j v -> nth_error d j = Some y -> pixel f' j (fsub v (fst y))) fs fs'.
Proof. exact dark_spec. Qed.
Print Assumptions C13_dark.

(** flat_division: bit 2 exactly where the flat is zero. *)
Theorem C13_flat : forall q fs fs', mapR (divide_flat q) fs = Ok fs' ->
  each (fun f f' => List.length q = List.length (f_px f)
    /\ adds_exactly (fun j b => b = 2%N /\ exists y, nth_error q j = Some y /\ zero y) f f'
    /\ forall j v y, pixel f j v -> nth_error q j = Some y -> pixel f' j (fdiv v y)) fs fs'.
Proof. exact flat_spec. Qed.
Print Assumptions C13_flat.

(** nan_flags keeps the DQ; flag_nans replaces it at NaN pixels. *)
Theorem C13_nan_flags : forall thr f j v q, nth_error (f_px f) j = Some (v, q) ->
  ((thr <= q)%N -> nth_error (f_px (nan_flags_frame thr f)) j = Some (NaN, q))
  /\ ((q < thr)%N -> nth_error (f_px (nan_flags_frame thr f)) j = Some (v, q)).
Proof. exact nan_flags_spec. Qed.
Print Assumptions C13_nan_flags.
Theorem C13_flag_nans : forall w f j v q, nth_error (f_px f) j = Some (v, q) ->
  (v = NaN -> nth_error (f_px (flag_nans_frame w f)) j = Some (NaN, w))
  /\ (v <> NaN -> nth_error (f_px (flag_nans_frame w f)) j = Some (v, q)).
Proof. exact flag_nans_spec. Qed.
Print Assumptions C13_flag_nans.

Definition ex_hdr : cr_header := mkcrh None (Some 0%Q) (Some 2%Q) None.
Definition ex_f (l : list px) : frame := mkframe l [[Fin 3; Fin 4; Fin 5]] ex_hdr.
Definition ex_fs : list frame := [ex_f [(Fin 10, 8%N); (Fin 200, 0%N); (Fin 30, 0%N)]; ex_f [(Fin 1, 0%N); (Fin 2, 0%N); (NaN, 1%N)]].
Definition ex_steps : list step :=
  [SCosmic [(150%Q, [false; true; false]); (150%Q, [false; false; true])]; SNonlin None (Fin 20); SGain;
   SDark [(Fin 1, 0%N); (Fin 1, 1%N); (Fin 1, 0%N)]; SFlat [Fin 1; Fin 2; Fin 0]; SBad [0; 0; 0]%N].
Example C13_example :
  match run_steps ex_steps ex_fs with
  | Ok [f; g] => map snd (f_px f) = [10; 227; 70]%N /\ map snd (f_px g) = [0; 3; 135]%N /\ map fst (f_px f) = [NaN; NaN; NaN]
  | _ => False end.
Proof. cbv. repeat split. Qed.

(** correct_bad_pixels casts the DQ to 8 bits: bit 8 is lost. *)
Theorem C13_bit8_lost_refuted : forall bp f f' j v q, nth_error (f_px f) j = Some (v, q) -> bad_frame bp f = Ok f' ->
  forall b, (8 <= b)%N -> ~ bit_set f' j b.
Proof.
  intros bp f f' j v q Hj H b Hb (p & Hp & T).
  destruct (bad_frames_spec bp [f] [f']) as [_ F]; [unfold correct_bad_pixels; cbn [mapR]; rewrite H; reflexivity|].
  destruct (F 0 f f' eq_refl eq_refl) as (L & _ & _ & _ & C). assert (j < List.length (f_px f)) by (apply nth_error_Some; congruence).
  destruct (nth_get bp j) as [m Hm]; [lia|]. destruct (C j v q m Hj Hm) as [C1 C2].
  destruct (N.eq_dec (N.lor (q mod 256) (m mod 256)) 0) as [E|E].
  - apply bad_zero in E. rewrite (C2 E) in Hp. injection Hp as <-. cbn [snd] in T. rewrite N.bits_0 in T. discriminate.
  - assert (LB : low_bits q m).
    { destruct (N.lt_ge_cases (N.log2 (N.lor (q mod 256) (m mod 256))) 8) as [K|K].
      - exists (N.log2 (N.lor (q mod 256) (m mod 256))). split; [exact K|]. pose proof (N.bit_log2 _ E) as B.
        rewrite N.lor_spec, !mod256_bit, (proj2 (N.ltb_lt _ 8) K), !andb_true_r in B. apply orb_true_iff. exact B.
      - exfalso. pose proof (N.bit_log2 _ E) as B. rewrite N.lor_spec, !mod256_bit in B. rewrite (proj2 (N.ltb_ge _ 8) K), !andb_false_r in B. discriminate. }
    destruct (C1 LB) as (q' & Hq & T'). rewrite Hq in Hp. injection Hp as <-. cbn [snd] in T. apply T' in T. lia.
Qed.
Print Assumptions C13_bit8_lost_refuted.

(** flag_nans (used after PSF subtraction) drops earlier flags of NaN pixels. *)
Theorem C13_flag_nans_refuted : exists f w j b, bit_set f j b /\ ~ bit_set (flag_nans_frame w f) j b.
Proof.
  exists (ex_f [(NaN, 128%N)]), 1%N, 0, 7%N. split; [exists (NaN, 128%N); split; reflexivity|].
  intros (p & Hp & T). cbn in Hp. injection Hp as <-. discriminate.
Qed.
Print Assumptions C13_flag_nans_refuted.

(** * C14 *)

(** Every pixel after correct_bad_pixels; only the lowest eight bits count. *)
Theorem C14_bad_pixels : forall bp fs fs', correct_bad_pixels bp fs = Ok fs' ->
  each (fun f f' => List.length bp = List.length (f_px f) /\ List.length (f_px f') = List.length (f_px f) /\ f_hdr f' = f_hdr f /\ f_err f' = f_err f
    /\ forall j v q b, nth_error (f_px f) j = Some (v, q) -> nth_error bp j = Some b ->
       (low_bits q b -> exists q', nth_error (f_px f') j = Some (NaN, q') /\ forall k, N.testbit q' k = true <-> k = 1%N \/ ((k < 8)%N /\ (N.testbit q k = true \/ N.testbit b k = true)))
       /\ (~ low_bits q b -> nth_error (f_px f') j = Some (v, 0%N))) fs fs'.
Proof. exact bad_frames_spec. Qed.
Print Assumptions C14_bad_pixels.

Theorem C14_idempotent : forall bp fs fs', correct_bad_pixels bp fs = Ok fs' -> correct_bad_pixels bp fs' = Ok fs'.
Proof. exact bad_idempotent. Qed.
Print Assumptions C14_idempotent.

Example C14_example :
  match correct_bad_pixels [4; 0; 0]%N [ex_f [(Fin 7, 0%N); (Fin 8, 0%N); (Fin 9, 32%N)]] with
  | Ok [f] => f_px f = [(NaN, 6%N); (Fin 8, 0%N); (NaN, 34%N)]
  | _ => False end.
Proof. reflexivity. Qed.

(** A pixel whose only flag is 256 is neither replaced nor flagged any more. *)
Theorem C14_flag256_refuted : forall v bp f', bad_frame [bp] (ex_f [(v, 256%N)]) = Ok f' -> (bp mod 256 = 0)%N -> f_px f' = [(v, 0%N)].
Proof.
  intros v bp f' H Z. unfold bad_frame in H. cbn [ex_f f_px zipR bind] in H. unfold bad_px in H. cbn [fst snd] in H. rewrite Z in H.
  cbn in H. injection H as <-. reflexivity.
Qed.
Print Assumptions C14_flag256_refuted.

(** * C28: gain policy *)

(** correct_nonlinearity and em_gain_division choose the gain per frame by the
    policy, and fail with KeyError only if the policy gives none. *)
Theorem C28_policy : forall h, match em_gain h with Ok g => gain_of h g | Raise x => x = KeyError /\ forall g, ~ gain_of h g end.
Proof. exact em_gain_spec. Qed.
Print Assumptions C28_policy.

Theorem C28_policy_unique : forall h g g', gain_of h g -> gain_of h g' -> g = g'.
Proof. exact gain_of_unique. Qed.
Print Assumptions C28_policy_unique.

(** add_photon_noise follows the policy where it gives a gain; otherwise
    missing cards count as 0. *)
Theorem C28_noise : forall h,
  (forall g, gain_of h g -> em_gain_noise h = g)
  /\ (h_gm h = None -> h_ga h = None -> em_gain_noise h = match h_gc h with Some c => c | None => 0%Q end)
  /\ (forall a, h_gm h = None -> h_ga h = Some a -> (a <= 0)%Q -> h_gc h = None -> em_gain_noise h = 0%Q).
Proof. exact em_gain_noise_spec. Qed.
Print Assumptions C28_noise.

Theorem C28_division : forall fs fs', em_gain_division fs = Ok fs' ->
  each (fun f f' => f_hdr f' = f_hdr f /\ h_gc (f_hdr f) <> None /\ exists g, gain_of (f_hdr f) g
     /\ f_px f' = map (fun p => (fdiv (fst p) (Fin g), snd p)) (f_px f)
     /\ f_err f' = map (map (fun e => fdiv e (Fin g))) (f_err f)) fs fs'.
Proof. exact gain_division_spec. Qed.
Print Assumptions C28_division.

(** em_gain_division succeeds exactly when every frame has a gain by the policy
    and also a commanded gain (even if the measured one is used). *)
Theorem C28_division_total : forall fs, (exists fs', em_gain_division fs = Ok fs') <->
  forall f, In f fs -> (exists g, gain_of (f_hdr f) g) /\ h_gc (f_hdr f) <> None.
Proof. exact gain_division_total. Qed.
Print Assumptions C28_division_total.

(** correct_nonlinearity fails only for these reasons. *)
Theorem C28_nonlinearity_fails : forall cal thr fs x, (forall c, cal = Some c -> well_shaped c) -> correct_nonlinearity cal thr fs = Raise x ->
  fs = [] \/ (exists f0 t, fs = f0 :: t /\ h_gc (f_hdr f0) = None)
  \/ (exists f, In f fs /\ forall g, ~ gain_of (f_hdr f) g) \/ (exists c, cal = Some c /\ ~ usable c).
Proof. exact nonlin_raises. Qed.
Print Assumptions C28_nonlinearity_fails.

Definition ex_mixed : list frame :=
  [mkframe [(Fin 12, 0%N)] [[Fin 6]] (mkcrh (Some 3%Q) (Some 2%Q) (Some 4%Q) None); mkframe [(Fin 12, 0%N)] [[Fin 6]] (mkcrh None (Some 2%Q) (Some 4%Q) None);
   mkframe [(Fin 12, 0%N)] [[Fin 6]] (mkcrh None (Some (- 1)%Q) (Some 4%Q) None)].
Example C28_division_example :
  match em_gain_division ex_mixed with
  | Ok [a; b; c] => match map fst (f_px a ++ f_px b ++ f_px c), f_err c with
                    | [Fin x; Fin y; Fin z], [[Fin e]] => (x == 4 /\ y == 6 /\ z == 3 /\ e == 3 # 2)%Q
                    | _, _ => False end
  | _ => False end
  /\ em_gain_division [mkframe [] [] (mkcrh (Some 3%Q) None None None)] = Raise KeyError.
Proof. repeat split. Qed.
