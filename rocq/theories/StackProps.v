(** Property theorems C40, C50 and the part of C28 on calibration stacks. *)
From Coq Require Import List Arith Bool QArith ZArith String Sorted Permutation.
From Verif Require Import Base CosmicModel CosmicSpec StackModel StackSpec StackProofs StackKgProofs StackCorProofs DriftModel DriftSpec DriftProofs.
Import ListNotations.
Local Open Scope list_scope.
Local Open Scope nat_scope.

(** * C50: the stacks contain every frame exactly once *)
Theorem C50_nonlin_stack : forall A (fs : list (sframe A)) o, nonlin_dataset_2_stack fs = Ok o <-> nl_result fs o.
Proof. exact @nl_iff. Qed.
Print Assumptions C50_nonlin_stack.

Theorem C50_nonlin_conserves : forall A (fs : list (sframe A)) o, nonlin_dataset_2_stack fs = Ok o ->
  Permutation (o_cal o ++ o_mean o) (map sf_px fs) /\ Permutation (o_cal o) (map sf_px (cals fs)) /\ Permutation (o_mean o) (map sf_px (means fs))
  /\ fold_right Nat.add 0 (o_len o) = List.length (o_cal o) /\ List.length (o_times o) = List.length (o_cal o) /\ List.length (o_dts o) = List.length (o_cal o)
  /\ Forall (fun n => 1 <= n) (o_len o).
Proof. exact (fun A fs o H => nl_conserves fs o (proj1 (nl_iff fs o) H)). Qed.
Print Assumptions C50_nonlin_conserves.

Theorem C50_kgain_list : forall A (fs : list (sframe A)) st mn ga, kgain_dataset_2_list fs = Ok (st, mn, ga) <-> kg_result fs st mn ga.
Proof. exact @kg_iff. Qed.
Print Assumptions C50_kgain_list.

Theorem C50_kgain_conserves : forall A (fs : list (sframe A)) st mn ga, kgain_dataset_2_list fs = Ok (st, mn, ga) ->
  Permutation (List.concat st ++ mn) (map sf_px fs) /\ Permutation mn (map sf_px (means fs)) /\ exists n, 0 < n /\ Forall (fun p => List.length p = n) st.
Proof. exact (fun A fs st mn ga H => kg_conserves fs st mn ga (proj1 (kg_iff fs st mn ga) H)). Qed.
Print Assumptions C50_kgain_conserves.

(** A mean frame taken with the exposure time of the smallest calibration set
    makes the function fail, whatever the rest. *)
Theorem C50_kgain_shared_time_refuted : forall A (fs : list (sframe A)) t fm fo, In fm (means fs) -> In fo (others fs) -> sf_time fm = Some t -> sf_time fo = Some t ->
  (forall f q, In f (others fs) -> sf_time f = Some q -> List.length (same_time t fs) <= List.length (same_time q fs)) ->
  forall r, kgain_dataset_2_list fs <> Ok r.
Proof. exact @kg_shared. Qed.
Print Assumptions C50_kgain_shared_time_refuted.

(** Header: commanded, applied, measured gain. *)
Definition ex_h (c : Q) (m : option Q) : cr_header := mkcrh m (Some 0%Q) (Some c) None.
Definition ex_f (o : string) (t : Q) (d : string) (c : Q) (m : option Q) (px : nat) : sframe nat := mksf (Some o) (Some (true, t)) (Some (Some d)) (ex_h c m) px.
Definition ex_nl : list (sframe nat) :=
  [ex_f "NONLIN" 2 "d1" 4 None 1; ex_f "MNFRAME" 5 "d2" 1 None 2; ex_f "NONLIN" 3 "d3" 1 None 3; ex_f "KGAIN" 7 "d4" 4 None 4; ex_f "NONLIN" 2 "d5" 1 None 5].
Example C50_nonlin_example : nonlin_dataset_2_stack ex_nl = Ok (mkno [3; 5; 1; 4] [2] [3%Q; 2%Q; 2%Q; 7%Q] ["d3"; "d5"; "d1"; "d4"]%string [2; 2] [1%Q; 4%Q]).
Proof. vm_compute. reflexivity. Qed.
Definition ex_kg : list (sframe nat) :=
  [ex_f "KGAIN" 2 "d1" 1 None 1; ex_f "MNFRAME" 5 "d2" 1 None 2; ex_f "KGAIN" 3 "d3" 1 None 3; ex_f "KGAIN" 2 "d4" 1 None 4; ex_f "KGAIN" 2 "d5" 1 None 5; ex_f "KGAIN" 3 "d6" 1 None 6; ex_f "KGAIN" 2 "d7" 1 None 7].
Example C50_kgain_example : exists g, kgain_dataset_2_list ex_kg = Ok ([[1; 4]; [5; 7]; [3; 6]], [2], g) /\ (g == 1)%Q.
Proof. eexists. split; vm_compute; reflexivity. Qed.
Example C50_shared_example : kgain_dataset_2_list (ex_f "MNFRAME" 3 "d8" 1 None 8 :: ex_f "MNFRAME" 2 "d9" 1 None 9 :: ex_kg) = Raise PyException.
Proof. vm_compute. reflexivity. Qed.

(** * C28: gains of the calibration stacks *)
Theorem C28_nonlin_unmeasured : forall A (fs : list (sframe A)) o, nonlin_dataset_2_stack fs = Ok o -> (forall f, In f (cals fs) -> h_gm (sf_h f) = None) ->
  exists sets, Permutation (List.concat sets) (cals fs) /\ map sf_px (List.concat sets) = o_cal o /\ map (@List.length _) sets = o_len o
  /\ (forall g f f', In g sets -> In f g -> In f' g -> exists q q', h_gc (sf_h f) = Some q /\ h_gc (sf_h f') = Some q' /\ (q == q')%Q)
  /\ Forall2 (fun g x => exists f t, g = f :: t /\ gain_of (sf_h f) x) sets (o_gains o).
Proof. exact (fun A fs o H => nl_unmeasured fs o (proj1 (nl_iff fs o) H)). Qed.
Print Assumptions C28_nonlin_unmeasured.

Theorem C28_nonlin_checks : forall A (fs : list (sframe A)) o n_cal n_mean mn, nonlin_dataset_2_stack fs = Ok o -> (forall f, In f (cals fs) -> h_gm (sf_h f) = None) ->
  (nonlin_checks n_cal n_mean mn o = Ok tt <-> Forall (fun n => n_cal <= n) (o_len o) /\ n_mean <= List.length (means fs) /\ Forall (fun t => (mn < t)%Q) (o_times o)).
Proof. exact (fun A fs o nc nm mn H => nl_checks_unmeasured fs o nc nm mn (proj1 (nl_iff fs o) H)). Qed.
Print Assumptions C28_nonlin_checks.

(** With measured gains there is one gain for each frame, and calibrate_nonlin
    rejects the stack it has built (n_cal is 20 there). *)
Theorem C28_nonlin_measured_refuted : forall A (fs : list (sframe A)) o n_cal n_mean mn, nonlin_dataset_2_stack fs = Ok o -> (forall f, In f (cals fs) -> h_gm (sf_h f) <> None) -> 2 <= n_cal ->
  List.length (o_gains o) = List.length (o_cal o) /\ nonlin_checks n_cal n_mean mn o = Raise PyException.
Proof. exact (fun A fs o nc nm mn H N L => conj (nl_measured fs o (proj1 (nl_iff fs o) H) N) (nl_checks_measured fs o nc nm mn (proj1 (nl_iff fs o) H) N L)). Qed.
Print Assumptions C28_nonlin_measured_refuted.

Theorem C28_kgain_measured : forall A (fs : list (sframe A)) st mn ga, kgain_dataset_2_list fs = Ok (st, mn, ga) -> (forall f, In f (others fs) -> h_gm (sf_h f) <> None) ->
  exists fr gl, Permutation fr (others fs) /\ Forall2 (fun f g => h_gm (sf_h f) = Some g) fr gl /\ gl <> [] /\ (ga * inject_Z (Z.of_nat (List.length gl)) == fold_right Qplus 0 gl)%Q.
Proof. exact (fun A fs st mn ga H => kg_measured fs st mn ga (proj1 (kg_iff fs st mn ga) H)). Qed.
Print Assumptions C28_kgain_measured.

Theorem C28_kgain_unmeasured : forall A (fs : list (sframe A)) st mn ga, kgain_dataset_2_list fs = Ok (st, mn, ga) -> (forall f, In f (others fs) -> h_gm (sf_h f) = None) ->
  exists sets gl, Permutation (List.concat sets) (others fs)
  /\ (forall g f f', In g sets -> In f g -> In f' g -> exists q q', sf_time f = Some q /\ sf_time f' = Some q' /\ (q == q')%Q)
  /\ Forall2 (fun g x => exists f t, g = f :: t /\ gain_of (sf_h f) x) sets gl /\ gl <> [] /\ (ga * inject_Z (Z.of_nat (List.length gl)) == fold_right Qplus 0 gl)%Q.
Proof. exact (fun A fs st mn ga H => kg_unmeasured fs st mn ga (proj1 (kg_iff fs st mn ga) H)). Qed.
Print Assumptions C28_kgain_unmeasured.

Definition ex_nm : list (sframe nat) :=
  [ex_f "NONLIN" 2 "d1" 4 (Some 3%Q) 1; ex_f "MNFRAME" 5 "d2" 1 None 2; ex_f "NONLIN" 3 "d3" 1 (Some 2%Q) 3; ex_f "KGAIN" 7 "d4" 4 (Some (7#2)%Q) 4; ex_f "NONLIN" 2 "d5" 1 (Some 1%Q) 5].
Example C28_nonlin_example : (exists o, nonlin_dataset_2_stack ex_nl = Ok o /\ nonlin_checks 2 1 1 o = Ok tt)
  /\ exists o, nonlin_dataset_2_stack ex_nm = Ok o /\ o_len o = [2; 2] /\ o_gains o = [2%Q; 1%Q; 3%Q; (7#2)%Q] /\ nonlin_checks 2 1 1 o = Raise PyException.
Proof. split; eexists; vm_compute; repeat split; reflexivity. Qed.
Example C28_kgain_example : exists g, kgain_dataset_2_list [ex_f "KGAIN" 2 "d1" 2 (Some 2%Q) 1; ex_f "MNFRAME" 5 "d2" 1 None 2; ex_f "KGAIN" 3 "d3" 2 (Some 4%Q) 3] = Ok ([[1]; [3]], [2], g) /\ (g == 3)%Q.
Proof. eexists. split; vm_compute; reflexivity. Qed.

(** * C40: drift of the illumination *)
Theorem C40_signals : forall mn l, l <> [] -> (forall f, In f l -> (mn <= d_exp f)%Q) -> exists rep d, repeated l rep /\ drift_correct mn l = Ok d
  /\ StronglySorted Qlt (dr_exps d) /\ (forall t, (exists e, In e (dr_exps d) /\ (e == t)%Q) <-> exists f, In f l /\ (d_exp f == t)%Q)
  /\ Forall2 (fun t s => if Qeq_bool t rep then avg_skip (map d_sig (firstn (halves (frames_at t l)) (frames_at t l))) s else avg (map d_sig (frames_at t l)) s) (dr_exps d) (dr_signal d)
  /\ List.length (dr_out d) = List.length (dr_exps d).
Proof. exact drift_signals. Qed.
Print Assumptions C40_signals.

Theorem C40_repeated_unique : forall l r r', repeated l r -> repeated l r' -> (r == r')%Q.
Proof. exact repeated_unique. Qed.
Print Assumptions C40_repeated_unique.

(** The second average is over all repeated frames but the one in the middle. *)
Theorem C40_second_half_refuted : forall mn l, (forall f, In f l -> (mn <= d_exp f)%Q) ->
  forall rep qs, repeated l rep -> 2 <= List.length (frames_at rep l) -> map d_sig (frames_at rep l) = map Some qs ->
  (forall u1 u2, mean_is (firstn (halves (frames_at rep l)) (times (frames_at rep l))) u1 -> mean_is (skipn (halves (frames_at rep l)) (times (frames_at rep l))) u2 -> ~ (u1 == u2)%Q) ->
  exists d s i, drift_correct mn l = Ok d /\ drift_result l rep d qs s i
   /\ forall j sg c, nth_error (dr_signal d) j = Some (Some sg) -> nth_error (dr_corr d) j = Some (Some c) -> ~ (c == 0)%Q -> exists o, nth_error (dr_out d) j = Some (Some o) /\ (o * c == sg)%Q.
Proof. exact drift_full. Qed.
Print Assumptions C40_second_half_refuted.

(** A linear drift of slope [a] over 2m equally spaced frames is fitted with
    slope a (m-1)(2m+1) / (2m (2m-1)), never with [a]. *)
Theorem C40_linear_drift_refuted : forall l rep d qs s i a b t0 tau m, drift_result l rep d qs s i -> map d_sig (frames_at rep l) = map Some qs ->
  List.length (frames_at rep l) = 2 * m -> 1 <= m -> linear a b t0 tau (frames_at rep l) -> ~ (tau == 0)%Q ->
  (s * (inject_Z (Z.of_nat (2 * m)) * inject_Z (Z.of_nat (2 * m) - 1)) == a * (inject_Z (Z.of_nat m - 1) * inject_Z (Z.of_nat (2 * m) + 1)))%Q /\ (~ (a == 0)%Q -> ~ (s == a)%Q).
Proof. exact (fun l rep d qs s i a b t0 tau m H1 H2 H3 H4 H5 H6 => conj (drift_linear l rep d qs s i a b t0 tau m H1 H2 H3 H4 H5 H6) (drift_linear_wrong l rep d qs s i a b t0 tau m H1 H2 H3 H4 H5 H6)). Qed.
Print Assumptions C40_linear_drift_refuted.

(** Without drift the signals are unchanged. *)
Theorem C40_no_drift : forall mn l, (forall f, In f l -> (mn <= d_exp f)%Q) ->
  forall rep qs c, repeated l rep -> 2 <= List.length (frames_at rep l) -> map d_sig (frames_at rep l) = map Some qs -> (forall q, In q qs -> (q == c)%Q) -> ~ (c == 0)%Q ->
  (forall u1 u2, mean_is (firstn (halves (frames_at rep l)) (times (frames_at rep l))) u1 -> mean_is (skipn (halves (frames_at rep l)) (times (frames_at rep l))) u2 -> ~ (u1 == u2)%Q) ->
  exists d s, drift_correct mn l = Ok d /\ dr_slope d = Some s /\ (s == 0)%Q
   /\ Forall (fun x => exists k, x = Some k /\ (k == 1)%Q) (dr_corr d)
   /\ forall j sg, nth_error (dr_signal d) j = Some (Some sg) -> exists o, nth_error (dr_out d) j = Some (Some o) /\ (o == sg)%Q.
Proof. exact drift_none. Qed.
Print Assumptions C40_no_drift.

(** The correction factor [x] of [drift_result] against the ratio of the fitted
    illuminations at the mean times of the two groups. *)
Theorem C40_ratio_refuted : forall i s g g0 x, ~ (i == 0)%Q -> ~ (i + s * g0 == 0)%Q -> (x * i == i + s * (g - g0))%Q ->
  ((x == (i + s * g) / (i + s * g0))%Q <-> (s == 0 \/ g0 == 0 \/ g == g0)%Q).
Proof. exact drift_ratio. Qed.
Print Assumptions C40_ratio_refuted.

(** Four frames of 2 s at 0, 1, 2, 3 with signal 10 + t, one frame of 1 s. *)
Definition ex_dr : list dfr := [mkdf 2 0 (Some 10%Q); mkdf 2 1 (Some 11%Q); mkdf 1 (3#2) (Some 5%Q); mkdf 2 2 (Some 12%Q); mkdf 2 3 (Some 13%Q)].
Example C40_example : exists d s, drift_correct 1 ex_dr = Ok d /\ dr_slope d = Some s /\ (s == 5 # 12)%Q /\ repeat_exp ex_dr = Some 2%Q /\ linear 1 10 0 1 (frames_at 2 ex_dr).
Proof.
  eexists. eexists. split; [vm_compute; reflexivity|]. split; [reflexivity|]. split; [reflexivity|]. split; [reflexivity|].
  intros [|[|[|[|i]]]] f E; cbn in E; try (destruct i; discriminate); injection E as <-; (split; [reflexivity|]); eexists; split; reflexivity.
Qed.
Example C40_no_drift_example : exists d, drift_correct 1 [mkdf 2 0 (Some 10%Q); mkdf 2 1 (Some 10%Q); mkdf 1 2 (Some 5%Q)] = Ok d /\ match dr_out d with [Some x; Some y] => (x == 5 /\ y == 10)%Q | _ => False end.
Proof. eexists. split; vm_compute; [reflexivity|split; reflexivity]. Qed.
