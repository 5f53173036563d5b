(** A small data set, and wrong results. *)
From Coq Require Import List Arith Bool Reals ZArith String Sorting Lia Lra.
From Verif Require Import Base CombineModel ComboSpec ComboProofs DqModel AngleModel AngleSpec NearModel NearSpec NearProofs FlatModel FlatSpec FlatProofs FlatTopProofs FluxModel FluxSpec FluxProofs FluxBandProofs FluxTopProofs FluxRunProofs CtModel CtSpec CtProofs CtSetProofs CtDataProofs CtInterpProofs CtMapProofs CtLawProofs CtFactProofs.
Import ListNotations.
Local Open Scope R_scope.

Definition glass : lenses := mklenses ["1F_v0.0.csv"%string] (fun _ => [(575, 1)]) (fun _ => Some [(0, 8 / 10)]) (fun _ => Some [(0, 6 / 10)]).
Definition spot : img := mkimg 1 3 (fun _ j => match j with 1%nat => Some 4 | _ => Some 1 end).
Definition lit : img := mkimg 1 1 (fun _ _ => Some 16).
Definition pup : ctframe := mkct lit (fun _ _ => 0%Z) (Some "1F"%string) (Some "PUPIL"%string) (Some "OPEN"%string) (Some "OPEN"%string) (Some "OPEN_12"%string) (Some 1, Some 1) (Some 3, Some 3) (Some "d"%string).
Definition off : ctframe := mkct spot (fun _ _ => 0%Z) (Some "1F"%string) (Some "IMAGING"%string) (Some "NFOV"%string) (Some "R1C1"%string) (Some "HLC12_C2R1"%string) (Some 2, Some 2) (Some 3, Some 3) (Some "d"%string).
Lemma glass_sorted : sorted_lenses glass.
Proof. intros ver. split; intros s E; injection E as <-; cbn [map fst]; repeat constructor. Qed.
Lemma glass_file : curve_file glass "1F" "0.0" "1F_v0.0.csv".
Proof. exists [], []. split; [reflexivity|]. split; [split; apply contains_iff; reflexivity|]. intros n []. Qed.
Lemma glass_ratio : lens_ratio glass "1F" "0.0" (Some (3 / 4)).
Proof.
  exists "1F_v0.0.csv"%string, [575], [1], (6 / 10), (8 / 10). split; [exact glass_file|]. split; [reflexivity|]. split; [reflexivity|]. split; [discriminate|].
  split; [exists [(0, 6 / 10)], [6 / 10]; split; [reflexivity|]; split; [constructor; [right; left; exists (0, 6 / 10), []; cbn; repeat split; lra|constructor]|cbn; ring]|]. split; [exists [(0, 8 / 10)], [8 / 10]; split; [reflexivity|]; split; [constructor; [right; left; exists (0, 8 / 10), []; cbn; repeat split; lra|constructor]|cbn; ring]|].
  split; [intros _; cbn [quot]; destruct (Req_EM_T (8 / 10) 0); [lra|]; f_equal; field|]. intros (x & [<- | []] & E & _). lra.
Qed.
Lemma spot_peak : is_peak spot (0, 1)%nat.
Proof.
  split; [split; cbn; lia|]. exists 4. split; [reflexivity|]. intros [i j] w (I & J) W. cbn in I, J, W. destruct j as [|[|[|j]]]; [| | |lia]; injection W as <-; split; try lra; intros [B | (B1 & B2)]; cbn in *; try lia; lra.
Qed.
Lemma spot_position : position spot 1 (Some 1) (Some 0).
Proof.
  exists (0, 1)%nat, [(0, 0); (0, 1); (0, 2)]%nat, (Some 6), (Some 6), (Some 0). split; [exact spot_peak|]. split; [apply square_iff; reflexivity|]. unfold moment. rewrite !total_iff. cbn [map vsum fold_right value_of spot pix fst snd prod vadd INR].
  split; [f_equal; ring|]. split; [f_equal; ring|]. split; [f_equal; ring|]. split; [intros E; injection E as E; lra|]. intros _. cbn [quot]. destruct (Req_EM_T 6 0); [lra|]. split; f_equal; field.
Qed.
Lemma spot_throughput : throughput (Some 12) spot (Some (1 / 3)).
Proof.
  split; [cbn; lia|]. split; [cbn; lia|]. exists 4. split.
  - exists [(0, 1)%nat], [4]. split; [|split; [reflexivity|cbn; ring]].
    assert (N : forall j, j <> 1%nat -> ~ in_core spot (0, j)%nat). { intros j J (v & V & M). destruct (M (0, 1)%nat) as (w & W & LE); [split; cbn; lia|]. cbn in W. injection W as <-. cbn in V. destruct j as [|[|j]]; [|contradiction|]; injection V as <-; lra. }
    cbn. apply sieve_out; [apply N; lia|]. apply sieve_in; [|apply sieve_out; [apply N; lia|constructor]]. exists 4. split; [reflexivity|]. intros [i j] (I & J). cbn in I, J. destruct j as [|[|[|j]]]; [| | |lia]; cbn; eexists; (split; [reflexivity|lra]).
  - cbn [quot]. destruct (Req_EM_T 12 0); [lra|]. f_equal. field.
Qed.
Lemma pup_pupil : pupil_frame pup. Proof. repeat split. Qed.
Lemma off_not : ~ pupil_frame off. Proof. intros (H & _). discriminate. Qed.
Lemma demo_unocculted : forall l, sieve pupil_frame l [pup] -> unocculted glass "1F" "0.0" l (Some 12).
Proof.
  intros l S0. exists [pup], [Some 16], (Some 16), (Some (3 / 4)). split; [exact S0|]. split; [discriminate|]. split; [repeat constructor; exists [16]; split; [reflexivity|cbn; ring]|]. split; [exists [16]; split; [reflexivity|cbn; ring]|]. split; [exact glass_ratio|]. cbn [List.length INR quot prod]. destruct (Req_EM_T 1 0); [lra|]. cbn [prod]. f_equal. field.
Qed.
Lemma demo_side : exists n, half_side glass "1F" "0.0" n /\ (3 <= n)%Z.
Proof.
  set (x := 3 * 575 / 10 ^ 9 / (236 / 100) * (180 / PI) * 3600 * 1000 / (218 / 10)). exists (FindModel.ceil x). assert (C : x <= IZR (FindModel.ceil x) < x + 1) by (apply ceil_up; reflexivity). split.
  - exists "1F_v0.0.csv"%string, 575. split; [exact glass_file|]. split; [discriminate|]. split; [cbn; ring|exact C].
  - assert (X : 2 < x). { unfold x. pose proof PI_4. pose proof PI_RGT_0. apply (Rmult_lt_reg_r PI); [lra|]. replace (3 * 575 / 10 ^ 9 / (236 / 100) * (180 / PI) * 3600 * 1000 / (218 / 10) * PI) with (3 * 575 / 10 ^ 9 / (236 / 100) * 180 * 3600 * 1000 / (218 / 10)) by (field; lra). lra. }
    assert (Y : IZR 2 < IZR (FindModel.ceil x)) by lra. apply lt_IZR in Y. lia.
Qed.
Lemma rounds_self : forall z, rounds (IZR z) z.
Proof. intros z. unfold rounds. rewrite Rminus_diag_eq by reflexivity. rewrite Rabs_R0. split; lra. Qed.
Lemma demo_cut : forall n, (3 <= n)%Z -> cut_of n off (Some 1, Some 0) (spot, fun _ _ => 0%Z).
Proof.
  intros n N. exists 1, 0, 1%Z, 0%Z. split; [reflexivity|]. split; [apply (rounds_self 1)|]. split; [apply (rounds_self 0)|]. cbn [t_img off rows cols spot fst snd].
  rewrite !extent_in by lia. rewrite !start_in by lia. rewrite !Z.max_r by lia. split; [lia|]. split; [lia|]. intros i j. split; reflexivity.
Qed.
Definition demo_cal (first : ctframe) (hv : R * R) : ctcal := mkctcal [(spot, fun _ _ => 0%Z)] [((Some 1, Some 0), Some (1 / 3))] hv (3, 3).
Lemma demo_cal_of : forall l t0 l' hv, sieve pupil_frame l [pup] -> offaxis l [off] -> (forall t, In t l -> t = pup \/ t = off) -> l = t0 :: l' -> cards_of (t_fpam_hv t0) hv ->
  cal_of glass "0.0" 1 l (demo_cal t0 hv).
Proof.
  intros l t0 l' hv P O A E H. assert (OF : one_filter l "1F") by (split; [rewrite E; discriminate|]; apply Forall_forall; intros t T; destruct (A t T) as [-> | ->]; reflexivity).
  exists "1F"%string, [(Some 1, Some 0)], [Some (1 / 3)], t0, l'. split; [exact OF|]. split.
  - exists "1F"%string, (Some 12), [off]. split; [exact OF|]. split; [apply demo_unocculted; exact P|]. split; [exact O|]. split; [discriminate|]. split; [constructor; [exact spot_position|constructor]|constructor; [exact spot_throughput|constructor]].
  - split; [|split; [reflexivity|]; split; [exact E|]; split; [exact H|]; destruct (A t0) as [-> | ->]; [rewrite E; left; reflexivity|reflexivity|reflexivity]].
    destruct demo_side as (n & HS & N). exists n, [off], t0, l'. split; [exact HS|]. split; [exact O|]. split; [exists [((Some 1, Some 0), (spot, fun _ _ => 0%Z))]; split; [constructor; [apply demo_cut; exact N|constructor]|split; reflexivity]|]. split; [intros s s' [<- | []] [<- | []]; split; reflexivity|]. split; [exact E|].
    assert (D : forall t, In t l -> t_date t <> None) by (intros t T; destruct (A t T) as [-> | ->]; discriminate). split; apply D; rewrite E; [left; reflexivity|]. clear. revert t0. induction l' as [|a l' IH]; intros t0; [left; reflexivity|]. right. rewrite last_cons2. apply IH.
Qed.
Lemma sieves : sieve pupil_frame [pup; off] [pup] /\ offaxis [pup; off] [off] /\ sieve pupil_frame [off; pup] [pup] /\ offaxis [off; pup] [off].
Proof.
  pose proof pup_pupil as P. pose proof off_not as N. assert (NP : ~ ~ pupil_frame pup) by tauto. repeat split; [apply sieve_in; [exact P|apply sieve_out; [exact N|constructor]]|apply sieve_out; [exact NP|apply sieve_in; [exact N|constructor]]|apply sieve_out; [exact N|apply sieve_in; [exact P|constructor]]|apply sieve_in; [exact N|apply sieve_out; [exact NP|constructor]]].
Qed.
(** The recorded position of the mask is that of the first frame, even of a pupil image. *)
Lemma first_position : exists L ver r p o k k', pupil_frame p /\ ~ pupil_frame o /\ generate_ct_cal L ver r [p; o] = Ok k /\ generate_ct_cal L ver r [o; p] = Ok k' /\ k_table k = k_table k' /\ k_cube k = k_cube k' /\ k_fpam k <> k_fpam k'.
Proof.
  destruct sieves as (A & B & D & E). exists glass, "0.0"%string, 1%nat, pup, off, (demo_cal pup (1, 1)), (demo_cal off (2, 2)). split; [exact pup_pupil|]. split; [exact off_not|].
  split; [apply cal_iff; [exact glass_sorted|]; apply (demo_cal_of _ pup [off]); auto; [intros t [<- | [<- | []]]; auto|reflexivity]|]. split; [apply cal_iff; [exact glass_sorted|]; apply (demo_cal_of _ off [pup]); auto; [intros t [<- | [<- | []]]; auto|reflexivity]|]. split; [reflexivity|]. split; [reflexivity|]. cbn. intros X. injection X as X _. lra.
Qed.

(** ** The repair writes into the wrong entries *)
Definition table2 : list ((R * R) * R) := [((1, 0), 1 / 10); ((0, 2), 2 / 10)].
Definition still : list corhdr := [mkcor (Some 0, Some 0) (Some 0, Some 0) (Some 0, Some 0)].
Definition silent (pts : list (val * R)) (zs : list R) : result (val * val -> val) := Ok (fun _ => None).
Lemma table2_grid : shifted (0, 0) table2 table2.
Proof. repeat constructor; cbn [fst snd]; unfold AngleSpec.minus; cbn [fst snd]; rewrite !Rminus_0_r; reflexivity. Qed.
Lemma still_mask : mask_at (0, 0) (0, 0) ((1, 0), (0, 1)) ((1, 0), (0, 1)) still (0, 0) (0, 0).
Proof. apply mask_same; reflexivity. Qed.
Lemma silent_raw : forall ts, raw_values silent table2 false ts (map (fun _ => None) ts).
Proof.
  intros ts. apply raw_iff. destruct (rmin_total (azs_of table2)) as (a0 & A0); [discriminate|]. destruct (rmax_total (map (fun a => a - a0) (azs_of table2))) as (m & M); [discriminate|]. exists a0, m, (fun _ => None). split; [exact A0|]. split; [exact M|]. split; reflexivity.
Qed.
Lemma table2_range : forall l, (forall t, In t l -> In t (map fst table2)) -> sieve (in_range (map fst table2)) l l.
Proof. induction l as [|t l IH]; intros H; [constructor|]. apply sieve_in; [split; exists t; (split; [apply H; left; reflexivity|lra])|apply IH; intros u U; apply H; right; exact U]. Qed.
Lemma swapped : exists linear table fpam fsam M0 M1 cor out, mask_at fpam fsam M0 M1 cor (0, 0) (0, 0) /\ In ((1, 0), 1 / 10) table /\ In ((0, 2), 2 / 10) table
  /\ interpolate_ct linear table fpam fsam M0 M1 cor [0; 1] [2; 0] false = Ok out /\ In (1 / 10, (0, 2)) out /\ In (2 / 10, (1, 0)) out /\ ~ In (2 / 10, (0, 2)) out
  /\ forall out', interpolate_ct linear table fpam fsam M0 M1 cor [0] [2] false <> Ok out'.
Proof.
  exists silent, table2, (0, 0), (0, 0), ((1, 0), (0, 1)), ((1, 0), (0, 1)), still, [(1 / 10, (0, 2)); (2 / 10, (1, 0))]. split; [exact still_mask|]. split; [left; reflexivity|]. split; [right; left; reflexivity|]. split.
  - apply interpolate_iff. split; [reflexivity|]. exists (0, 0), (0, 0), table2, [(0, 2); (1, 0)], [None; None], [Some (1 / 10); Some (2 / 10)]. split; [exact still_mask|]. split; [exact table2_grid|]. split; [discriminate|]. split; [apply table2_range; cbn; intros t [<- | [<- | []]]; auto|]. split; [exact (silent_raw [(0, 2); (1, 0)])|]. split; [intros v [E | [E | []]]; discriminate|].
    split.
    + split; [reflexivity|]. split; [intros t i c _ N; assert ((i < List.length table2)%nat) by (apply nth_error_Some; congruence); cbn in *; lia|]. intros i t v N. destruct i as [|[|[|i]]]; cbn in N; try discriminate; injection N as <- <-; cbn [nth_error table2 combine]; (split; [intros g c E _; injection E as <- <-; reflexivity|]); intros H; exfalso; (eapply H; [reflexivity|]); [right; left|left]; reflexivity.
    + split; [discriminate|]. exists [((0, 2), Some (1 / 10)); ((1, 0), Some (2 / 10))]. split; [apply sieve_in; [discriminate|]; apply sieve_in; [discriminate|constructor]|repeat constructor].
  - split; [left; reflexivity|]. split; [right; left; reflexivity|]. split; [intros [E | [E | []]]; injection E; intros; lra|]. intros out' H. apply interpolate_iff in H. destruct H as (_ & c & c' & grid & ts & vs & vs' & MA & SH & _ & SV & RW & _ & (_ & RP & _) & _).
    destruct (mask_one _ _ _ _ _ _ _ _ _ MA still_mask) as (-> & ->). assert (grid = table2) by (apply shifted_iff in SH; pose proof table2_grid as G; apply shifted_iff in G; congruence). subst grid.
    assert (ts = [(0, 2)]). { inversion SV as [|x l m HP S1|x l m HP S1]; subst; [inversion S1; reflexivity|]. exfalso. apply HP. split; exists (0, 2); (split; [right; left; reflexivity|lra]). } subst ts.
    destruct RW as (azs & a0 & m & pts & q & _ & _ & _ & _ & Q & F). injection Q as <-. inversion F as [|? v ? vs0 (r0 & a & b & _ & _ & _ & EV) F']; subst. inversion F'; subst. specialize (RP (0, 2) 1%nat (2 / 10)). cbn in RP. assert (1 < 1)%nat by (apply RP; auto). lia.
Qed.
(** ** An interpolator of two nodes, exact at them *)
Definition node_here (p : val * R) (x : val * val) : bool :=
  match fst p, fst x, snd x with Some r, Some r', Some a => if Req_EM_T r r' then if Req_EM_T (snd p) a then true else false else false | _, _, _ => false end.
Definition two_nodes (pts : list (val * R)) (zs : list R) : result (val * val -> val) :=
  match pts, zs with
  | [p; p'], [z; z'] => if node_here p (fst p', Some (snd p')) then Raise ValueError else Ok (fun x => if node_here p x then Some z else if node_here p' x then Some z' else None)
  | _, _ => Raise ValueError
  end.
Lemma node_here_iff : forall r a x, node_here (Some r, a) x = true <-> x = (Some r, Some a).
Proof.
  intros r a [[r'|] [a'|]]; unfold node_here; cbn [fst snd]; try (split; [discriminate|intros E; discriminate E]). destruct (Req_EM_T r r') as [->|N]; [destruct (Req_EM_T a a') as [->|N]|]; [split; reflexivity| |]; (split; [discriminate|]); intros E; injection E; intros; subst; contradiction.
Qed.
Lemma two_nodes_exact : forall pts zs q, two_nodes pts zs = Ok q -> forall j r a z, nth_error pts j = Some (Some r, a) -> nth_error zs j = Some z -> q (Some r, Some a) = Some z.
Proof.
  intros pts zs q H j r a z NP NZ. destruct pts as [|p [|p' [|? ?]]]; try discriminate. destruct zs as [|z0 [|z1 [|? ?]]]; try discriminate. unfold two_nodes in H. destruct (node_here p (fst p', Some (snd p'))) eqn:D; [discriminate|]. injection H as <-. destruct j as [|[|[|j]]]; cbn [nth_error] in NP, NZ; try discriminate.
  - destruct p as [pr pa]. injection NP as NP1 NP2. injection NZ as NZ. subst pr pa z0. pose proof (proj2 (node_here_iff r a (Some r, Some a)) eq_refl) as T. match goal with |- (if ?b then _ else _) = _ => assert (B : b = true) by exact T; rewrite B end. reflexivity.
  - destruct p' as [pr pa]. injection NP as NP1 NP2. injection NZ as NZ. subst pr pa z1. cbn [fst snd] in D. pose proof (proj2 (node_here_iff r a (Some r, Some a)) eq_refl) as T. match goal with |- (if ?b then _ else _) = _ => assert (B : b = false) by exact D; rewrite B end. match goal with |- (if ?b then _ else _) = _ => assert (B' : b = true) by exact T; rewrite B' end. reflexivity.
Qed.
Lemma far1 : far (1, 0) = 1 /\ far (0, 1) = 1 /\ far (0, 2) = 2.
Proof.
  rewrite <- !radius_far. unfold radius. cbn [fst snd]. replace (1 ^ 2 + 0 ^ 2) with 1 by ring. replace (0 ^ 2 + 1 ^ 2) with 1 by ring. replace (0 ^ 2 + 2 ^ 2) with (2 * 2) by ring. rewrite sqrt_1, sqrt_square by lra. auto.
Qed.
Lemma azimuths : azimuth (1, 0) 0 /\ azimuth (0, 1) (PI / 2) /\ azimuth (0, 2) (PI / 2).
Proof.
  destruct far1 as (A & B & D). pose proof PI_RGT_0. unfold azimuth. rewrite A, B, D, cos_0, sin_0, cos_PI2, sin_PI2. cbn [fst snd]. repeat split; try lra; intros E; injection E; intros; lra.
Qed.
Lemma two_raw : exists v, raw_values two_nodes table2 false [(1, 0); (0, 1)] [v; v] /\ raw_values two_nodes table2 false [(1, 0)] [v].
Proof.
  destruct azimuths as (A & B & D). destruct far1 as (F1 & F2 & F3). pose proof PI_RGT_0 as PP. assert (LO : least_of [0; PI / 2] 0) by (split; [left; reflexivity|intros x [<- | [<- | []]]; lra]). assert (HI : most_of [0; PI / 2] (0 + PI / 2)) by (split; [right; left; ring|intros x [<- | [<- | []]]; lra]).
  assert (AZ : Forall2 (fun (g : (R * R) * R) a => azimuth (fst g) a) table2 [0; PI / 2]) by (constructor; [exact A|constructor; [exact D|constructor]]).
  assert (AE : azs_of table2 = [0; PI / 2]) by (symmetry; apply (f2_map _ _ _ (fun g => arctan2 (snd (fst g)) (fst (fst g))) (fun g a => azimuth_iff (fst g) a)); exact AZ).
  set (pts := [(Some 1, 0 - 0); (Some 2, PI / 2 - 0)] : list (val * R)). assert (PT : Forall2 (fun ga p => scaled false (far (fst (fst ga))) (fst p) /\ snd p = snd ga - 0) (combine table2 [0; PI / 2]) pts) by (constructor; [cbn; rewrite F1; split; reflexivity|constructor; [cbn; rewrite F3; split; reflexivity|constructor]]).
  destruct (two_nodes pts [1 / 10; 2 / 10]) as [q|] eqn:Q.
  2:{ exfalso. cbn in Q. unfold node_here in Q. cbn [fst snd] in Q. destruct (Req_EM_T 1 2); [lra|discriminate]. }
  assert (FO : folded (0 - 0) (PI / 2) (Some 0)) by (split; [lra|]; intros _; exists 0%Z, 0; split; [reflexivity|]; split; [ring|]; unfold Rdiv; rewrite Rmult_0_l; lra).
  assert (FO' : folded (PI / 2 - 0) (PI / 2) (Some 0)) by (split; [lra|]; intros _; exists 1%Z, 0; split; [reflexivity|]; split; [ring|]; unfold Rdiv; rewrite Rmult_0_l; lra).
  exists (q (Some 1, Some 0)). split.
  - exists [0; PI / 2], 0, (PI / 2), pts, q. split; [exact AZ|]. split; [exact LO|]. split; [exact HI|]. split; [exact PT|]. split; [exact Q|]. constructor; [exists (Some 1), 0, (Some 0); rewrite F1; split; [exact A|]; split; [reflexivity|]; split; [exact FO|reflexivity]|]. constructor; [exists (Some 1), (PI / 2), (Some 0); rewrite F2; split; [exact B|]; split; [reflexivity|]; split; [exact FO'|reflexivity]|constructor].
  - exists [0; PI / 2], 0, (PI / 2), pts, q. split; [exact AZ|]. split; [exact LO|]. split; [exact HI|]. split; [exact PT|]. split; [exact Q|]. constructor; [exists (Some 1), 0, (Some 0); rewrite F1; split; [exact A|]; split; [reflexivity|]; split; [exact FO|reflexivity]|constructor].
Qed.
(** A file name that is given: nothing is written. *)
Lemma map_unwritten : forall linear table fpam fsam M0 M1 cor xr yr nx ny target logr p save default out file,
  create_ct_map linear table fpam fsam M0 M1 cor xr yr nx ny target logr (Some p) save default = Ok (out, file) -> file = None.
Proof. intros linear table fpam fsam M0 M1 cor xr yr nx ny target logr p save default out file H. apply map_iff in H. destruct H as (_ & _ & H). apply H. intros (_ & E). discriminate. Qed.
