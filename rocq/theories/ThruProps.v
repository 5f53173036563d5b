(** C60: throughput of the PSF subtraction. *)
From Coq Require Import List Arith Bool Reals ZArith String Sorted Permutation Lia Lra.
From Verif Require Import Base DqModel NearModel CombineModel CombineSpec ComboSpec FlatModel FlatSpec ThruModel ThruSpec ThruProofs ThruInjectProofs ThruTableProofs ThruRunProofs ThruLawProofs.
Import ListNotations.
Local Open Scope R_scope.

Theorem C60_noise : forall cen cube seps hw cands m, measure_noise cen cube seps hw cands = Ok m <->
  exists cx cy, cen = (Some cx, Some cy) /\ Forall2 (fun sep row => Forall2 (fun f v => noise_of (cx, cy) hw cands f sep v) cube row) seps m.
Proof. exact measure_noise_iff. Qed.
Print Assumptions C60_noise.
Theorem C60_noise_raises : forall cen cube seps hw cands e, measure_noise cen cube seps hw cands = Raise e <-> e = KeyError /\ (fst cen = None \/ snd cen = None).
Proof. exact noise_raises. Qed.
Print Assumptions C60_noise_raises.
Theorem C60_noise_value : forall cen hw cands f sep, exists v, noise_of cen hw cands f sep v /\ forall w, noise_of cen hw cands f sep w -> w = v.
Proof. exact noise_value. Qed.
Print Assumptions C60_noise_value.
Theorem C60_noise_number : forall cen hw cands f sep v, noise_of cen hw cands f sep v ->
  (v <> None <-> exists p x, (fst p < rows f)%nat /\ (snd p < cols f)%nat /\ in_ring cen hw sep cands p /\ pix f (fst p) (snd p) = Some x).
Proof. exact noise_number. Qed.
Print Assumptions C60_noise_number.
Theorem C60_noise_local : forall cen hw cands f g sep v, rows g = rows f -> cols g = cols f -> (forall p, in_ring cen hw sep cands p -> pix g (fst p) (snd p) = pix f (fst p) (snd p)) ->
  noise_of cen hw cands f sep v -> noise_of cen hw cands g sep v.
Proof. exact noise_local. Qed.
Print Assumptions C60_noise_local.
Theorem C60_noise_shift : forall b cen hw cands f g sep v, rows g = rows f -> cols g = cols f -> (forall r c, pix g r c = option_map (fun x => x + b) (pix f r c)) ->
  noise_of cen hw cands f sep v -> noise_of cen hw cands g sep v.
Proof. exact noise_shift. Qed.
Print Assumptions C60_noise_shift.
Theorem C60_noise_times : forall b cen hw cands f g sep v, rows g = rows f -> cols g = cols f -> (forall r c, pix g r c = option_map (fun x => b * x) (pix f r c)) ->
  noise_of cen hw cands f sep v -> noise_of cen hw cands g sep (option_map (fun s => Rabs b * s) v).
Proof. exact noise_times. Qed.
Print Assumptions C60_noise_times.
Theorem C60_injections : forall F (inject : F -> val -> R * R -> result (F * img)) rolls cands res snr, rolls <> [] -> forall pas, pas <> [] -> forall seps f fs out,
  visit_frames F inject true rolls cands res snr pas seps [] (f :: fs) = Ok out <->
  exists ts, targets snr res cands pas seps ts /\ Forall2 (fun f o => chain F inject f ts (fst o) (snd o)) (f :: fs) out.
Proof. exact injections_iff. Qed.
Print Assumptions C60_injections.
Theorem C60_targets_one : forall snr res cands pas seps ts ts', targets snr res cands pas seps ts -> targets snr res cands pas seps ts' -> ts = ts'.
Proof. exact targets_one. Qed.
Print Assumptions C60_targets_one.
Theorem C60_clear : forall snr res cands pas seps ts t c, targets snr res cands pas seps ts -> In t ts -> In c cands -> forall cen, res <= distance (point_of cen c) (point_of cen (fst t)).
Proof. exact targets_free. Qed.
Print Assumptions C60_clear.
Theorem C60_background_shift : forall b f g, rows g = rows f -> cols g = cols f -> (forall r c, pix g r c = option_map (fun x => x + b) (pix f r c)) -> levelled g = levelled f.
Proof. exact levelled_shift. Qed.
Print Assumptions C60_background_shift.
Theorem C60_background : forall f, exists b, level_of f b /\ forall b', level_of f b' -> b' = b.
Proof. exact level_value. Qed.
Print Assumptions C60_background.
Theorem C60_cutout : forall n d cy cx f, cutout d ((2 * n + 1)%nat, (2 * n + 1)%nat) cy cx = Ok f <->
  takes n (rows d) cy /\ takes n (cols d) cx /\ surroundings n d cy cx f.
Proof. exact cutout_iff. Qed.
Print Assumptions C60_cutout.
Theorem C60_padded : forall m f, padded m = Ok f <-> framed m f.
Proof. exact padded_iff. Qed.
Print Assumptions C60_padded.
Theorem C60_edge : forall n N c, (Z.of_nat N < c - Z.of_nat n < Z.of_nat N + 2 * Z.of_nat n + 1)%Z -> ~ takes n N c.
Proof. exact beyond. Qed.
Print Assumptions C60_edge.
Theorem C60_table : forall seps locs vs row, List.length locs = List.length vs -> (forall l, In l locs -> In (fst l) seps) ->
  mapR (fun i => pick (tabulate locs vs) i) (seq 0 (List.length seps)) = Ok row <-> row_of_mode seps (combine locs vs) row.
Proof. exact table_iff. Qed.
Print Assumptions C60_table.
Theorem C60_ascending : forall seps ms row, row_of_mode seps ms row -> StronglySorted Rlt seps -> Forall2 (summary ms) seps row.
Proof. exact row_ascending. Qed.
Print Assumptions C60_ascending.
Theorem C60_descending : forall seps ms row, row_of_mode seps ms row -> StronglySorted Rlt (rev seps) -> Forall2 (summary ms) (rev seps) row.
Proof. exact row_descending. Qed.
Print Assumptions C60_descending.
Theorem C60_throughput : forall F (roll_of : F -> option R) (inject : F -> val -> R * R -> result (F * img)) K (klip : K -> list F -> result (img * (R * R))) (fit : img -> R * R -> R -> val -> val * val), forall h cen cube fs numbasis snr spacing n_pas seps pas cands out, fs <> [] ->
  (meas_klip_thrupt F roll_of inject K klip fit h cen cube fs numbasis snr spacing n_pas seps pas cands = Ok out <->
   throughput F roll_of inject K klip fit h cen cube fs numbasis snr spacing n_pas seps pas cands out).
Proof. exact thrupt_iff. Qed.
Print Assumptions C60_throughput.
Theorem C60_blocked : forall F (roll_of : F -> option R) (inject : F -> val -> R * R -> result (F * img)) K (klip : K -> list F -> result (img * (R * R))) (fit : img -> R * R -> R -> val -> val * val), forall h cen cube fs m numbasis snr spacing n_pas seps pas cands scale s i, fs <> [] -> h_plate h = Some scale ->
  nth_error seps i = Some s -> (forall j, nth_error seps j = Some s -> j = i) ->
  (forall pa b, In pa pas -> turned (pa + INR i * (120 / INR (List.length pas))) b -> exists c, In c cands /\ distance (point_of (0, 0) c) (point_of (0, 0) (s, b)) < spacing * (resolution / scale)) ->
  forall out, meas_klip_thrupt F roll_of inject K klip fit h cen cube fs (m :: numbasis) snr spacing n_pas (Some seps) (Some pas) cands <> Ok out.
Proof. exact blocked. Qed.
Print Assumptions C60_blocked.
Theorem C60_repeated : forall F (roll_of : F -> option R) (inject : F -> val -> R * R -> result (F * img)) K (klip : K -> list F -> result (img * (R * R))) (fit : img -> R * R -> R -> val -> val * val), forall h cen cube fs m numbasis snr spacing n_pas seps pas cands, fs <> [] -> ~ NoDup seps ->
  forall out, meas_klip_thrupt F roll_of inject K klip fit h cen cube fs (m :: numbasis) snr spacing n_pas (Some seps) pas cands <> Ok out.
Proof. exact repeated. Qed.
Print Assumptions C60_repeated.
Theorem C60_unsupported : forall F (roll_of : F -> option R) (inject : F -> val -> R * R -> result (F * img)) K (klip : K -> list F -> result (img * (R * R))) (fit : img -> R * R -> R -> val -> val * val), forall h cen cube fs numbasis snr spacing n_pas seps pas cands c, h_cfam h = Some c -> c <> "1F"%string ->
  meas_klip_thrupt F roll_of inject K klip fit h cen cube fs numbasis snr spacing n_pas seps pas cands = Raise NotImplementedError.
Proof. exact unsupported. Qed.
Print Assumptions C60_unsupported.
(** With separations that are not ascending the entries of the table are not those of the separations they stand beside. *)
Theorem C60_order_refuted : exists seps locs vs row, List.length locs = List.length vs /\ map fst locs = seps /\ NoDup seps
  /\ mapR (fun i => pick (tabulate locs vs) i) (seq 0 (List.length seps)) = Ok row /\ ~ Forall2 (summary (combine locs vs)) seps row.
Proof. exact table_swapped. Qed.
Print Assumptions C60_order_refuted.
(** A source whose cutout lies beyond the edge of the image, but by less than the size of the cutout, raises ValueError. *)
Theorem C60_edge_refuted : exists data cy cx, cutout data (3%nat, 3%nat) cy cx = Raise ValueError.
Proof. exact edge_witness. Qed.
Print Assumptions C60_edge_refuted.

(** One frame, one KL mode, one source at separation 1 in an image of 3 by 3 pixels, with a fit that finds a peak of 1 and a FWHM of 1. *)
Definition image0 : img := mkimg 3 3 (fun _ _ => Some 0).
Definition model0 : img := mkimg 1 1 (fun _ _ => Some 1).
Definition inject0 (f : unit) (v : val) (l : R * R) : result (unit * img) := Ok (tt, model0).
Definition fit0 (f : img) (c : R * R) (w : R) (g : val) : val * val := (Some 1, Some 1).
Definition header0 : hdr := mkhdr (Some "1F"%string) (Some 20) None None.
Lemma turn0 : turned (0 + INR 0 * (120 / INR 1)) 0.
Proof. split; [lra|]. exists 0%Z. cbn. lra. Qed.
Lemma level0 : surroundings 1 (mkimg 3 3 (fun r c => minus (Some 0) (background image0))) 2 1 (mkimg 3 3 (fun r c => if (Nat.ltb r 2 && Nat.ltb c 3)%bool then minus (Some 0) (background image0) else None)).
Proof.
  split; [reflexivity|]. split; [reflexivity|]. intros r c. cbv zeta. cbn [rows cols pix]. split.
  - intros ((A & B) & D & E). destruct (Nat.ltb_spec r 2); [|lia]. destruct (Nat.ltb_spec c 3); [|lia]. reflexivity.
  - intros H. destruct (Nat.ltb_spec r 2); [|reflexivity]. destruct (Nat.ltb_spec c 3); [|reflexivity]. exfalso. apply H. lia.
Qed.
Example C60_run : meas_klip_thrupt unit (fun _ => Some 0) inject0 nat (fun _ _ => Ok (image0, (1, 1))) fit0 header0 (Some 1, Some 1) [image0] [tt] [5%nat] 5 3 1 (Some [1]) (Some [0]) [(19, 0)] = Ok ([1], [[(Some 1, Some 1)]]).
Proof.
  assert (PI0 : forall a, sin (0 * PI / 180) = 0 /\ cos (0 * PI / 180) = 1 /\ a = a :> R) by (intro a; replace (0 * PI / 180) with 0 by field; rewrite sin_0, cos_0; auto). destruct (PI0 0) as (S0 & C0 & _).
  apply thrupt_iff; [discriminate|]. exists 20, [0]. split; [reflexivity|]. split; [reflexivity|]. split; [lra|]. cbv zeta. cbn [fst snd]. split; [left; reflexivity|]. split; [left; reflexivity|]. split; [reflexivity|]. intros [|k] m row Em Er; [|destruct k; discriminate Em]. injection Em as <-. injection Er as <-.
  set (z := noise 1 1 (resolution / 20) [(19, 0)] 1 image0). set (t0 := (((1, 0), option_map (fun x => x * 5) z) : target)).
  assert (MD : is_median [1] 1) by (exists [1]; split; [repeat constructor|]; split; [reflexivity|]; right; exists O; split; reflexivity).
  exists 1, 1, image0, [z], [t0], [(tt, [mkplaced (1, 0) (snd t0) model0])], image0, (1, 1), (background image0), [(Some 1, Some 1)].
  split; [discriminate|]. split; [reflexivity|]. split; [discriminate|]. split; [discriminate|]. split; [reflexivity|]. split; [constructor; [apply noise_iff; reflexivity|constructor]|]. split.
  - exists [t0]. split.
    + exists [[t0]]. split; [reflexivity|]. split; [reflexivity|]. intros [|i] s row Es Er; [|destruct i; discriminate Es]. injection Es as <-. injection Er as <-. constructor; [|constructor]. split; [reflexivity|]. split; [exact turn0|reflexivity].
    + apply ComboSpec.sieve_in; [|constructor]. intros c [<-|[]]. unfold distance, point_of. cbn [fst snd t0]. rewrite S0, C0. replace ((0 - 19 * 0 - (0 - 1 * 0)) ^ 2 + (0 + 19 * 1 - (0 + 1 * 1)) ^ 2) with (18 * 18) by ring. rewrite sqrt_square by lra. unfold resolution. lra.
  - split; [discriminate|]. split; [constructor; [|constructor]; econstructor; [reflexivity|constructor]|]. split; [reflexivity|]. split; [apply level_iff; reflexivity|]. split.
    + exists (mkimg 3 3 (fun r c => minus (Some 0) (background image0))). split; [reflexivity|]. split; [reflexivity|]. split; [reflexivity|]. exists [mkplaced (1, 0) (snd t0) model0], tt. split; [reflexivity|]. constructor; [|constructor].
      assert (PX : point_of (1, 1) (1, 0) = (1, 2)) by (unfold point_of; cbn [fst snd]; rewrite S0, C0; f_equal; ring).
      destruct (padded model0) as [big|] eqn:EB; [|discriminate EB]. apply padded_iff in EB. eexists big, _, 2%Z, 1%Z. cbn [p_model p_loc]. rewrite PX. cbn [fst snd]. split; [exact EB|]. split; [split; intro; [cbn; lra|lra]|]. split; [split; intro; [cbn; lra|lra]|]. split; [unfold takes; cbn; lia|]. split; [unfold takes; cbn; lia|]. split; [exact level0|]. cbv zeta. unfold fit0. cbn [volume over snd]. assert (LN : ln 2 <> 0) by (pose proof ln_lt_2; lra). assert (VP : PI * 1 * 1 ^ 2 / (4 * ln 2) <> 0) by (pose proof PI_RGT_0; apply Rmult_integral_contrapositive_currified; [lra|apply Rinv_neq_0_compat; lra]). destruct (Req_EM_T _ 0) as [E|_]; [contradiction|]. f_equal. f_equal. field. split; [exact LN|]. pose proof PI_RGT_0. lra.
    + split; [constructor; [intros []|constructor]|]. split; [intros s [<-|[]]; exists ((1, 0), (Some 1, Some 1)); split; [left; reflexivity|reflexivity]|]. exists [1]. split; [repeat constructor|]. split; [reflexivity|]. constructor; [|constructor]. exists [((1, 0), (Some 1, Some 1))]. split; [apply ComboSpec.sieve_in; [reflexivity|constructor]|]. split; exact MD.
Qed.
Example C60_ring : in_ring (0, 0) 1 2 [(20, 90)] (0%nat, 2%nat) /\ ~ in_ring (0, 0) 1 2 [] (0%nat, 3%nat).
Proof.
  assert (D : forall k, 0 <= INR k -> distance (at_pixel (0%nat, k)) (0, 0) = INR k) by (intros k H; unfold distance, at_pixel; cbn [fst snd]; change (INR 0) with 0; replace ((INR k - 0) ^ 2 + (0 - 0) ^ 2) with (INR k * INR k) by ring; apply sqrt_square, H). split.
  - split; [rewrite D by (cbn; lra); cbn; lra|]. intros c [<-|[]]. unfold point_of. cbn [fst snd]. replace (90 * PI / 180) with (PI / 2) by field. rewrite sin_PI2, cos_PI2. unfold distance, at_pixel. cbn [fst snd]. change (INR 0) with 0. replace (INR 2) with 2 by (cbn; ring). replace ((2 - (0 - 20 * 1)) ^ 2 + (0 - (0 + 20 * 0)) ^ 2) with (22 * 22) by ring. rewrite sqrt_square by lra. lra.
  - intros ((_ & H) & _). rewrite D in H by (cbn; lra). cbn in H. lra.
Qed.
(** A candidate on the only place for a source: nothing can be injected at separation 1. *)
Example C60_blocked_case : forall out, meas_klip_thrupt unit (fun _ => Some 0) inject0 nat (fun _ _ => Ok (image0, (1, 1))) fit0 header0 (Some 1, Some 1) [image0] [tt] [5%nat] 5 3 1 (Some [1]) (Some [0]) [(1, 0)] <> Ok out.
Proof.
  apply (C60_blocked unit (fun _ => Some 0) inject0 nat (fun _ _ => Ok (image0, (1, 1))) fit0 header0 _ _ _ 5%nat [] 5 3 1%nat [1] [0] [(1, 0)] 20 1 0%nat); [discriminate|reflexivity|reflexivity|intros [|j] E; [reflexivity|destruct j; discriminate E]|].
  intros pa b [<-|[]] T. exists (1, 0). split; [left; reflexivity|]. assert (B0 : b = 0) by (destruct T as (T1 & k & T2); cbn in T2; assert (K : (-1 < k < 1)%Z) by (split; apply lt_IZR; lra); replace k with 0%Z in T2 by lia; lra). subst b. unfold distance. replace ((fst (point_of (0, 0) (1, 0)) - fst (point_of (0, 0) (1, 0))) ^ 2 + (snd (point_of (0, 0) (1, 0)) - snd (point_of (0, 0) (1, 0))) ^ 2) with 0 by ring. rewrite sqrt_0. unfold resolution. lra.
Qed.
