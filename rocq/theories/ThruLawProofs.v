(** Proofs for the throughput of the PSF subtraction: laws and limits. *)
From Coq Require Import List Arith Bool Reals ZArith String Sorted Permutation Lia Lra.
From Verif Require Import Base DqModel AngleModel NearModel NearProofs CombineModel CombineSpec CombineProofs ComboSpec ComboProofs FindModel FlatModel FlatSpec FlatProofs CtDataProofs FluxRunProofs ThruModel ThruSpec ThruProofs ThruInjectProofs ThruTableProofs ThruRunProofs.
Import ListNotations.
Local Open Scope R_scope.

(** ** The noise *)
Lemma noise_transform : forall (h : R -> R) cen hw cands f g sep v v', rows g = rows f -> cols g = cols f -> (forall r c, pix g r c = option_map h (pix f r c)) ->
  (forall l, spread_of l v -> spread_of (map (fun v => option_map h v) l) v') -> noise_of cen hw cands f sep v -> noise_of cen hw cands g sep v'.
Proof.
  intros h cen hw cands f g sep v v' RG CG P T (ps & S & V). exists ps. unfold places in *. rewrite RG, CG. split; [exact S|]. apply T in V. rewrite map_map in V. erewrite map_ext; [exact V|]. intro p. apply P.
Qed.
Lemma noise_shift : forall b cen hw cands f g sep v, rows g = rows f -> cols g = cols f -> (forall r c, pix g r c = option_map (fun x => x + b) (pix f r c)) ->
  noise_of cen hw cands f sep v -> noise_of cen hw cands g sep v.
Proof. intros b cen hw cands f g sep v RG CG P. apply (noise_transform _ _ _ _ _ _ _ _ _ RG CG P). intros l. apply spread_shift. Qed.
Lemma noise_times : forall b cen hw cands f g sep v, rows g = rows f -> cols g = cols f -> (forall r c, pix g r c = option_map (fun x => b * x) (pix f r c)) ->
  noise_of cen hw cands f sep v -> noise_of cen hw cands g sep (option_map (fun s => Rabs b * s) v).
Proof. intros b cen hw cands f g sep v RG CG P. apply (noise_transform _ _ _ _ _ _ _ _ _ RG CG P). intros l. apply spread_times. Qed.
Lemma sieve_members : forall A (P : A -> Prop) l m, sieve P l m -> forall x, In x l -> P x -> In x m.
Proof. intros A P l m H. induction H as [|y l m Y _ IH|y l m Y _ IH]; intros x I X; [destruct I|destruct I as [->|I]; [left; reflexivity|right; apply IH; assumption]|destruct I as [->|I]; [contradiction|apply IH; assumption]]. Qed.
Lemma noise_local : forall cen hw cands f g sep v, rows g = rows f -> cols g = cols f -> (forall p, in_ring cen hw sep cands p -> pix g (fst p) (snd p) = pix f (fst p) (snd p)) ->
  noise_of cen hw cands f sep v -> noise_of cen hw cands g sep v.
Proof.
  intros cen hw cands f g sep v RG CG P (ps & S & V). exists ps. unfold places in *. rewrite RG, CG. split; [exact S|]. erewrite map_ext_in; [exact V|]. intros p I. apply P. exact (proj2 (sieve_in _ _ _ _ _ S I)).
Qed.
Lemma somes_in : forall l, somes l <> [] <-> exists x, In (Some x) l.
Proof.
  induction l as [|[x|] l IH]; cbn [somes In].
  - split; [congruence|intros (x & [])].
  - split; [intros _; exists x; left; reflexivity|discriminate].
  - rewrite IH. split; intros (y & H); exists y; [right; exact H|destruct H; [discriminate|assumption]].
Qed.
Lemma noise_number : forall cen hw cands f sep v, noise_of cen hw cands f sep v ->
  (v <> None <-> exists p x, (fst p < rows f)%nat /\ (snd p < cols f)%nat /\ in_ring cen hw sep cands p /\ pix f (fst p) (snd p) = Some x).
Proof.
  intros cen hw cands f sep v (ps & S & V). assert (E : v <> None <-> somes (map (fun p => pix f (fst p) (snd p)) ps) <> []). { destruct v as [s|]; cbn [spread_of] in V; [|rewrite V; split; congruence]. destruct V as (_ & m & (N & _) & _). split; [intros _; exact N|discriminate]. }
  rewrite E, somes_in. split.
  - intros (x & I). apply in_map_iff in I. destruct I as (p & X & I). destruct (sieve_in _ _ _ _ _ S I) as (J & R0). unfold places in J. destruct p as (r & c). apply in_prod_iff in J. destruct J as (J1 & J2). apply in_seq in J1, J2. exists (r, c), x. cbn [fst snd] in *. repeat split; try lia; try exact X; apply R0.
  - intros (p & x & A & B & R0 & X). exists x. apply in_map_iff. exists p. split; [exact X|]. apply (sieve_members _ _ _ _ S); [|exact R0]. destruct p as (r & c). unfold places. apply in_prod_iff. split; apply in_seq; cbn [fst snd] in *; lia.
Qed.
Lemma noise_value : forall cen hw cands f sep, exists v, noise_of cen hw cands f sep v /\ forall w, noise_of cen hw cands f sep w -> w = v.
Proof. intros (cx & cy) hw cands f sep. exists (noise cx cy hw cands sep f). split; [apply noise_iff; reflexivity|]. intros w H. apply noise_iff, H. Qed.
Lemma noise_raises : forall cen cube seps hw cands e, measure_noise cen cube seps hw cands = Raise e <-> e = KeyError /\ (fst cen = None \/ snd cen = None).
Proof.
  intros ([x|] & oy) cube seps hw cands e; unfold measure_noise; cbn [fst snd getkey bind].
  - destruct oy as [y|]; cbn [getkey bind].
    + split; [discriminate|]. intros (_ & [E|E]); discriminate E.
    + split; [intro E; injection E as <-; split; [reflexivity|right; reflexivity]|]. intros (-> & _). reflexivity.
  - split; [intro E; injection E as <-; split; [reflexivity|left; reflexivity]|]. intros (-> & _). reflexivity.
Qed.

(** ** The background *)
Definition lift (b : R) (l : list val) : list val := map (fun v => option_map (fun x => x + b) v) l.
Lemma sorted_shift : forall b l, StronglySorted Rle l -> StronglySorted Rle (map (fun x => x + b) l).
Proof. intros b l H. induction H as [|x l _ IH G]; cbn; constructor; [exact IH|]. rewrite Forall_forall in *. intros y I. apply in_map_iff in I. destruct I as (z & <- & I). specialize (G z I). lra. Qed.
Lemma median_shift : forall b l m, is_median l m -> is_median (map (fun x => x + b) l) (m + b).
Proof.
  intros b l m (s & S & P & H). exists (map (fun x => x + b) s). split; [apply sorted_shift, S|]. split; [apply Permutation_map, P|]. rewrite map_length. destruct H as [(k & x & y & L & A & B & ->)|(k & L & A)]; [left|right].
  - exists k, (x + b), (y + b). split; [exact L|]. split; [exact (map_nth_error _ _ _ A)|]. split; [exact (map_nth_error _ _ _ B)|]. field.
  - exists k. split; [exact L|]. exact (map_nth_error (fun x => x + b) _ _ A).
Qed.
Lemma somes_lift : forall b l, somes (lift b l) = map (fun x => x + b) (somes l).
Proof. intros b l. apply somes_shift. Qed.
Lemma clipped_shift : forall b l m, clipped l m -> clipped (lift b l) (lift b m).
Proof.
  intros b l m [(E & ->)|(s & x & S & M & H)]; [left; split; [rewrite somes_lift, E; reflexivity|reflexivity]|]. right. exists s, (x + b). split; [apply spread_shift, S|]. split; [rewrite somes_lift; apply median_shift, M|].
  clear S M. induction H as [|v w l m V _ IH]; cbn [lift map]; constructor; [|exact IH].
  intro y. specialize (V (y - b)). replace (Rabs (y - (x + b))) with (Rabs (y - b - x)) by (f_equal; ring). assert (LE : forall u : val, option_map (fun z => z + b) u = Some y <-> u = Some (y - b)). { intros [u|]; cbn [option_map]; split; intro E; try discriminate E; injection E as E; f_equal; lra. } rewrite !LE. exact V.
Qed.
Lemma rounds_shift : forall b n l m, rounds n l m -> rounds n (lift b l) (lift b m).
Proof. intros b n l m H. induction H as [|n l m k C0 _ IH]; [constructor|]. econstructor; [apply clipped_shift, C0|exact IH]. Qed.
Lemma level_shift : forall b f g v, rows g = rows f -> cols g = cols f -> (forall r c, pix g r c = option_map (fun x => x + b) (pix f r c)) ->
  level_of f v -> level_of g (option_map (fun x => x + b) v).
Proof.
  intros b f g v RG CG P (l & R0 & M). exists (lift b l). unfold places in *. rewrite RG, CG. split.
  - apply (rounds_shift b) in R0. unfold lift at 1 in R0. rewrite map_map in R0. erewrite map_ext; [exact R0|]. intro p. apply P.
  - destruct v as [v|]; cbn [median_of option_map] in *; rewrite somes_lift; [apply median_shift, M|rewrite M; reflexivity].
Qed.
Lemma levelled_shift : forall b f g, rows g = rows f -> cols g = cols f -> (forall r c, pix g r c = option_map (fun x => x + b) (pix f r c)) -> levelled g = levelled f.
Proof.
  intros b f g RG CG P. pose proof (proj2 (level_iff f _) eq_refl) as L. apply (level_shift b f g _ RG CG P) in L. apply level_iff in L. unfold levelled. apply img_ext; cbn [subtract rows cols pix]; [exact RG|exact CG|]. intros r c. rewrite P, <- L. destruct (pix f r c) as [x|]; destruct (background f) as [y|]; cbn [option_map vsub]; try reflexivity. f_equal. ring.
Qed.
Lemma level_value : forall f, exists b, level_of f b /\ forall b', level_of f b' -> b' = b.
Proof. intro f. exists (background f). split; [apply level_iff; reflexivity|]. intros b' H. apply level_iff, H. Qed.

(** ** The order of the table *)
Lemma sorted_perm_R : forall l m, StronglySorted Rlt l -> StronglySorted Rlt m -> Permutation l m -> l = m.
Proof. intros l m L M P. apply sorted_R_one; [exact L|exact M|]. intro k. split; apply Permutation_in; [exact P|apply Permutation_sym, P]. Qed.
Lemma row_ascending : forall seps ms row, row_of_mode seps ms row -> StronglySorted Rlt seps -> Forall2 (summary ms) seps row.
Proof. intros seps ms row (_ & _ & up & S & P & H) A. rewrite <- (sorted_perm_R up seps S A P). exact H. Qed.
Lemma row_descending : forall seps ms row, row_of_mode seps ms row -> StronglySorted Rlt (rev seps) -> Forall2 (summary ms) (rev seps) row.
Proof. intros seps ms row (_ & _ & up & S & P & H) A. rewrite <- (sorted_perm_R up (rev seps) S A (Permutation_trans P (Permutation_rev seps))). exact H. Qed.
Lemma table_swapped : exists seps locs vs row, List.length locs = List.length vs /\ map fst locs = seps /\ NoDup seps
  /\ mapR (fun i => pick (tabulate locs vs) i) (seq 0 (List.length seps)) = Ok row /\ ~ Forall2 (summary (combine locs vs)) seps row.
Proof.
  exists [2; 1], [(2, 0); (1, 0)], [(Some 5, Some 3); (Some 7, Some 3)], [(Some 7, Some 3); (Some 5, Some 3)]. split; [reflexivity|]. split; [reflexivity|]. assert (ND : NoDup [2; 1]) by (constructor; [intros [E|[]]; lra|constructor; [intros []|constructor]]). split; [exact ND|].
  assert (M1 : forall x, is_median [x] x) by (intro x; exists [x]; split; [repeat constructor|]; split; [reflexivity|]; right; exists O; split; reflexivity).
  assert (S2 : summary (combine [(2, 0); (1, 0)] [(Some 5, Some 3); (Some 7, Some 3)]) 2 (Some 5, Some 3)).
  { exists [((2, 0), (Some 5, Some 3))]. split; [|split; apply M1]. cbn [combine]. apply ComboSpec.sieve_in; [reflexivity|]. apply sieve_out; [cbn [fst]; lra|]. constructor. }
  assert (S1 : summary (combine [(2, 0); (1, 0)] [(Some 5, Some 3); (Some 7, Some 3)]) 1 (Some 7, Some 3)).
  { exists [((1, 0), (Some 7, Some 3))]. split; [|split; apply M1]. cbn [combine]. apply sieve_out; [cbn [fst]; lra|]. apply ComboSpec.sieve_in; [reflexivity|]. constructor. }
  split.
  - apply (table_iff [2; 1] [(2, 0); (1, 0)] [(Some 5, Some 3); (Some 7, Some 3)]); [reflexivity| |].
    + intros l [<-|[<-|[]]]; cbn; tauto.
    + split; [exact ND|]. split.
      * intros s [<-|[<-|[]]]; [exists ((2, 0), (Some 5, Some 3))|exists ((1, 0), (Some 7, Some 3))]; (split; [cbn; tauto|reflexivity]).
      * exists [1; 2]. split; [repeat constructor; lra|]. split; [apply perm_swap|]. constructor; [exact S1|]. constructor; [exact S2|]. constructor.
  - intro H. inversion H as [|? ? ? ? A _]; subst. apply summary_iff in A. apply summary_iff in S2. rewrite <- S2 in A. injection A as A. lra.
Qed.

(** ** What stops it *)
Section Run.
Variable F : Type.
Variable roll_of : F -> option R.
Variable inject : F -> val -> loc -> result (F * img).
Variable K : Type.
Variable klip : K -> list F -> result (img * (R * R)).
Variable fit : img -> R * R -> R -> val -> val * val.
Notation meas := (meas_klip_thrupt F roll_of inject K klip fit).
Lemma concat_row : forall A (rws : list (list A)) x, In x (List.concat rws) -> exists i row, nth_error rws i = Some row /\ In x row.
Proof using. intros A rws x I. apply in_concat in I. destruct I as (row & J & I). apply In_nth_error in J. destruct J as (i & J). exists i, row. tauto. Qed.
Lemma row_angle : forall snr pas i s row t, row_of snr pas i s row -> In t row -> exists pa, In pa pas /\ turned (pa + INR i * (120 / INR (List.length pas))) (snd (fst t)).
Proof using.
  intros snr pas i s row t H I. unfold row_of in H. revert H. generalize (INR i * (120 / INR (List.length pas))). intros off H. induction H as [|pa u pas' row' U _ IH]; [destruct I|]. destruct I as [->|I]; [exists pa; split; [left; reflexivity|apply U]|]. destruct (IH I) as (pa' & J & T). exists pa'. split; [right; exact J|exact T].
Qed.
(** A separation whose places are all too close to known sources: no table *)
Lemma blocked : forall h cen cube fs m numbasis snr spacing n_pas seps pas cands scale s i, fs <> [] -> h_plate h = Some scale ->
  nth_error seps i = Some s -> (forall j, nth_error seps j = Some s -> j = i) ->
  (forall pa b, In pa pas -> turned (pa + INR i * (120 / INR (List.length pas))) b -> exists c, In c cands /\ distance (point_of (0, 0) c) (point_of (0, 0) (s, b)) < spacing * (resolution / scale)) ->
  forall out, meas h cen cube fs (m :: numbasis) snr spacing n_pas (Some seps) (Some pas) cands <> Ok out.
Proof using.
  intros h cen cube fs m numbasis snr spacing n_pas seps pas cands scale s i FN HS Es U B (ss & out) E. apply thrupt_iff in E; [|exact FN]. destruct E as (scale' & ps & _ & HS' & _ & SE & AN & L & H). rewrite HS in HS'. injection HS' as <-. cbn [fst snd] in *. destruct SE as [SE|(SE & _)]; [|discriminate SE]. injection SE as <-. destruct AN as [AN|(AN & _)]; [|discriminate AN]. injection AN as <-.
  destruct out as [|row out]; [discriminate L|]. specialize (H O m row eq_refl eq_refl). destruct H as (cx & cy & f & nz & ts & outs & data & pc & level & vs & _ & _ & _ & _ & _ & NZ & (g & G & S) & _ & _ & _ & _ & _ & RM). destruct RM as (_ & C0 & _). destruct (C0 s (nth_error_In _ _ Es)) as ((l & v) & I & El). cbn [fst] in El. apply in_combine_l, in_map_iff in I. destruct I as ((l' & pk) & El' & I). cbn [fst] in El'. subst l'.
  destruct (ThruRunProofs.sieve_in _ _ _ _ _ S I) as (J & FR). destruct G as (rws & -> & LR & G). apply concat_row in J. destruct J as (j & rw & Ej & J). destruct (nth_error (combine seps nz) j) as [(s' & z)|] eqn:Es'; [|apply nth_error_None in Es'; assert (nth_error rws j <> None) by congruence; apply nth_error_Some in H; lia]. pose proof (G j (s', z) rw Es' Ej) as RW. pose proof (row_sep _ _ _ _ _ _ RW J) as RS. cbn [fst] in RS.
  assert (Ec : nth_error seps j = Some s'). { apply (map_nth_error fst) in Es'. rewrite map_fst_combine in Es'; [exact Es'|exact (f2_len _ _ _ _ _ NZ)]. } rewrite <- RS, El in Ec. pose proof (U j Ec). subst j. destruct (row_angle _ _ _ _ _ _ RW J) as (pa & IP & T). cbn [fst snd] in T. destruct (B pa (snd l) IP T) as (c & IC & D). specialize (FR c IC). cbn [fst] in FR. rewrite <- El in D. replace (fst l, snd l) with l in D by (destruct l; reflexivity). lra.
Qed.
Lemma repeated : forall h cen cube fs m numbasis snr spacing n_pas seps pas cands, fs <> [] -> ~ NoDup seps ->
  forall out, meas h cen cube fs (m :: numbasis) snr spacing n_pas (Some seps) pas cands <> Ok out.
Proof using.
  intros h cen cube fs m numbasis snr spacing n_pas seps pas cands FN ND (ss & out) E. apply thrupt_iff in E; [|exact FN]. destruct E as (scale' & ps & _ & _ & _ & SE & _ & L & H). cbn [fst snd] in *. destruct SE as [SE|(SE & _)]; [|discriminate SE]. injection SE as <-. destruct out as [|row out]; [discriminate L|]. specialize (H O m row eq_refl eq_refl). destruct H as (cx & cy & f & nz & ts & outs & data & pc & level & vs & _ & _ & _ & _ & _ & _ & _ & _ & _ & _ & _ & _ & (N & _)). exact (ND N).
Qed.
Lemma unsupported : forall h cen cube fs numbasis snr spacing n_pas seps pas cands c, h_cfam h = Some c -> c <> "1F"%string ->
  meas h cen cube fs numbasis snr spacing n_pas seps pas cands = Raise NotImplementedError.
Proof using. intros h cen cube fs numbasis snr spacing n_pas seps pas cands c E N. unfold meas_klip_thrupt. rewrite E. cbn [getkey bind]. destruct (String.eqb_spec c "1F"); [congruence|reflexivity]. Qed.
End Run.
(** The sources of a run keep clear of the known ones *)
Lemma targets_free : forall snr res cands pas seps ts t c, targets snr res cands pas seps ts -> In t ts -> In c cands -> forall cen, res <= distance (point_of cen c) (point_of cen (fst t)).
Proof.
  intros snr res cands pas seps ts t c (g & _ & S) I J cen. pose proof (proj2 (ThruRunProofs.sieve_in _ _ _ _ _ S I) c J) as H. replace (distance (point_of cen c) (point_of cen (fst t))) with (distance (point_of (0, 0) c) (point_of (0, 0) (fst t))); [exact H|]. unfold distance, point_of. cbn [fst snd]. f_equal. ring.
Qed.
Lemma targets_one : forall snr res cands pas seps ts ts', targets snr res cands pas seps ts -> targets snr res cands pas seps ts' -> ts = ts'.
Proof. intros snr res cands pas seps ts ts' A B. apply (targets_iff [0] cands res snr ltac:(discriminate)) in A, B. congruence. Qed.
(** A window beyond the edge by less than its size *)
Lemma beyond : forall n N c, (Z.of_nat N < c - Z.of_nat n < Z.of_nat N + 2 * Z.of_nat n + 1)%Z -> ~ takes n N c.
Proof. intros n N c H T. unfold takes in T. cbv zeta in T. lia. Qed.
Lemma edge_witness : exists data cy cx, cutout data (3%nat, 3%nat) cy cx = Raise ValueError.
Proof. exists (mkimg 3 3 (fun _ _ => Some 0)), 5%Z, 1%Z. reflexivity. Qed.
