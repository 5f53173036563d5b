(** What the search of stars returns. *)
From Coq Require Import List Arith Bool Reals ZArith Lra Lia FunctionalExtensionality.
From Verif Require Import Base DqModel SpotModel SpotSearchProofs SortGroupProofs BendModel BendSpec BendFitProofs PeakModel PeakSpec PeakProofs.
Import ListNotations.
Local Open Scope R_scope.

Lemma padded_framed : forall im, framed im (padded im).
Proof.
  intros im. split; [reflexivity|]. split; [reflexivity|]. split.
  - intros i j I J. unfold padded. cbn [px]. destruct (Nat.leb_spec 25 (i + 25)); [|lia]. destruct (Nat.ltb_spec (i + 25) (ny im + 25)); [|lia]. destruct (Nat.leb_spec 25 (j + 25)); [|lia]. destruct (Nat.ltb_spec (j + 25) (nx im + 25)); [|lia]. cbn [andb]. rewrite !Nat.add_sub. reflexivity.
  - intros i j H. unfold padded. cbn [px]. destruct (Nat.leb_spec 25 i); [|reflexivity]. destruct (Nat.ltb_spec i (ny im + 25)); [|reflexivity]. destruct (Nat.leb_spec 25 j); [|reflexivity]. destruct (Nat.ltb_spec j (nx im + 25)); [|reflexivity]. lia.
Qed.
Lemma framed_unique : forall im a b, framed im a -> framed im b -> a = b.
Proof.
  intros im [na ma pa] [nb mb pb] (A1 & A2 & A3 & A4) (B1 & B2 & B3 & B4). cbn [ny nx px] in *. subst. f_equal. apply functional_extensionality. intros i. apply functional_extensionality. intros j.
  destruct (lt_dec i 25) as [H|H]; [rewrite A4, B4 by auto; reflexivity|]. destruct (le_dec (ny im + 25) i) as [K|K]; [rewrite A4, B4 by auto; reflexivity|]. destruct (lt_dec j 25) as [H'|H']; [rewrite A4, B4 by auto; reflexivity|]. destruct (le_dec (nx im + 25) j) as [K'|K']; [rewrite A4, B4 by auto; reflexivity|].
  replace i with ((i - 25) + 25)%nat by lia. replace j with ((j - 25) + 25)%nat by lia. rewrite A3, B3 by lia. reflexivity.
Qed.
Lemma located_iff : forall gauss im p r, (do r <- gauss (padded im) (INR (snd p) + 25) (INR (fst p) + 25); Ok (nsub (fst r) (Some 25), nsub (snd r) (Some 25))) = Ok r <-> located gauss (padded im) p r.
Proof.
  intros gauss im p r. unfold located. assert (N : forall v, nsub v (Some 25) = option_map (fun x => x - 25) v) by (intros [v|]; reflexivity). destruct (gauss _ _ _) as [(x, y)|]; cbn [bind fst snd].
  - rewrite !N. split; [intros Q; exists x, y; split; [reflexivity|congruence]|]. intros (x' & y' & E & ->). injection E as -> ->. reflexivity.
  - split; [discriminate|]. intros (x & y & E & _). discriminate.
Qed.
Lemma hunt_peaks : forall im f w n l, half_width f w -> (hunt f n 0 None im = Ok l <-> peaks im w n [] l).
Proof. intros im f w n l H. apply (hunt_iff im f w H n [] im l). apply leaves_nil. Qed.
(** Exactly the peaks, one after the other, each located by the fit about it. *)
Theorem find_ok : forall gauss im threshold fwhm mask_rad w out, half_width (fwhm * mask_rad) w ->
  (find_source_locations gauss im threshold fwhm mask_rad = Ok out <->
   (0 <= threshold)%Z /\ ny im = nx im /\ exists ps fr, peaks im w (Z.to_nat threshold) [] ps /\ framed im fr /\ Forall2 (located gauss fr) ps out).
Proof.
  intros gauss im threshold fwhm mask_rad w out H. unfold find_source_locations. destruct (Z.ltb_spec threshold 0) as [T|T]; [split; [discriminate|intros (Q & _); lia]|].
  destruct (hunt _ _ _ _ _) as [ps|e] eqn:E; cbn [bind].
  - destruct (Nat.eqb_spec (ny im) (nx im)) as [S|S]; cbn [negb].
    + rewrite mapR_iff. split.
      * intros F. split; [assumption|]. split; [assumption|]. exists ps, (padded im). split; [apply (hunt_peaks im _ w _ _ H); assumption|]. split; [apply padded_framed|]. revert F. clear. induction 1 as [|p r ps out X F IH]; constructor; [apply located_iff; assumption|assumption].
      * intros (_ & _ & ps' & fr & P & FR & F). apply (hunt_peaks im _ w _ _ H) in P. rewrite E in P. injection P as <-. rewrite (framed_unique im fr (padded im) FR (padded_framed im)) in F. revert F. clear. induction 1 as [|p r ps out X F IH]; constructor; [apply located_iff; assumption|assumption].
    + split; [discriminate|]. intros (_ & Q & _). contradiction.
  - split; [discriminate|]. intros (_ & _ & ps & fr & P & _). apply (hunt_peaks im _ w _ _ H) in P. congruence.
Qed.
Theorem find_refused : forall gauss im threshold fwhm mask_rad w e, half_width (fwhm * mask_rad) w ->
  (find_source_locations gauss im threshold fwhm mask_rad = Raise e <->
   ((threshold < 0)%Z /\ e = ValueError) \/
   ((0 < threshold)%Z /\ (ny im = 0%nat \/ nx im = 0%nat) /\ e = ValueError) \/
   ((0 < threshold)%Z /\ (0 < ny im)%nat /\ (0 < nx im)%nat /\ (forall p, inside im p -> px im (fst p) (snd p) = None) /\ e = IndexError) \/
   ((0 <= threshold)%Z /\ ny im <> nx im /\ (threshold = 0%Z \/ exists p v, inside im p /\ px im (fst p) (snd p) = Some v) /\ e = ValueError) \/
   ((0 <= threshold)%Z /\ ny im = nx im /\ exists ps fr ps1 p ps2, peaks im w (Z.to_nat threshold) [] ps /\ framed im fr /\ ps = ps1 ++ p :: ps2 /\ gauss fr (INR (snd p) + 25) (INR (fst p) + 25) = Raise e /\
     forall q, In q ps1 -> exists r, located gauss fr q r)).
Proof.
  intros gauss im threshold fwhm mask_rad w e H. unfold find_source_locations. destruct (Z.ltb_spec threshold 0) as [T|T].
  { split; [intros Q; injection Q as <-; left; auto|]. intros [(_ & ->)|[(Q & _)|[(Q & _)|[(Q & _)|(Q & _)]]]]; try lia; reflexivity. }
  assert (HR := fun e => hunt_raise im _ w H (Z.to_nat threshold) [] im e (leaves_nil im w)). change (List.length (@nil (nat * nat))) with 0%nat in HR. change (last_of []) with (@None (nat * nat)) in HR.
  destruct (hunt _ _ _ _ _) as [ps|e'] eqn:E; cbn [bind].
  - assert (P : peaks im w (Z.to_nat threshold) [] ps) by (apply (hunt_peaks im _ w _ _ H); assumption).
    assert (NR : forall e, ~ ((0 < Z.to_nat threshold)%nat /\ (e = ValueError /\ (ny im = 0%nat \/ nx im = 0%nat) \/ e = IndexError /\ (0 < ny im)%nat /\ (0 < nx im)%nat /\ forall p, inside im p -> ~ hidden w [] p /\ px im (fst p) (snd p) = None))) by (intros e0 Q; apply HR in Q; discriminate Q). clear HR.
    assert (HN : forall p, ~ hidden w [] p) by (intros p (a & [] & _)).
    destruct (Nat.eqb_spec (ny im) (nx im)) as [S|S]; cbn [negb].
    + rewrite (mapR_first_raise _ _ _ ps e). split.
      * intros (ps1 & p & ps2 & L & G & B). right. right. right. right. split; [assumption|]. split; [assumption|]. exists ps, (padded im), ps1, p, ps2. split; [assumption|]. split; [apply padded_framed|]. split; [assumption|]. split; [destruct (gauss _ _ _); cbn [bind] in G; [discriminate|congruence]|]. intros q Q. destruct (B q Q) as (r & R1). exists r. apply located_iff. assumption.
      * intros [(Q & _)|[(Q & Z & _)|[(Q & A & B & C & _)|[(_ & Q & _)|(_ & _ & ps' & fr & ps1 & p & ps2 & P' & FR & L & G & B)]]]]; [lia| | |contradiction|].
        { exfalso. apply (NR ValueError). split; [lia|]. left. auto. }
        { exfalso. apply (NR IndexError). split; [lia|]. right. split; [reflexivity|]. split; [assumption|]. split; [assumption|]. intros p I. split; [apply HN|apply C; assumption]. }
        apply (hunt_peaks im _ w _ _ H) in P'. rewrite E in P'. injection P' as <-. rewrite (framed_unique im fr (padded im) FR (padded_framed im)) in *. exists ps1, p, ps2. split; [assumption|]. rewrite G. split; [reflexivity|]. intros q Q. destruct (B q Q) as (r & R1). exists r. apply located_iff. assumption.
    + split.
      * intros Q. injection Q as <-. right. right. right. left. split; [assumption|]. split; [assumption|]. split; [|reflexivity]. destruct (Z.eq_dec threshold 0) as [Z|Z]; [left; assumption|]. right.
        remember (Z.to_nat threshold) as n eqn:EN. destruct n as [|n]; [lia|]. apply peaks_inv in P. destruct P as [(ps' & p & _ & Q & _)|(p & (I & v & [(Q & _)|(_ & V)] & _) & _)]; [destruct ps'; discriminate Q|exfalso; apply (HN p Q)|eauto].
      * intros [(Q & _)|[(Q & Z & _)|[(Q & A & B & C & _)|[(_ & _ & _ & ->)|(_ & Q & _)]]]]; [lia| | |reflexivity|contradiction].
        { exfalso. apply (NR ValueError). split; [lia|]. left. auto. }
        { exfalso. apply (NR IndexError). split; [lia|]. right. split; [reflexivity|]. split; [assumption|]. split; [assumption|]. intros p I. split; [apply HN|apply C; assumption]. }
  - assert (X := proj1 (HR e') eq_refl). split.
    + intros Q. injection Q as <-. destruct X as (T' & [(-> & Z)|(-> & A & B & C)]); [right; left|right; right; left]; (split; [lia|]); auto. split; [assumption|]. split; [assumption|]. split; [|reflexivity]. intros p I. apply C. assumption.
    + intros Y. enough (e' = e) by congruence. destruct Y as [(Q & _)|[(Q & Z & ->)|[(Q & A & B & C & ->)|[(_ & S & [Q|(p & v & I & V)] & ->)|(_ & _ & ps & fr & _ & _ & _ & P & _)]]]].
      * lia.
      * destruct X as (_ & [(-> & _)|(_ & X1 & X2 & _)]); [reflexivity|lia].
      * destruct X as (_ & [(-> & X1)|(-> & _)]); [lia|reflexivity].
      * subst. destruct X as (X & _). cbn in X. lia.
      * destruct X as (_ & [(-> & _)|(_ & _ & _ & X)]); [reflexivity|]. destruct (X p I) as (_ & X1). congruence.
      * apply (hunt_peaks im _ w _ _ H) in P. congruence.
Qed.

Lemma peak_unique : forall im w ps p q, peak im w ps p -> peak im w ps q -> p = q.
Proof.
  intros im w ps p q (P & u & U & A) (Q & v & V & B). destruct (before_total p q) as [E|[H|H]]; [assumption| |]; exfalso.
  - destruct (B p u P U) as (B1 & B2). destruct (A q v Q V) as (A1 & _). specialize (B2 H). lra.
  - destruct (A q v Q V) as (A1 & A2). destruct (B p u P U) as (B1 & _). specialize (A2 H). lra.
Qed.
Theorem peaks_unique : forall im w n ps l m, peaks im w n ps l -> peaks im w n ps m -> l = m.
Proof.
  intros im w. induction n as [|n IH]; intros ps l m A B; [apply peaks_nil in A; apply peaks_nil in B; congruence|]. apply peaks_inv in A. apply peaks_inv in B.
  destruct A as [(a & p & A1 & A2 & A3 & ->)|(p & A1 & A2 & A3)]; destruct B as [(b & q & B1 & B2 & B3 & ->)|(q & B1 & B2 & B3)].
  - reflexivity.
  - exfalso. rewrite (peak_unique _ _ _ _ _ B1 A3) in B2. exact (B2 a A1 A2).
  - exfalso. rewrite (peak_unique _ _ _ _ _ A1 B3) in A2. exact (A2 b B1 B2).
  - rewrite (peak_unique _ _ _ _ _ B1 A1) in B3. exact (IH _ _ _ A3 B3).
Qed.
(** As many as asked for, or at least three of which the last is found again. *)
Theorem peaks_count : forall im w n l, peaks im w n [] l -> List.length l = n \/ ((3 <= List.length l < n)%nat /\ exists l' p, l = l' ++ [p] /\ peak im w l p).
Proof.
  intros im w n l P. assert (G : forall n ps l, peaks im w n ps l -> List.length l = (List.length ps + n)%nat \/ ((3 <= List.length l < List.length ps + n)%nat /\ exists l' p, l = l' ++ [p] /\ peak im w l p)).
  { clear. intros n ps l P. induction P as [ps|n ps p A B|n ps p l A B P IH]; [left; lia| |].
    - right. rewrite app_length. cbn [List.length]. split; [lia|]. exists ps, p. auto.
    - rewrite app_length in IH. cbn [List.length] in IH. destruct IH as [IH|(IH & X)]; [left; lia|right; split; [lia|assumption]]. }
  destruct (G n [] l P) as [X|X]; [left; exact X|right; exact X].
Qed.
(** Every source is as bright as any pixel that is not near an earlier one, and not near one itself, unless no such pixel is above zero. *)
Theorem peaks_each : forall im w n l l1 p l2, peaks im w n [] l -> l = l1 ++ p :: l2 ->
  inside im p /\
  ((hidden w l1 p /\ forall q u, inside im q -> ~ hidden w l1 q -> px im (fst q) (snd q) = Some u -> u <= 0) \/
   (~ hidden w l1 p /\ exists v, px im (fst p) (snd p) = Some v /\ forall q u, inside im q -> ~ hidden w l1 q -> px im (fst q) (snd q) = Some u -> u <= v)).
Proof.
  intros im w n l l1 p l2 P E.
  assert (G : forall n ps l, peaks im w n ps l -> forall l1 p l2, l = l1 ++ p :: l2 -> (List.length ps <= List.length l1)%nat -> peak im w l1 p).
  { clear. intros n ps l P. induction P as [ps|n ps p A B|n ps p l A B P IH]; intros l1 q l2 E L.
    - subst ps. rewrite app_length in L. cbn in L. lia.
    - rewrite E, app_length in L. cbn in L. lia.
    - destruct (Nat.eq_dec (List.length ps) (List.length l1)) as [Q|Q].
      + destruct (peaks_app _ _ _ _ _ P) as (l' & E'). rewrite E' in E. rewrite <- app_assoc in E. apply app_inj_len in E; [|assumption]. destruct E as (-> & E). injection E as -> _. assumption.
      + apply (IH l1 q l2 E). rewrite app_length. cbn. lia. }
  assert (PK := G n [] l P l1 p l2 E (Nat.le_0_l _)). destruct PK as (I & v & V & A). split; [assumption|]. destruct V as [(H & ->)|(H & V)]; [left|right]; (split; [assumption|]).
  - intros q u Q N U. apply (A q u Q). right. auto.
  - exists v. split; [assumption|]. intros q u Q N U. apply (A q u Q). right. auto.
Qed.

Lemma near_refl : forall w p, near w p p. Proof. intros w p. unfold near. lia. Qed.
(** All stars of a field are found, brightest first. *)
Theorem field_found : forall im w stars n, star_field im w stars -> (n <= List.length stars)%nat -> peaks im w n [] (firstn n stars).
Proof.
  intros im w stars n (IN & PW & POS & BR). assert (G : forall n s1 s2, stars = s1 ++ s2 -> (n <= List.length s2)%nat -> peaks im w n s1 (s1 ++ firstn n s2)); [|exact (G n [] stars eq_refl)].
  clear n. induction n as [|n IH]; intros s1 s2 E L; [cbn [firstn]; rewrite app_nil_r; constructor|]. destruct s2 as [|a s2]; [cbn in L; lia|]. cbn [firstn]. 
  assert (AP : forall b, In b s1 -> ~ near w b a). { intros b B. apply in_split in B. destruct B as (t1 & t2 & ->). rewrite <- app_assoc in E. cbn [app] in E. apply (PW t1 b t2 a s2 E). }
  assert (NH : ~ hidden w s1 a) by (intros (b & B & N); exact (AP b B N)).
  assert (IA : In a stars) by (rewrite E; apply in_or_app; right; left; reflexivity). destruct (POS a IA) as (v & V & VP).
  assert (LT : forall b u, In b s2 -> px im (fst b) (snd b) = Some u -> u < v). { intros b u B U. apply in_split in B. destruct B as (t1 & t2 & ->). destruct (PW s1 a t1 b t2 E) as (_ & x & y & X & Y & XY). congruence || (rewrite V in X; rewrite U in Y; injection X as ->; injection Y as ->; assumption). }
  assert (PK : peak im w s1 a).
  { split; [rewrite Forall_forall in IN; apply IN; assumption|]. exists v. split; [right; auto|]. intros q u Q [(_ & ->)|(NQ & U)]; [split; [lra|intros _; assumption]|].
    assert (X : q = a \/ u < v). { destruct (Rlt_dec 0 u) as [UP|UP]; [|right; lra]. destruct (BR q u Q U UP) as [B|(b & y & B & N & Y & UY)]; rewrite E in B; apply in_app_or in B; destruct B as [B|[B|B]].
      - exfalso. apply NQ. exists q. split; [assumption|apply near_refl].
      - left. congruence.
      - right. apply (LT q u B U).
      - exfalso. apply NQ. exists b. auto.
      - subst b. right. rewrite V in Y. injection Y as <-. assumption.
      - right. assert (Z := LT b y B Y). lra. }
    destruct X as [->|X]; [rewrite V in U; injection U as <-; split; [lra|intros Z; exfalso; exact (before_irrefl a a Z Z)]|split; [lra|intros _; assumption]]. }
  apply peaks_step with a; [assumption| |].
  - intros ps' _ E'. apply (AP a); [rewrite E'; apply in_or_app; right; left; reflexivity|apply near_refl].
  - change (a :: firstn n s2) with ([a] ++ firstn n s2). rewrite app_assoc. apply IH; [rewrite <- app_assoc; exact E|cbn in L; lia].
Qed.
Theorem field_located : forall gauss im w stars n fwhm mask_rad fr x y, half_width (fwhm * mask_rad) w -> star_field im w stars -> ny im = nx im -> (n <= List.length stars)%nat -> framed im fr ->
  (forall p, In p (firstn n stars) -> gauss fr (INR (snd p) + 25) (INR (fst p) + 25) = Ok (Some (x p + 25), Some (y p + 25))) ->
  find_source_locations gauss im (Z.of_nat n) fwhm mask_rad = Ok (map (fun p => (Some (x p), Some (y p))) (firstn n stars)).
Proof.
  intros gauss im w stars n fwhm mask_rad fr x y H SF SQ L FR G. apply (find_ok gauss im _ fwhm mask_rad w _ H). split; [lia|]. split; [assumption|]. exists (firstn n stars), fr. rewrite Nat2Z.id. split; [apply field_found; assumption|]. split; [assumption|].
  revert G. generalize (firstn n stars). induction l as [|p l IH]; intros G; [constructor|]. cbn [map]. constructor; [|apply IH; intros q Q; apply G; right; assumption].
  exists (Some (x p + 25)), (Some (y p + 25)). split; [apply G; left; reflexivity|]. cbn [option_map]. do 2 f_equal; ring.
Qed.

(** One star and a background below zero: the second source is a pixel of the background. *)
Definition dark (i j : nat) : num := Some (if (Nat.eqb i 2 && Nat.eqb j 2)%bool then 1 else -1).
Theorem spurious_refuted : exists im w p q, peaks im w 2 [] [p; q] /\ px im (fst p) (snd p) = Some 1 /\ px im (fst q) (snd q) = Some (-1) /\ forall r u, inside im r -> px im (fst r) (snd r) = Some u -> r <> p -> u = -1.
Proof.
  exists (mkimage 5 5 dark), 1%nat, (2, 2)%nat, (1, 1)%nat. split; [|split; [reflexivity|]; split; [reflexivity|]].
  - assert (D : forall q u, dark (fst q) (snd q) = Some u -> (q = (2, 2)%nat /\ u = 1) \/ (q <> (2, 2)%nat /\ u = -1)). { intros (i, j) u. unfold dark. cbn [fst snd]. destruct (Nat.eqb_spec i 2) as [->|]; destruct (Nat.eqb_spec j 2) as [->|]; cbn [andb]; intros Q; injection Q as <-; [left; auto|right; split; [congruence|reflexivity]|right; split; [congruence|reflexivity]|right; split; [congruence|reflexivity]]. }
    apply peaks_step with (2, 2)%nat.
    { split; [unfold inside; cbn; lia|]. exists 1. split; [right; split; [intros (a & [] & _)|reflexivity]|]. intros q u Q [((a & [] & _) & _)|(_ & U)]. cbn [px] in U. destruct (D q u U) as [(-> & ->)|(_ & ->)]; [|lra]. split; [lra|]. intros B. exfalso. exact (before_irrefl _ _ B B). }
    { intros ps' _ E. destruct ps'; discriminate E. }
    apply peaks_step with (1, 1)%nat.
    { split; [unfold inside; cbn; lia|]. exists 0. split; [left; split; [|reflexivity]; exists (2, 2)%nat; split; [left; reflexivity|unfold near; cbn; lia]|]. intros q u Q [((a & [<-|[]] & N) & ->)|(N & U)].
      - split; [lra|]. intros B. exfalso. destruct q as (i, j). unfold near, before in *. cbn in *. lia.
      - cbn [px] in U. destruct (D q u U) as [(-> & ->)|(_ & ->)]; [exfalso; apply N; exists (2, 2)%nat; split; [left; reflexivity|apply near_refl]|lra]. }
    { intros ps' L E. apply (f_equal (@List.length _)) in E. rewrite !app_length in E. cbn in E. lia. }
    constructor.
  - intros (i, j) u _. unfold dark. cbn [px fst snd]. destruct (Nat.eqb_spec i 2) as [->|]; destruct (Nat.eqb_spec j 2) as [->|]; cbn [andb]; intros Q N; injection Q as <-; congruence.
Qed.
(** One bright pixel on zeros, all of it masked: the same place is returned three times. *)
Theorem repeated_refuted : exists im w p, forall n, (3 <= n)%nat -> peaks im w n [] [p; p; p].
Proof.
  exists (mkimage 1 1 (fun _ _ => Some 1)), 0%nat, (0, 0)%nat. intros n N. set (im := mkimage 1 1 _).
  assert (ON : forall q, inside im q -> q = (0, 0)%nat) by (intros (i, j) (A & B); cbn in A, B; f_equal; lia).
  assert (PK : forall ps, peak im 0 ps (0, 0)%nat). { intros ps. split; [unfold inside; cbn; lia|]. destruct (hidden_dec 0 ps (0, 0)%nat) as [H|H]; [exists 0|exists 1]; (split; [unfold shows; auto|]); intros q u Q; rewrite (ON q Q); intros [(K & ->)|(K & U)]; try contradiction; [|injection U as <-]; (split; [lra|intros B; exfalso; exact (before_irrefl _ _ B B)]). }
  destruct n as [|[|[|n]]]; try lia. do 3 (apply peaks_step with (0, 0)%nat; [apply PK|intros ps' L E; apply (f_equal (@List.length _)) in E; rewrite ?app_length in E; cbn in E; lia|]). cbn [app]. destruct n as [|n]; [constructor|]. apply (peaks_stop im 0 n [(0, 0); (0, 0)]%nat (0, 0)%nat); [cbn; lia|apply PK].
Qed.
(** Rows and columns exchanged in the padded frame: images that are not square are refused, whatever they show. *)
Theorem oblong_refuted : forall gauss im threshold fwhm mask_rad w, half_width (fwhm * mask_rad) w -> ny im <> nx im -> exists e, find_source_locations gauss im threshold fwhm mask_rad = Raise e.
Proof. intros gauss im threshold fwhm mask_rad w H N. destruct (find_source_locations _ _ _ _ _) as [out|e] eqn:E; [|eauto]. apply (find_ok _ _ _ _ _ w _ H) in E. destruct E as (_ & Q & _). contradiction. Qed.

(** A field of two stars. *)
Definition two (i j : nat) : num := Some (if (Nat.eqb i 1 && Nat.eqb j 1)%bool then 2 else if (Nat.eqb i 4 && Nat.eqb j 3)%bool then 3 else 0).
Lemma two_field : star_field (mkimage 6 6 two) 1 [(4, 3); (1, 1)]%nat.
Proof.
  split; [repeat constructor; cbn; lia|]. split; [|split].
  - intros s1 a s2 b s3 E. assert (X : s1 = [] /\ a = (4, 3)%nat /\ s2 = [] /\ b = (1, 1)%nat). { assert (L := f_equal (@List.length _) E). rewrite app_length in L. cbn [List.length] in L. rewrite app_length in L. cbn [List.length] in L. destruct s1; [|cbn in L; lia]. destruct s2; [|cbn in L; lia]. cbn [app] in E. injection E as <- <- _. auto. }
    destruct X as (-> & -> & -> & ->). split; [unfold near; cbn; lia|]. exists 3, 2. split; [reflexivity|]. split; [reflexivity|lra].
  - intros a [<-|[<-|[]]]; [exists 3|exists 2]; (split; [reflexivity|lra]).
  - intros (i, j) u _. unfold two. cbn [px fst snd]. destruct (Nat.eqb_spec i 1) as [->|]; destruct (Nat.eqb_spec j 1) as [->|]; cbn [andb]; intros Q; [intros _; left; right; left; reflexivity| | |]; (destruct (Nat.eqb_spec i 4) as [->|] || idtac); cbn [andb Nat.eqb] in Q; try (destruct (Nat.eqb_spec j 3) as [->|]; cbn [andb] in Q); injection Q as <-; intros P; try lra; left; left; reflexivity.
Qed.
