(** Proofs for the flux ratio noise curve: the star's flux, one frame, all frames. *)
From Coq Require Import List Arith Bool Reals ZArith Sorted Permutation Lia Lra.
From Verif Require Import Base DqModel AngleModel NearModel NearSpec NearProofs CombineModel FindModel FlatModel FlatSpec FlatProofs ThruModel ThruSpec ThruProofs ThruTableProofs ThruRunProofs FrnModel FrnSpec FrnProofs.
Import ListNotations.
Local Open Scope R_scope.

Lemma odd_iff : forall n o, (0 < n)%nat -> (trimmed n o <-> o = odd_size n).
Proof.
  intros n o H. unfold trimmed, odd_size. destruct (Nat.even n) eqn:E.
  - apply Nat.even_spec in E. destruct E as (k & E). split; [intros ((m & M) & D); lia|intros ->; split; [exists (k - 1)%nat; lia|lia]].
  - assert (O : Nat.odd n = true) by (rewrite <- Nat.negb_even, E; reflexivity). apply Nat.odd_spec in O. destruct O as (k & O). split; [intros ((m & M) & D); lia|intros ->; split; [exists k; lia|lia]].
Qed.
Lemma indexable_iff : forall n k, indexable (odd_size n) k = true <-> exists z o, k = I z /\ trimmed n o /\ inside o z.
Proof.
  intros n k. unfold indexable, inside. destruct k as [z|x].
  - rewrite andb_true_iff, Z.leb_le, Z.ltb_lt. split.
    + intros H. exists z, (odd_size n). split; [reflexivity|]. split; [|exact H]. apply odd_iff; [|reflexivity]. destruct n; [cbn in H; lia|lia].
    + intros (z' & o & E & T & H). injection E as <-. apply odd_iff in T; [subst o; exact H|]. destruct T as ((m & M) & D). lia.
  - split; [discriminate|]. intros (z & o & E & _). discriminate E.
Qed.
Lemma inside_real : forall n o z, trimmed n o -> inside o z -> rltb (INR n) (IZR z) = false.
Proof. intros n o z T H. destruct (rltb (INR n) (IZR z)) eqn:E; [|reflexivity]. apply ltb_iff in E. rewrite INR_IZR_INZ in E. apply lt_IZR in E. destruct T as (_ & D). unfold inside in H. lia. Qed.

Section Run.
Variable S : Type.
Variable star : S -> img.
Variable gauss : S -> nat * nat -> R * R -> result (list (R * R * val)).
Variable od : R -> R -> val.

Lemma pos_iff : forall s i given pos, star_pos S star s i given = Ok pos <->
  exists r c nr nc, located (star s) i given r c /\ trimmed (rows (star s)) nr /\ trimmed (cols (star s)) nc /\ inside nr r /\ inside nc c /\ pos = (I r, I c).
Proof using.
  intros s i given pos. unfold star_pos.
  assert (G : forall p : num * num, (if (rltb (INR (rows (star s))) (as_real (fst p)) || rltb (INR (cols (star s))) (as_real (snd p)))%bool then Raise ValueError
    else if (indexable (odd_size (rows (star s))) (fst p) && indexable (odd_size (cols (star s))) (snd p))%bool then Ok p else Raise IndexError) = Ok pos <->
    exists r c nr nc, p = (I r, I c) /\ trimmed (rows (star s)) nr /\ trimmed (cols (star s)) nc /\ inside nr r /\ inside nc c /\ pos = (I r, I c)).
  { intros [a b]. cbn [fst snd]. split.
    - destruct (_ || _)%bool; [discriminate|]. destruct (_ && _)%bool eqn:E; [|discriminate]. intros H. injection H as <-. apply andb_true_iff in E. destruct E as (E1 & E2). apply indexable_iff in E1, E2. destruct E1 as (r & nr & -> & T1 & I1). destruct E2 as (c & nc & -> & T2 & I2). exists r, c, nr, nc. auto 9.
    - intros (r & c & nr & nc & E & T1 & T2 & I1 & I2 & ->). injection E as -> ->. cbn [as_real]. rewrite (inside_real _ _ _ T1 I1), (inside_real _ _ _ T2 I2). cbn [orb]. rewrite (proj2 (indexable_iff _ (I r))), (proj2 (indexable_iff _ (I c))); [reflexivity| |]; [exists c, nc|exists r, nr]; auto. }
  destruct given as [[a b]|]; cbn [located].
  - split.
    + intros H. destruct (pick a i) as [r|] eqn:A; cbn [bind] in H; [|discriminate H]. destruct (pick b i) as [c|] eqn:B; cbn [bind] in H; [|discriminate H]. apply pick_iff in A, B. apply G in H. destruct H as (r' & c' & nr & nc & E & H). injection E as -> ->. exists r', c', nr, nc. auto 9.
    + intros (r & c & nr & nc & (A & B) & H). apply pick_iff in A, B. rewrite A, B. cbn [bind]. apply G. exists r, c, nr, nc. auto 9.
  - split.
    + intros H. destruct (peak (star s)) as [p|] eqn:P; cbn [bind] in H; [|discriminate H]. apply peak_iff in P. apply G in H. destruct H as (r & c & nr & nc & E & H). injection E as E1 E2. exists r, c, nr, nc. split; [exists p; split; [exact P|split; congruence]|exact H].
    + intros (r & c & nr & nc & (p & P & E1 & E2) & H). apply peak_iff in P. rewrite P. cbn [bind]. apply G. exists r, c, nr, nc. subst. auto 9.
Qed.
Lemma vmul_times : forall a b, vmul a b = times a b.
Proof using. intros [a|] [b|]; reflexivity. Qed.
Lemma vdiv_over : forall a b, vdiv a b = over a b.
Proof using. intros [a|] [b|]; reflexivity. Qed.
Lemma flux_iff : forall s i given v, star_flux S star gauss od s i given = Ok v <-> flux_of S star gauss od s i given v.
Proof using.
  intros s i given v. unfold star_flux, flux_of. split.
  - intros H. destruct (star_pos S star s i given) as [pos|] eqn:P; cbn [bind] in H; [|discriminate H]. apply pos_iff in P. destruct P as (r & c & nr & nc & L & T1 & T2 & I1 & I2 & ->). cbn [fst snd as_real] in H.
    assert (P1 : (0 < rows (star s))%nat) by (destruct T1 as ((? & ?) & ?); lia). assert (P2 : (0 < cols (star s))%nat) by (destruct T2 as ((? & ?) & ?); lia). rewrite <- (proj1 (odd_iff _ nr P1) T1), <- (proj1 (odd_iff _ nc P2) T2) in H.
    destruct (gauss s (nr, nc) (IZR r, IZR c)) as [found|] eqn:G; cbn [bind] in H; [|discriminate H].
    set (d := fun q : R * R * val => distance (fst q) (IZR c, IZR r)) in *. change (fun q : R * R * val => sqrt ((fst (fst q) - IZR c) ^ 2 + (snd (fst q) - IZR r) ^ 2)) with d in H.
    destruct (argmin (map d found)) as [k|] eqn:A; cbn [bind] in H; [|discriminate H]. destruct (pick found k) as [[[x y] fl]|] eqn:Q; cbn [bind fst snd] in H; [|discriminate H]. injection H as <-.
    exists r, c, nr, nc, found, k, x, y, fl. repeat (split; [assumption|]). split; [|apply vmul_times]. apply argmin_iff, (least_map _ d found k) in A. destruct A as (a & N). apply pick_iff in Q. assert (a = (x, y, fl)) by (destruct N as (N & _); congruence). subst a. exact N.
  - intros (r & c & nr & nc & found & k & x & y & fl & L & T1 & T2 & I1 & I2 & G & N & ->). rewrite (proj2 (pos_iff s i given (I r, I c))) by (exists r, c, nr, nc; auto 9). cbn [bind fst snd as_real].
    assert (P1 : (0 < rows (star s))%nat) by (destruct T1 as ((? & ?) & ?); lia). assert (P2 : (0 < cols (star s))%nat) by (destruct T2 as ((? & ?) & ?); lia). rewrite <- (proj1 (odd_iff _ nr P1) T1), <- (proj1 (odd_iff _ nc P2) T2), G. cbn [bind].
    set (d := fun q : R * R * val => distance (fst q) (IZR c, IZR r)) in *. change (fun q : R * R * val => sqrt ((fst (fst q) - IZR c) ^ 2 + (snd (fst q) - IZR r) ^ 2)) with d.
    rewrite (proj2 (argmin_iff _ k)) by (apply least_map; eexists; exact N). cbn [bind]. rewrite (proj2 (pick_iff _ _ _ _) (proj1 N)). cbn [bind fst snd]. rewrite vmul_times. reflexivity.
Qed.

(** ** Rows against rows *)
Lemma broadcast_iff : forall A B D (f : A -> B -> D) l m out, broadcast f l m = Ok out <->
  rows_fit l m (List.length out) /\ forall j row, nth_error out j = Some row -> exists a b, matched l m (List.length out) j a b /\ row = f a b.
Proof using.
  intros A B D f l m out. unfold broadcast, rows_fit, matched. destruct (Nat.eqb_spec (List.length l) (List.length m)) as [E|E].
  - split.
    + intros H. injection H as <-. rewrite map_length, combine_length, <- E, Nat.min_id. split; [left; auto|]. intros j row H. rewrite nth_error_map in H. destruct (nth_error (combine l m) j) as [[a b]|] eqn:C0; [|discriminate H]. injection H as <-. exists a, b. split; [|reflexivity].
      assert (X : forall (l : list A) (m : list B) j, nth_error (combine l m) j = Some (a, b) -> nth_error l j = Some a /\ nth_error m j = Some b) by (clear; induction l as [|x l IH]; intros [|y m] [|j] H; try discriminate H; cbn in *; [injection H as -> ->; auto|exact (IH _ _ H)]). destruct (X _ _ _ C0) as (X1 & X2). split; left; auto.
    + intros (N & H). f_equal. assert (N' : List.length l = List.length out /\ List.length m = List.length out) by lia. clear N. destruct N' as (N1 & N2). apply list_nth. intros j x. rewrite nth_error_map.
      assert (Y : forall a b, nth_error l j = Some a -> nth_error m j = Some b -> nth_error (combine l m) j = Some (a, b)) by (clear; revert l m; induction j as [|j IH]; intros [|x l] [|y m] a b H K; try discriminate H; try discriminate K; cbn in *; [congruence|exact (IH _ _ _ _ H K)]).
      destruct (nth_error out j) as [row|] eqn:O.
      * destruct (H j row O) as (a & b & (M1 & M2) & ->). assert (LJ : (j < List.length out)%nat) by (apply nth_error_Some; congruence).
        assert (L1 : nth_error l j = Some a) by (destruct M1 as [(M1 & _)|M1]; [exact M1|rewrite M1 in N1 |- *; cbn in N1; replace j with 0%nat by lia; reflexivity]). assert (L2 : nth_error m j = Some b) by (destruct M2 as [(M2 & _)|M2]; [exact M2|rewrite M2 in N2 |- *; cbn in N2; replace j with 0%nat by lia; reflexivity]).
        rewrite (Y a b L1 L2). reflexivity.
      * apply nth_error_None in O. rewrite (proj2 (nth_error_None (combine l m) j)) by (rewrite combine_length; lia). reflexivity.
  - assert (ONE : forall X (x : list X), List.length x = 1%nat -> exists a, x = [a]) by (intros X [|a [|]] H; try discriminate H; eexists; reflexivity).
    assert (Z1 : forall a, l = [a] -> (Ok (map (f a) m) = Ok out <-> (List.length l = List.length out /\ List.length m = List.length out \/ List.length l = 1%nat /\ List.length m = List.length out \/ List.length m = 1%nat /\ List.length l = List.length out) /\ forall j row, nth_error out j = Some row -> exists a b, ((nth_error l j = Some a /\ List.length l = List.length out \/ l = [a]) /\ (nth_error m j = Some b /\ List.length m = List.length out \/ m = [b])) /\ row = f a b)).
    { intros a ->. cbn [List.length] in *. split.
      - intros H. injection H as <-. rewrite map_length. split; [right; left; auto|]. intros j row H. rewrite nth_error_map in H. destruct (nth_error m j) as [b|] eqn:C0; [|discriminate H]. injection H as <-. exists a, b. split; [|reflexivity]. split; [right; reflexivity|left; auto].
      - intros (N & H). assert (N' : List.length m = List.length out) by lia. f_equal. apply list_nth. intros j x. rewrite nth_error_map. destruct (nth_error out j) as [row|] eqn:O.
        + destruct (H j row O) as (a' & b & (M1 & M2) & ->). assert (a' = a) by (destruct M1 as [(M1 & M3)|M1]; [|congruence]; destruct j as [|[|]]; cbn in M1; congruence). subst a'. destruct M2 as [(M2 & _)| ->]; [rewrite M2; reflexivity|cbn in E; lia].
        + apply nth_error_None in O. rewrite (proj2 (nth_error_None m j)) by lia. reflexivity. }
    destruct l as [|a [|a' l]].
    + destruct m as [|b [|b' m]]; [cbn in E; lia| |].
      * split; [intros H; injection H as <-; split; [right; right; auto|intros [|] row H; discriminate H]|]. intros (N & _). destruct out as [|]; [reflexivity|cbn in N; lia].
      * split; [discriminate|]. intros (N & _). exfalso. cbn in N. lia.
    + apply Z1. reflexivity.
    + destruct m as [|b [|b' m]].
      * split; [discriminate|]. intros (N & _). exfalso. cbn in N. lia.
      * remember (a :: a' :: l) as l0. assert (L2 : List.length l0 <> 1%nat) by (subst; cbn; lia). clear Heql0 Z1. split.
        -- intros H. injection H as <-. rewrite map_length. split; [right; right; auto|]. intros j row H. rewrite nth_error_map in H. destruct (nth_error l0 j) as [c|] eqn:C0; [|discriminate H]. injection H as <-. exists c, b. split; [|reflexivity]. split; [left; auto|right; reflexivity].
        -- intros (N & H). cbn [List.length] in *. assert (N' : List.length l0 = List.length out) by lia. f_equal. apply list_nth. intros j x. rewrite nth_error_map. destruct (nth_error out j) as [row|] eqn:O.
           ++ destruct (H j row O) as (c & b' & (M1 & M2) & ->). assert (b' = b) by (destruct M2 as [(M2 & M3)|M2]; [|congruence]; destruct j as [|[|]]; cbn in M2; congruence). subst b'. destruct M1 as [(M1 & _)|M1]; [rewrite M1; reflexivity|subst l0; cbn in L2; lia].
           ++ apply nth_error_None in O. rewrite (proj2 (nth_error_None l0 j)) by lia. reflexivity.
      * split; [discriminate|]. intros (N & _). exfalso. cbn in N, E. lia.
Qed.

(** ** One frame *)
Lemma frn_over : forall n w fl tp c, frn_value n w fl tp c = over (over (volume (n, w)) fl) (times tp c).
Proof using. intros n w fl tp c. unfold frn_value. rewrite !vdiv_over, vmul_times. destruct n, w; reflexivity. Qed.
Lemma value_iff : forall cx cy hw kl ct flux im tab sep v, NoDup kl -> List.length tab = List.length kl -> (2 <= List.length kl)%nat ->
  NoDup (fst ct) -> List.length (snd ct) = List.length (fst ct) -> (2 <= List.length (fst ct))%nat ->
  (value_of (cx, cy) hw kl ct flux im tab sep v <->
   v = frn_value (noise cx cy hw [] sep im) (interp kl (map snd tab) sep) flux (interp kl (map fst tab) sep) (interp (fst ct) (snd ct) sep)).
Proof using.
  intros cx cy hw kl ct flux im tab sep v N1 L1 G1 N2 L2 G2. rewrite frn_over. unfold value_of.
  assert (R1 : forall w, reads kl (map snd tab) sep w <-> w = interp kl (map snd tab) sep) by (intros w; apply reads_iff; [exact N1|rewrite map_length; exact L1|exact G1]).
  assert (R2 : forall w, reads kl (map fst tab) sep w <-> w = interp kl (map fst tab) sep) by (intros w; apply reads_iff; [exact N1|rewrite map_length; exact L1|exact G1]).
  assert (R3 : forall w, reads (fst ct) (snd ct) sep w <-> w = interp (fst ct) (snd ct) sep) by (intros w; apply reads_iff; [exact N2|exact L2|exact G2]).
  split.
  - intros (n & w & tp & c & A & B & C0 & D0 & ->). apply noise_iff in A. apply R1 in B. apply R2 in C0. apply R3 in D0. subst. reflexivity.
  - intros ->. eexists _, _, _, _. split; [apply noise_iff; reflexivity|]. split; [apply R1; reflexivity|]. split; [apply R2; reflexivity|]. split; [apply R3; reflexivity|]. reflexivity.
Qed.
Lemma columns_eq : forall cx cy hw cube (r : list R),
  map (fun k => map (fun row => match nth_error row k with Some v => v | None => None end) (map (fun sep => map (noise cx cy hw [] sep) cube) r)) (seq 0 (List.length cube))
  = map (fun im => map (fun sep => noise cx cy hw [] sep im) r) cube.
Proof using.
  intros cx cy hw cube r. apply nth_ext_err. intros j. rewrite !nth_error_map. destruct (nth_error cube j) as [im|] eqn:E.
  - assert (Q : nth_error (seq 0 (List.length cube)) j = Some j). { assert (LJ : (j < List.length cube)%nat) by (apply nth_error_Some; congruence). rewrite (nth_error_nth' _ 0%nat) by (rewrite seq_length; exact LJ). rewrite seq_nth by exact LJ. reflexivity. }
    rewrite Q. cbn [option_map]. f_equal. rewrite map_map. apply map_ext. intros sep. rewrite nth_error_map, E. reflexivity.
  - apply nth_error_None in E. rewrite (proj2 (nth_error_None _ _)) by (rewrite seq_length; exact E). reflexivity.
Qed.
Lemma matched_map : forall A B D (g : A -> D) (l : list A) (m : list B) n j d b, matched (map g l) m n j d b <-> exists a, matched l m n j a b /\ d = g a.
Proof using.
  intros A B D g l m n j d b. unfold matched. rewrite map_length, nth_error_map. split.
  - intros ([(H & N)|H] & K).
    + destruct (nth_error l j) as [a|]; [|discriminate H]. injection H as <-. exists a. auto.
    + destruct l as [|a [|]]; try discriminate H. injection H as <-. exists a. auto.
  - intros (a & ([(H & N)| ->] & K) & ->); [rewrite H; auto|split; [right; reflexivity|exact K]].
Qed.
Lemma combine_map2 : forall A B (g : A -> B) l, combine l (map g l) = map (fun a => (a, g a)) l.
Proof using. intros A B g. induction l as [|a l IH]; [reflexivity|]. cbn [map combine]. rewrite IH. reflexivity. Qed.
Lemma matched_in : forall A B (l : list A) (m : list B) n j a b, matched l m n j a b -> In b m.
Proof using. intros A B l m n j a b (_ & [(H & _)| ->]); [exact (nth_error_In _ _ H)|left; reflexivity]. Qed.

Definition settled (f : frame) (req : option (list R)) (hw : option R) (r : list R) (h : R) : Prop :=
  exists kl ct, f_kl f = Some kl /\ f_ct f = Some ct /\ (req = Some r \/ req = None /\ r = fst kl) /\ (hw = Some h \/ hw = None /\ half_of (fst ct) (fst kl) h) /\ 0 < h.
Lemma spacing_iff : forall ct kl g, min_spacing ct kl = Ok g <-> exists a b, least_gap ct a /\ least_gap kl b /\ g = Rmin a b.
Proof using.
  intros ct kl g. unfold min_spacing. split.
  - destruct (rmin (gaps ct)) as [a|] eqn:A; cbn [bind]; [|discriminate]. destruct (rmin (gaps kl)) as [b|] eqn:B; cbn [bind]; [|discriminate]. intros H. injection H as <-. exists a, b. split; [apply rmin_gaps, A|]. split; [apply rmin_gaps, B|reflexivity].
  - intros (a & b & A & B & ->). apply rmin_gaps in A, B. rewrite A, B. reflexivity.
Qed.
Lemma frame_iff : forall f s i given req hw r h out, tidy f ->
  (one_frame S star gauss od f s i given req hw = Ok (r, h, out) <-> settled f req hw r h /\ curve_of S star gauss od i f s given r h out).
Proof using.
  intros f s i given req hw r h out (TK & TC). unfold one_frame.
  assert (CURVE : forall plate kl ct cx cy flux, f_kl f = Some kl -> f_ct f = Some ct -> (2 <= List.length (fst kl))%nat -> (2 <= List.length (fst ct))%nat ->
    (curve plate kl ct (map (fun im => map (fun sep => noise cx cy h [] sep im) r) (f_cube f)) flux r = Ok out <->
     fst (fst out) = r /\ Forall2 (fun x y => y = x * plate) r (snd (fst out)) /\ rows_fit (f_cube f) (snd kl) (List.length (snd out))
     /\ forall j row, nth_error (snd out) j = Some row -> exists im tab, matched (f_cube f) (snd kl) (List.length (snd out)) j im tab /\ Forall2 (value_of (cx, cy) h (fst kl) ct flux im tab) r row)).
  { intros plate kl ct cx cy flux K C0 G1 G2. destruct (TK kl K) as (N1 & L1). destruct (TC ct C0) as (N2 & L2). unfold curve.
    set (g := fun im => map (fun sep => noise cx cy h [] sep im) r).
    set (fn := fun (nz : list val) (row : list (val * val)) => map (fun q => frn_value (snd q) (interp (fst kl) (map snd row) (fst q)) flux (interp (fst kl) (map fst row) (fst q)) (interp (fst ct) (snd ct) (fst q))) (combine r nz)).
    assert (ROW : forall im tab row, In tab (snd kl) -> (Forall2 (value_of (cx, cy) h (fst kl) ct flux im tab) r row <-> row = fn (g im) tab)).
    { intros im tab row IT. unfold fn, g. rewrite combine_map2, map_map. cbn [fst snd]. apply f2_map. intros sep v. apply value_iff; auto. }
    assert (BR : forall o, broadcast fn (map g (f_cube f)) (snd kl) = Ok o <-> rows_fit (f_cube f) (snd kl) (List.length o) /\ forall j row, nth_error o j = Some row -> exists im tab, matched (f_cube f) (snd kl) (List.length o) j im tab /\ Forall2 (value_of (cx, cy) h (fst kl) ct flux im tab) r row).
    { intros o. rewrite broadcast_iff. unfold rows_fit. rewrite map_length. split; intros (P & Q); (split; [exact P|]); intros j row O0; destruct (Q j row O0) as (a & b & M & V).
      - apply matched_map in M. destruct M as (im & M & ->). exists im, b. split; [exact M|]. apply ROW; [exact (matched_in _ _ _ _ _ _ _ _ M)|exact V].
      - exists (g a), b. split; [apply matched_map; exists a; auto|]. apply ROW; [exact (matched_in _ _ _ _ _ _ _ _ M)|exact V]. }
    assert (MAS : forall y, Forall2 (fun x y => y = x * plate) r y <-> y = map (fun x => x * plate) r) by (intros y; apply f2_map; intros a b; reflexivity).
    destruct out as [[o1 o2] o3]. cbn [fst snd]. rewrite MAS, <- BR. destruct (broadcast fn (map g (f_cube f)) (snd kl)) as [o|]; cbn [bind].
    - split; [intros H; injection H as <- <- <-; auto|]. intros (-> & -> & H). injection H as ->. reflexivity.
    - split; [discriminate|]. intros (_ & _ & H). discriminate H. }
  split.
  - intros H. destruct (f_plate f) as [plate|] eqn:EP; cbn [getkey bind] in H; [|discriminate H]. destruct (f_kl f) as [kl|] eqn:EK; cbn [getkey bind] in H; [|discriminate H]. destruct (f_ct f) as [ct|] eqn:EC; cbn [getkey bind] in H; [|discriminate H].
    destruct (min_spacing (fst ct) (fst kl)) as [gap|] eqn:EG; cbn [bind] in H; [|discriminate H]. destruct (Rlt_dec 0 _) as [PH|] in H; [|discriminate H].
    destruct (measure_noise _ _ _ _ _) as [m|] eqn:EM in H; cbn [bind] in H; [|discriminate H]. destruct (star_flux _ _ _ _ _ _ _) as [flux|] eqn:EF in H; cbn [bind] in H; [|discriminate H]. destruct (curve _ _ _ _ _ _) as [c|] eqn:EV in H; cbn [bind] in H; [|discriminate H].
    assert (Q : (match req with Some r => r | None => fst kl end) = r /\ (match hw with Some h => h | None => gap / 2 end) = h /\ c = out) by (injection H as Q1 Q2 Q3; auto). clear H. destruct Q as (Q1 & Q2 & Q3). rewrite Q1, Q2 in *. subst c.
    destruct (f_cen f) as [[cx|] [cy|]] eqn:EN; try discriminate EM. cbn in EM. injection EM as <-. rewrite columns_eq in EV.
    apply spacing_iff in EG. destruct EG as (a & b & GA & GB & ->).
    assert (G1 : (2 <= List.length (fst kl))%nat) by (apply gap_length; exists b; apply rmin_gaps, GB). assert (G2 : (2 <= List.length (fst ct))%nat) by (apply gap_length; exists a; apply rmin_gaps, GA).
    apply (CURVE plate kl ct cx cy flux eq_refl eq_refl G1 G2) in EV. destruct EV as (V1 & V2 & V3 & V4). split.
    + exists kl, ct. split; [exact EK|]. split; [exact EC|]. split; [destruct req; [left; congruence|right; auto]|]. split; [|exact PH]. destruct hw; [left; congruence|right; split; [reflexivity|]]. exists a, b. auto.
    + exists plate, kl, ct, cx, cy, flux. split; [exact EP|]. split; [exact EK|]. split; [exact EC|]. split; [exact EN|]. split; [exact G1|]. split; [exact G2|]. split; [apply flux_iff, EF|]. auto.
  - intros ((kl & ct & EK & EC & R0 & H0 & PH) & (plate & kl' & ct' & cx & cy & flux & EP & EK' & EC' & EN & G1 & G2 & FL & V)). assert (kl' = kl) by congruence. assert (ct' = ct) by congruence. subst kl' ct'. rewrite EP, EK, EC. cbn [getkey bind].
    destruct (proj2 (gap_length (fst ct)) G2) as (a & GA). destruct (proj2 (gap_length (fst kl)) G1) as (b & GB). unfold min_spacing. rewrite GA, GB. cbn [bind].
    assert (Q1 : match req with Some r => r | None => fst kl end = r) by (destruct R0 as [-> |(-> & ->)]; reflexivity). rewrite Q1.
    assert (Q2 : match hw with Some h => h | None => Rmin a b / 2 end = h). { destruct H0 as [-> |(-> & (a' & b' & GA' & GB' & ->))]; [reflexivity|]. apply rmin_gaps in GA', GB'. rewrite GA in GA'. rewrite GB in GB'. injection GA' as ->. injection GB' as ->. reflexivity. }
    rewrite Q2. destruct (Rlt_dec 0 h); [|contradiction]. rewrite EN. unfold measure_noise. cbn [fst snd getkey bind]. apply flux_iff in FL. rewrite FL. cbn [bind]. rewrite columns_eq. apply (CURVE plate kl ct cx cy flux EK EC G1 G2) in V. rewrite V. reflexivity.
Qed.

(** ** All frames *)
Lemma rest_iff : forall given r h, 0 < h -> forall l i outs, (forall f s, In (f, s) l -> tidy f) ->
  (frames_from S star gauss od i given (Some r) (Some h) l = Ok outs <->
   List.length outs = List.length l /\ forall k f s out, nth_error l k = Some (f, s) -> nth_error outs k = Some out -> curve_of S star gauss od (i + k) f s given r h out).
Proof using.
  intros given r h PH. induction l as [|[f s] l IH]; intros i outs T; cbn [frames_from].
  - split; [intros H; injection H as <-; split; [reflexivity|intros [|] ? ? ? H; discriminate H]|]. intros (H & _). destruct outs; [reflexivity|discriminate H].
  - assert (TF : tidy f) by (apply (T f s); left; reflexivity). assert (TL : forall f s, In (f, s) l -> tidy f) by (intros f' s' H; apply (T f' s'); right; exact H). split.
    + intros H. destruct (one_frame S star gauss od f s i given (Some r) (Some h)) as [[[r' h'] o]|] eqn:E; cbn [bind fst snd] in H; [|discriminate H]. apply frame_iff in E; [|exact TF]. destruct E as ((kl & ct & _ & _ & R0 & H0 & _) & CV). assert (r' = r) by (destruct R0 as [R0|(R0 & _)]; congruence). assert (h' = h) by (destruct H0 as [H0|(H0 & _)]; congruence). subst r' h'.
      destruct (frames_from S star gauss od (i + 1) given (Some r) (Some h) l) as [rest|] eqn:ER; cbn [bind] in H; [|discriminate H]. injection H as <-. apply (IH _ _ TL) in ER. destruct ER as (L & K). split; [cbn; congruence|]. intros [|k] f' s' out N1 N2; cbn [nth_error] in N1, N2.
      * injection N1 as <- <-. injection N2 as <-. rewrite Nat.add_0_r. exact CV.
      * replace (i + Datatypes.S k)%nat with (i + 1 + k)%nat by lia. exact (K k f' s' out N1 N2).
    + intros (L & K). destruct outs as [|o outs]; [discriminate L|]. cbn in L. injection L as L.
      assert (CV : curve_of S star gauss od i f s given r h o) by (pose proof (K 0%nat f s o eq_refl eq_refl) as Q; rewrite Nat.add_0_r in Q; exact Q).
      rewrite (proj2 (frame_iff f s i given (Some r) (Some h) r h o TF)). 2: { split; [|exact CV]. destruct CV as (plate & kl & ct & cx & cy & flux & _ & EK & EC & _). exists kl, ct. auto 9. }
      cbn [bind fst snd]. rewrite (proj2 (IH (i + 1)%nat outs TL)); [reflexivity|]. split; [exact L|]. intros k f' s' out N1 N2. replace (i + 1 + k)%nat with (i + Datatypes.S k)%nat by lia. exact (K (Datatypes.S k) f' s' out N1 N2).
Qed.
Lemma nth_combine : forall A B (l : list A) (m : list B) k a b, nth_error (combine l m) k = Some (a, b) <-> nth_error l k = Some a /\ nth_error m k = Some b.
Proof using.
  intros A B. induction l as [|x l IH]; intros [|y m] [|k] a b; cbn; try (split; [discriminate|intros (H & H'); try discriminate H; discriminate H']); [split; [intros H; injection H as -> ->; auto|intros (H & K); congruence]|apply IH].
Qed.
Theorem frn_iff : forall frames stars given req hw outs, frames <> [] -> (forall f, In f frames -> tidy f) ->
  (compute_flux_ratio_noise S star gauss od frames stars given req hw = Ok outs <-> curves_of S star gauss od frames stars given req hw outs).
Proof using.
  intros frames stars given req hw outs NE T. unfold compute_flux_ratio_noise, curves_of. destruct (Nat.eqb_spec (List.length frames) (List.length stars)) as [EL|EL]; cbn [negb]; [|split; [discriminate|intros (H & _); contradiction]].
  destruct frames as [|f frames]; [contradiction|]. destruct stars as [|s stars]; [discriminate EL|]. cbn in EL. injection EL as EL. cbn [combine frames_from].
  assert (TF : tidy f) by (apply T; left; reflexivity). assert (TL : forall f s, In (f, s) (combine frames stars) -> tidy f) by (intros f' s' H; apply T; right; exact (in_combine_l _ _ _ _ H)). assert (CL : List.length (combine frames stars) = List.length frames) by (rewrite combine_length, EL, Nat.min_id; reflexivity). split.
  - intros H. destruct (one_frame S star gauss od f s 0 given req hw) as [[[r h] o]|] eqn:E; cbn [bind fst snd] in H; [|discriminate H]. apply frame_iff in E; [|exact TF]. destruct E as (ST & CV). destruct (frames_from S star gauss od (0 + 1) given (Some r) (Some h) (combine frames stars)) as [rest|] eqn:ER; cbn [bind] in H; [|discriminate H]. injection H as <-.
    assert (PH : 0 < h) by (destruct ST as (kl & ct & _ & _ & _ & _ & PH); exact PH). apply (rest_iff given r h PH _ _ _ TL) in ER. destruct ER as (L & K). split; [cbn; congruence|]. split; [cbn; congruence|]. exists r, h. split; [intros f' Hf; injection Hf as <-; exact ST|]. intros [|i] f' s' out N1 N2 N3; cbn [nth_error] in *.
    + injection N1 as <-. injection N2 as <-. injection N3 as <-. exact CV.
    + apply (K i f' s' out); [apply nth_combine; auto|exact N3].
  - intros (_ & L & r & h & ST & K). destruct outs as [|o outs]; [discriminate L|]. cbn in L. injection L as L. specialize (ST f eq_refl). rewrite (proj2 (frame_iff f s 0%nat given req hw r h o TF)) by (split; [exact ST|apply K; reflexivity]). cbn [bind fst snd].
    assert (PH : 0 < h) by (destruct ST as (kl & ct & _ & _ & _ & _ & PH); exact PH). rewrite (proj2 (rest_iff given r h PH _ _ outs TL)); [reflexivity|]. split; [congruence|]. intros k f' s' out N1 N2. apply nth_combine in N1. apply (K (Datatypes.S k)); [exact (proj1 N1)|exact (proj2 N1)|exact N2].
Qed.
End Run.
