(** Proofs: a worked case, and claims that do not hold. *)
From Coq Require Import List Arith Bool Reals String Ascii Sorting Permutation Lia Lra.
From Verif Require Import Base ComboSpec ComboProofs CosmicModel DqModel DqProofs DarkModel DarkProofs UnitsModel UnitsSpec UnitsProofs FluxModel FluxSpec FluxProofs FluxBandProofs FluxTopProofs FluxRunProofs FluxLawProofs.
Import ListNotations.
Local Open Scope R_scope.

(** ** Spectra sampled on the grid itself *)
Lemma inc_bounds : forall (l : list (R * R)) (p q : R * R), inc (p :: l) -> In q (p :: l) -> fst p <= fst q <= last (map fst l) (fst p).
Proof.
  induction l as [|r l IH]; intros p q I J.
  - destruct J as [<- | []]. cbn. lra.
  - assert (PR : fst p < fst r) by (apply (inc_lt p r _ I); left; reflexivity). cbn [map]. rewrite last_cons. pose proof (inc_tail p _ I) as I'. destruct J as [<- | J].
    + split; [lra|]. pose proof (IH r r I' (or_introl eq_refl)). lra.
    + pose proof (IH r q I' J). lra.
Qed.
Lemma sample_self : forall spec : list (R * R), increasing (map fst spec) -> spec <> [] -> sampled spec (map fst spec) (map snd spec).
Proof.
  intros spec I N. destruct spec as [|p l]; [congruence|]. exists (fst p), (map fst l), (p :: l). split; [reflexivity|]. split.
  - assert (F : Forall (fun q => fst p <= fst q <= last (map fst (p :: l)) (fst p)) (p :: l)) by (apply Forall_forall; intros q J; cbn [map]; rewrite last_cons; apply inc_bounds; assumption).
    revert F. generalize (last (map fst (p :: l)) (fst p)) as hi. intros hi. generalize (p :: l) as m. induction 1; constructor; assumption.
  - split; [discriminate|]. assert (K : forall m, (forall q, In q m -> In q (p :: l)) -> Forall2 (interpolated (p :: l)) (map fst m) (map snd m)); [|exact (K (p :: l) (fun q H => H))].
    induction m as [|q m IH]; intros S; [constructor|]. cbn [map]. constructor; [|apply IH; intros z Z; apply S; right; exact Z]. specialize (S q (or_introl eq_refl)). apply in_split in S. destruct S as (u & v & E). destruct v as [|z v].
    + right. left. exists q, u. rewrite E. repeat split; lra.
    + right. right. exists u, q, z, v. rewrite E in I |- *. split; [reflexivity|]. split; [|ring]. pose proof (inc_app_r u _ I) as J. pose proof (inc_lt q z _ J (or_introl eq_refl)). lra.
Qed.
Lemma area3 : forall a b c, area [1; 2; 3] [a; b; c] ((a + 4 * b + c) / 3).
Proof.
  intros a b c. unfold area. cbn [combine]. apply au_odd. set (A := (a - 2 * b + c) / 2). set (B := (- 5 * a + 8 * b - 3 * c) / 2). set (C := 3 * a - 3 * b + c).
  replace ((a + 4 * b + c) / 3) with (primitive A B C (fst (3, c)) - primitive A B C (fst (1, a)) + 0) by (unfold primitive, A, B, C; cbn [fst]; field).
  apply arcs_more; [unfold on_parabola, value, A, B, C; cbn [fst snd]; field..|apply arcs_one].
Qed.
Lemma inc3 : increasing [1; 2; 3].
Proof. repeat constructor; lra. Qed.

(** ** A worked case *)
Definition demo_open (p : string) : result (list (R * R)) :=
  if String.eqb p "alpha_lyr_stis_011.fits" then Ok [(1, 1); (2, 1); (3, 1)] else if String.eqb p "109vir_stis_005.fits" then Ok [(1, 1); (2, 1); (3, 2)] else Raise PyException.
Definition demo : env := mkenv (map snd colour_filters ++ other_files) (fun _ => [(1 / 10, 100); (2 / 10, 100); (3 / 10, 100)]) (fun f => Some f) demo_open.
Definition counts (_ : bool) (_ : unit) : result (R * R * R) := Ok (10, 1, 2).
Definition star : hframe unit := mkh unit tt (Some "109 Vir"%string) (Some "1F"%string) None (Some "OPEN"%string) (Some "ND475"%string).
Lemma demo_sorted : sorted_files demo.
Proof.
  split; [|intros f; cbn; repeat constructor; lra]. intros p s H. cbn [e_open demo] in H. unfold demo_open in H. destruct (String.eqb p "alpha_lyr_stis_011.fits"); [injection H as <-; exact inc3|]. destruct (String.eqb p "109vir_stis_005.fits"); [injection H as <-; exact inc3|discriminate].
Qed.
Lemma demo_band : forall f, band demo f [1; 2; 3] [1; 1; 1].
Proof. intros f. split; [reflexivity|]. cbn. repeat f_equal; ring. Qed.
Lemma demo_curve : curve_of demo "1F" "transmission_ID-01_1F_v0.csv".
Proof. apply (proj2 (filter_shipped demo "1F" "transmission_ID-01_1F_v0.csv" "transmission_ID-01_1F_v0.csv" (Permutation_refl _) (or_introl eq_refl))). reflexivity. Qed.
Lemma demo_vega : standard demo "Vega" "alpha_lyr_stis_011.fits" /\ spectrum_on demo "alpha_lyr_stis_011.fits" [1; 2; 3] [1; 1; 1].
Proof. split; [eexists; split; [right; left; reflexivity|reflexivity]|]. exists [(1, 1); (2, 1); (3, 1)]. split; [reflexivity|]. exact (sample_self [(1, 1); (2, 1); (3, 1)] inc3 ltac:(discriminate)). Qed.
Lemma demo_star : standard demo "109 Vir" "109vir_stis_005.fits" /\ spectrum_on demo "109vir_stis_005.fits" [1; 2; 3] [1; 1; 2].
Proof. split; [eexists; split; [left; reflexivity|reflexivity]|]. exists [(1, 1); (2, 1); (3, 2)]. split; [reflexivity|]. exact (sample_self [(1, 1); (2, 1); (3, 2)] inc3 ltac:(discriminate)). Qed.
Lemma average3 : forall a b c, average_flux [1; 1; 1] [a; b; c] [1; 2; 3] (Some ((a + 8 * b + 3 * c) / 12)).
Proof.
  intros a b c. pose proof (area3 (a * 1 * 1) (b * 1 * 2) (c * 1 * 3)) as N. pose proof (area3 (1 * 1) (1 * 2) (1 * 3)) as D. do 2 eexists. split; [exact N|]. split; [exact D|]. split; [lra|]. intros _. f_equal. field.
Qed.
Lemma demo_flux : star_flux unit demo star "flux" (Some (5 / 4)).
Proof.
  exists "109 Vir"%string, "1F"%string, "transmission_ID-01_1F_v0.csv"%string, [1; 2; 3], [1; 1; 1], "109vir_stis_005.fits"%string, [1; 1; 2]. repeat split; try reflexivity; try exact demo_curve; try apply demo_star; try apply demo_band.
  left. split; [reflexivity|]. replace (5 / 4) with ((1 + 8 * 1 + 3 * 2) / 12) by field. apply average3.
Qed.
Lemma demo_irr : star_flux unit demo star "irr" (Some (7 / 3)).
Proof.
  exists "109 Vir"%string, "1F"%string, "transmission_ID-01_1F_v0.csv"%string, [1; 2; 3], [1; 1; 1], "109vir_stis_005.fits"%string, [1; 1; 2]. repeat split; try reflexivity; try exact demo_curve; try apply demo_star; try apply demo_band.
  right. split; [reflexivity|]. exists (7 / 3). split; [|reflexivity]. replace (7 / 3) with ((1 * 1 + 4 * (1 * 1) + 2 * 1) / 3) by field. exact (area3 (1 * 1) (1 * 1) (2 * 1)).
Qed.
Definition star_factor (x : R) : factor := mkfactor (Some (x / 10)) (Some (x / 10 * (1 / 10))) "ND0" "1F".
Lemma star_neutral : neutral unit star "ND0".
Proof. exists "OPEN"%string. split; [left; reflexivity|]. right. split; [|reflexivity]. intros (t & E). discriminate. Qed.
Lemma demo_calibrate : forall gauss mode x, star_flux unit demo star mode (Some x) -> exists u, unit_of mode u /\ calibrate unit counts gauss demo [star] mode = (marked u, Ok (star_factor x)).
Proof.
  intros gauss mode x SF. assert (exists u, unit_of mode u) as (u & U). { destruct SF as (? & ? & ? & ? & ? & ? & ? & _ & _ & _ & _ & _ & _ & [(-> & _) | (-> & _)]); eexists; [left|right]; split; reflexivity. }
  exists u. split; [exact U|]. apply calibrate_iff; [exact demo_sorted|]. split; [|exists u; auto]. exists star, [], (Some x), 10, 1, 2. split; [reflexivity|]. split; [exact SF|]. split; [reflexivity|]. split; [exact star_neutral|]. split; [reflexivity|]. split; [intros [H | H]; [discriminate|lra]|].
  intros y H _. injection H as <-. split; reflexivity.
Qed.
Lemma demo_determine : forall x back, exists s m, determine_flux unit counts demo [star] (star_factor x) "aperture" back = Ok (mkcards (Some (x / 10)) (if back then 2 else 0) (Some x) (Some s) m (if Req_EM_T x 0 then None else Some (5 / 2 / ln 10 * s / x)))
  /\ 0 <= s /\ s ^ 2 = 2 * (x / 10) ^ 2 /\ is_magnitude (Some x) m.
Proof.
  intros x back. set (s := sqrt (2 * (x / 10) ^ 2)). set (m := magnitude (Some x)). assert (S0 : 0 <= s) by apply sqrt_pos. assert (SQ : s ^ 2 = 2 * (x / 10) ^ 2). { unfold s. rewrite <- Rsqr_pow2, Rsqr_sqrt; [reflexivity|]. pose proof (pow2_ge_0 (x / 10)). lra. }
  assert (IM : is_magnitude (Some x) m) by (apply magnitude_iff; reflexivity). exists s, m. split; [|split; [exact S0|split; [exact SQ|exact IM]]].
  apply (determine_flux_iff unit counts demo [star] (star_factor x) "aperture" back _ (x / 10) (x / 10 * (1 / 10)) demo_sorted eq_refl eq_refl).
  exists star, [], false, [(10, 1, 2)], 10, 1, 2, "1F"%string, "transmission_ID-01_1F_v0.csv"%string, [1; 2; 3], [1; 1; 1], "alpha_lyr_stis_011.fits"%string, [1; 1; 1], (Some 1), "109 Vir"%string.
  split; [reflexivity|]. split; [left; auto|]. split; [constructor; [reflexivity|constructor]|]. do 3 (split; [unfold is_mean_of; cbn; lra|]). split; [reflexivity|]. split; [exact demo_curve|]. split; [apply demo_band|]. split; [apply demo_vega|]. split; [apply demo_vega|].
  split; [replace (Some 1) with (Some ((1 + 8 * 1 + 3 * 1) / 12)) by (f_equal; field); apply average3|]. split; [reflexivity|]. split; [reflexivity|]. split; [reflexivity|]. cbn [k_fac k_err star_factor h_colcor star c_flux c_fluxerr c_mag c_magerr]. cbn zeta. destruct (Req_EM_T 1 0); [lra|].
  replace (10 * (x / 10) / 1) with x by field. exists s. split; [reflexivity|]. split; [reflexivity|]. split; [exact S0|]. split; [rewrite SQ; field|]. split; [replace (x / 1) with x by field; exact IM|reflexivity].
Qed.
Lemma demo_mag : exists m, app_mag unit demo [star] "109 Vir" 1 = Ok m /\ is_magnitude (Some (7 / 6)) m.
Proof.
  assert (IM : is_magnitude (Some (7 / 6)) (magnitude (Some (7 / 6)))) by (apply magnitude_iff; reflexivity). exists (magnitude (Some (7 / 6))). split; [|exact IM]. apply app_mag_iff; [exact demo_sorted|]. split; [discriminate|]. exists "transmission_ID-01_1F_v0.csv"%string. split.
  - exists "109 Vir"%string. constructor; [|constructor]. split; [reflexivity|]. exists "1F"%string. split; [reflexivity|exact demo_curve].
  - exists [1; 2; 3], [1; 1; 1], "109vir_stis_005.fits"%string, "alpha_lyr_stis_011.fits"%string, [1; 1; 2], [1; 1; 1], ((1 * 1 * 1 + 4 * (1 * 1 * 1) + 2 * 1 * 1) / 3), ((1 * 1 + 4 * (1 * 1) + 1 * 1) / 3).
    split; [apply demo_band|]. split; [right; split; [|apply demo_star]|].
    { intros F. apply is_path_iff in F. discriminate. }
    split; [apply demo_vega|]. split; [apply demo_vega|]. split; [apply demo_star|]. split; [exact (area3 (1 * 1 * 1) (1 * 1 * 1) (2 * 1 * 1))|]. split; [exact (area3 (1 * 1) (1 * 1) (1 * 1))|].
    destruct (Req_EM_T _ 0); [lra|]. replace ((1 * 1 * 1 + 4 * (1 * 1 * 1) + 2 * 1 * 1) / 3 / ((1 * 1 + 4 * (1 * 1) + 1 * 1) / 3)) with (7 / 6) by field. exact IM.
Qed.
Lemma magnitude_injective : forall x y m, 0 < x -> 0 < y -> is_magnitude (Some x) m -> is_magnitude (Some y) m -> x = y.
Proof. intros x y m X Y (_ & A) (_ & B). destruct (A X) as (a & -> & EA). destruct (B Y) as (b & EB & EY). injection EB as <-. congruence. Qed.
(** The two magnitudes of a star calibrated with itself. *)
Lemma two_magnitudes : exists (phot : bool -> unit -> result (R * R * R)) E (f : hframe unit) cards k d m, sorted_files E /\ calibrate unit phot false E [f] "flux" = (cards, Ok k) /\ determine_flux unit phot E [f] k "aperture" false = Ok d
  /\ (exists s, h_target _ f = Some s /\ app_mag unit E [f] s 1 = Ok m) /\ c_mag d <> None /\ m <> None /\ c_mag d <> m.
Proof.
  destruct (demo_calibrate false "flux" (5 / 4) demo_flux) as (u & _ & CA). destruct (demo_determine (5 / 4) false) as (s & m & DF & _ & _ & IM). destruct demo_mag as (m' & AM & IM').
  exists counts, demo, star, (marked u), (star_factor (5 / 4)). eexists. exists m'. split; [exact demo_sorted|]. split; [exact CA|]. split; [exact DF|]. split; [exists "109 Vir"%string; auto|]. cbn [c_mag].
  split; [destruct IM as (_ & IM); destruct (IM ltac:(lra)) as (y & -> & _); discriminate|]. split; [destruct IM' as (_ & IM'); destruct (IM' ltac:(lra)) as (y & -> & _); discriminate|]. intros EQ. rewrite EQ in IM. pose proof (magnitude_injective (5 / 4) (7 / 6) m' ltac:(lra) ltac:(lra) IM IM'). lra.
Qed.
(** A factor made from irradiances is used as if it were one of flux densities. *)
Lemma irr_used : exists (phot : bool -> unit -> result (R * R * R)) E (f : hframe unit) cards k d x, sorted_files E /\ calibrate unit phot false E [f] "irr" = (cards, Ok k) /\ determine_flux unit phot E [f] k "aperture" false = Ok d
  /\ star_flux unit E f "flux" (Some x) /\ c_flux d <> Some x.
Proof.
  destruct (demo_calibrate false "irr" (7 / 3) demo_irr) as (u & _ & CA). destruct (demo_determine (7 / 3) false) as (s & m & DF & _).
  exists counts, demo, star, (marked u), (star_factor (7 / 3)). eexists. exists (5 / 4). split; [exact demo_sorted|]. split; [exact CA|]. split; [exact DF|]. split; [exact demo_flux|]. cbn [c_flux]. intros H. injection H as H. lra.
Qed.
Lemma edges : exists spec grid out, increasing (map fst spec) /\ Forall (fun p => snd p = fst p) spec /\ Forall (fun x => (exists p, In p spec /\ fst p <= x) /\ exists p, In p spec /\ x <= fst p) grid /\ sampled spec grid out /\ out <> grid.
Proof.
  exists [(0, 0); (2, 2); (4, 4)], [1; 2; 3], [2; 2; 2]. split; [repeat constructor; cbn; lra|]. split; [repeat constructor|]. split.
  { repeat constructor; first [exists (0, 0); split; [left; reflexivity|cbn; lra] | exists (4, 4); split; [right; right; left; reflexivity|cbn; lra]]. }
  split; [|intros H; injection H; intros; lra]. exists 1, [2; 3], [(2, 2)]. split; [reflexivity|]. split.
  { cbn [last]. apply sieve_out; [cbn; lra|]. apply sieve_in; [cbn; lra|]. apply sieve_out; [cbn; lra|]. apply sieve_nil. }
  split; [discriminate|]. constructor; [left; exists (2, 2), []; repeat split; cbn; lra|]. constructor; [left; exists (2, 2), []; repeat split; cbn; lra|]. constructor; [|constructor]. right. left. exists (2, 2), []. repeat split; cbn; lra.
Qed.
Lemma negative_area : exists x y v, increasing x /\ List.length y = List.length x /\ Forall (fun u => 0 <= u) y /\ area x y v /\ v < 0.
Proof.
  exists [0; 1; 4], [1; 0; 0], (- (2 / 3)). split; [repeat constructor; lra|]. split; [reflexivity|]. split; [repeat constructor; lra|]. split; [|lra]. unfold area. cbn [combine]. apply au_odd.
  replace (- (2 / 3)) with (primitive (1 / 4) (- (5 / 4)) 1 (fst (4, 0)) - primitive (1 / 4) (- (5 / 4)) 1 (fst (0, 1)) + 0) by (unfold primitive; cbn [fst]; field). apply arcs_more; [unfold on_parabola, value; cbn [fst snd]; field..|apply arcs_one].
Qed.
Lemma colour_off : exists t w r s lam k S a, increasing w /\ colour t w r s lam (Some k) /\ average_flux t s w (Some S) /\ interpolated (combine w s) lam a /\ k <> 0 /\ S / k <> a.
Proof.
  assert (IA : interpolated (combine [1; 2; 3] [1; 1; 1]) 2 1) by (right; right; exists [], (1, 1), (2, 1), [(3, 1)]; split; [reflexivity|]; cbn; split; lra).
  assert (IB : interpolated (combine [1; 2; 3] [1; 1; 2]) 2 1) by (right; right; exists [], (1, 1), (2, 1), [(3, 2)]; split; [reflexivity|]; cbn; split; lra).
  exists [1; 1; 1], [1; 2; 3], [1; 1; 2], [1; 1; 1], 2, (4 / 5), 1, 1. split; [exact inc3|]. split; [|split; [|split; [exact IA|split; lra]]].
  - exists 1, 1. split; [exact IA|]. split; [exact IB|]. split; [lra|]. intros _ _. do 2 eexists. split; [exact (area3 (1 * 1 * 1) (2 * 1 * 1) (3 * 1 * 1))|]. split; [exact (area3 (1 * 1 * 1) (2 * 1 * 1) (3 * 1 * 2))|]. split; [lra|]. intros _. f_equal. field.
  - replace (Some 1) with (Some ((1 + 8 * 1 + 3 * 1) / 12)) by (f_equal; field). apply average3.
Qed.
(** Two frames with different colour corrections. *)
Definition pix1 (x e : R) : uframe := mku [Some x] [[Some e]] (mkcrh None None None None) None.
Lemma first_colour : exists fs out c2 f2 o2, convert_to_flux false (Some 1) (Some 0) fs = Ok out /\ nth_error fs 1 = Some (Some c2, f2) /\ nth_error out 1 = Some (Some c2, o2) /\ c2 <> 0 /\ ~ fluxed false 1 (1 / c2) (0 / c2) f2 o2.
Proof.
  set (fs := [(Some 1, pix1 1 1); (Some 2, pix1 1 1)]). assert (W : Forall (fun p => well_formed 1 (snd p)) fs) by (repeat constructor; discriminate).
  destruct (convert_ok false 1 1 0 fs 1) as (out & CO & F2); [exists (Some 1), (pix1 1 1), [(Some 2, pix1 1 1)]; split; [reflexivity|left; reflexivity]|lra|exact W|].
  inversion F2 as [|? o1 ? t1 _ F2']; subst. inversion F2' as [|? o2 ? t2 (E2 & FL) _]; subst. exists fs, (o1 :: o2 :: t2), 2, (pix1 1 1), (snd o2). split; [exact CO|]. split; [reflexivity|]. split; [destruct o2 as [c o]; cbn in E2 |- *; rewrite E2; reflexivity|]. split; [lra|].
  intros FX. assert (P : pixel (pix1 1 1) 0 1 1) by (split; [reflexivity|exists [Some 1], []; split; reflexivity]). cbn [snd] in FL. destruct FL as (_ & _ & _ & A & _). destruct (A 0%nat 1 1 P) as (e1 & (D1 & _) & _). destruct FX as (_ & _ & _ & B & _). destruct (B 0%nat 1 1 P) as (e2 & (D2 & _) & _). rewrite D1 in D2. injection D2 as D2. lra.
Qed.
Lemma nd_ignored : exists f : hframe unit, h_fsam _ f = Some "ND475"%string /\ neutral unit f "ND0".
Proof. exists star. split; [reflexivity|exact star_neutral]. Qed.
Lemma ambiguous : exists E E' a b, Permutation (e_dir E) (map snd colour_filters ++ other_files) /\ Permutation (e_dir E') (e_dir E) /\ curve_of E "F" a /\ curve_of E' "F" b /\ a <> b.
Proof.
  exists demo, (mkenv (rev (e_dir demo)) (e_curve demo) (e_fetch demo) (e_open demo)), "transmission_ID-01_1F_v0.csv"%string, "transmission_ID-04_4F_v0.csv"%string. split; [apply Permutation_refl|]. split; [symmetry; apply Permutation_rev|].
  assert (A : filter_file demo (Some "F"%string) = Ok "transmission_ID-01_1F_v0.csv"%string) by (vm_compute; reflexivity).
  assert (B : filter_file (mkenv (rev (e_dir demo)) (e_curve demo) (e_fetch demo) (e_open demo)) (Some "F"%string) = Ok "transmission_ID-04_4F_v0.csv"%string) by reflexivity.
  apply file_iff in A. destruct A as (n & EA & A). injection EA as <-. apply file_iff in B. destruct B as (n & EB & B). injection EB as <-. split; [exact A|]. split; [exact B|discriminate].
Qed.
