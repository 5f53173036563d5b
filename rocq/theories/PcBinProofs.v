From Coq Require Import List Arith Bool QArith ZArith String Reals Qreals Lqa Lra Lia.
From Verif Require Import Base DqModel DarkModel PcModel PcSpec PcMathProofs PcProofs.
From Verif Require DqProofs DriftProofs DarkProofs GeomProofs.
Import ListNotations.

Lemma corr_spec : forall niter t g cons kn vs, g <> 0%R -> (forall j k n, nth_error kn j = Some (k, n) -> (0 <= k <= n)%Z) ->
  (corr_photon_count niter t g cons kn = Ok vs <->
   List.length cons = List.length kn /\ (exists j, nth_error cons j = Some true) /\ List.length vs = List.length kn
   /\ forall j k n, nth_error kn j = Some (k, n) -> exists d v, estimate niter (t / g)%R k n d v /\ nth_error vs j = Some v /\ (nth_error cons j = Some true -> (0 <= d)%R)).
Proof.
  intros niter t g cons kn vs G B. unfold corr_photon_count. cbv zeta. split.
  - intros E. destruct (zipR _ cons _) as [sel|] eqn:Z0; [|discriminate E]. cbn [bind] in E. destruct (DarkProofs.zipR_ok _ _ _ _ _ _ _ Z0) as [LZ LS]. rewrite map_length in LZ.
    destruct (DriftProofs.zipR_total _ _ _ (fun (b : bool) (p : option (R * bool)) => (b, p)) cons (map (fit_pixel niter t g) kn) ltac:(rewrite map_length; exact LZ)) as (sel2 & E2 & _ & N2). rewrite Z0 in E2. injection E2 as <-.
    destruct (existsb fst sel) eqn:X1; [|discriminate E]. cbn [negb] in E. destruct (existsb (fun s : bool * option (R * bool) => fst s && negative (snd s)) sel) eqn:X2; [discriminate E|]. injection E as <-.
    split; [exact LZ|]. split; [|split; [rewrite !map_length; reflexivity|]].
    + apply existsb_exists in X1. destruct X1 as ([b p] & I & Hb). cbn in Hb. subst b. apply In_nth_error in I. destruct I as [j I]. exists j.
      assert (J : (j < List.length cons)%nat) by (rewrite <- LS; apply nth_error_Some; congruence). destruct (nth_error cons j) as [b|] eqn:Eb; [|apply nth_error_None in Eb; lia].
      destruct (nth_error (map (fit_pixel niter t g) kn) j) as [q|] eqn:Eq; [|apply nth_error_None in Eq; rewrite map_length in Eq; lia]. rewrite (N2 _ _ _ Eb Eq) in I. injection I as -> _. reflexivity.
    + intros j k n E. destruct (fit_estimate niter t g k n G (B _ _ _ E)) as (d & v & ES & NG & FL). exists d, v. split; [exact ES|].
      assert (EF : nth_error (map (fit_pixel niter t g) kn) j = Some (fit_pixel niter t g (k, n))) by (apply map_nth_error; exact E). split; [rewrite (map_nth_error filled _ _ EF); congruence|].
      intros C. destruct (Rlt_le_dec d 0) as [L|L]; [|exact L]. exfalso. apply NG in L. assert (IS := nth_error_In _ _ (N2 _ _ _ C EF)).
      assert (X : existsb (fun s : bool * option (R * bool) => fst s && negative (snd s)) sel = true) by (apply existsb_exists; exists (true, fit_pixel niter t g (k, n)); split; [exact IS|exact L]). congruence.
  - intros (LZ & (j0 & C0) & LV & H). destruct (DriftProofs.zipR_total _ _ _ (fun (b : bool) (p : option (R * bool)) => (b, p)) cons (map (fit_pixel niter t g) kn) ltac:(rewrite map_length; exact LZ)) as (sel & -> & LS & N2). cbn [bind].
    assert (X1 : existsb fst sel = true).
    { apply existsb_exists. destruct (nth_error (map (fit_pixel niter t g) kn) j0) as [q|] eqn:Eq; [|apply nth_error_None in Eq; rewrite map_length, <- LZ in Eq; apply nth_error_None in Eq; congruence].
      exists (true, q). split; [apply (nth_error_In _ j0); apply N2; assumption|reflexivity]. }
    rewrite X1. cbn [negb]. destruct (existsb (fun s : bool * option (R * bool) => fst s && negative (snd s)) sel) eqn:X2.
    + exfalso. apply existsb_exists in X2. destruct X2 as ([b p] & I & Hb). cbn [fst snd] in Hb. apply andb_prop in Hb. destruct Hb as [-> Hp]. apply In_nth_error in I. destruct I as [j I].
      assert (J : (j < List.length cons)%nat) by (rewrite <- LS; apply nth_error_Some; congruence). destruct (nth_error cons j) as [b|] eqn:Eb; [|apply nth_error_None in Eb; lia].
      destruct (nth_error kn j) as [[k n]|] eqn:Ek; [|apply nth_error_None in Ek; lia]. assert (EF := map_nth_error (fit_pixel niter t g) _ _ Ek). rewrite (N2 _ _ _ Eb EF) in I. injection I as -> <-.
      destruct (H _ _ _ Ek) as (d & v & ES & _ & D). destruct (fit_estimate niter t g k n G (B _ _ _ Ek)) as (d' & v' & ES' & NG & _). destruct (estimate_unique _ _ _ _ _ _ _ _ ES ES') as [-> _]. apply NG in Hp. assert (D0 := D Eb). lra.
    + f_equal. apply GeomProofs.list_ext. intros j. destruct (nth_error kn j) as [[k n]|] eqn:Ek.
      * assert (EF := map_nth_error (fit_pixel niter t g) _ _ Ek). rewrite (map_nth_error filled _ _ EF). destruct (H _ _ _ Ek) as (d & v & ES & -> & _). destruct (fit_estimate niter t g k n G (B _ _ _ Ek)) as (d' & v' & ES' & _ & ->).
        destruct (estimate_unique _ _ _ _ _ _ _ _ ES ES') as [_ ->]. reflexivity.
      * apply nth_error_None in Ek. transitivity (@None R); [|symmetry]; apply nth_error_None; rewrite ?map_length; lia.
Qed.
Lemma uncertainty_ok : forall g t n m up low, g <> 0%R -> (0 <= n)%Z -> uncertainty (t / g)%R n m up low (pc_error g t n m up low).
Proof.
  intros g t n m up low G N. unfold pc_error. destruct (Z.eqb_spec n 0) as [N0|N0]; [constructor; left; exact N0|].
  destruct (Req_EM_T (Dn m) 0) as [D|D].
  - replace (varL23 g m t (IZR n)) with (@None R); [constructor; right; left; rewrite weight_Dn, D; lra|]. unfold varL23. fold (Dn m). destruct (Req_EM_T (Dn m) 0) as [_|C]; [reflexivity|contradiction].
  - rewrite var_spec; [|exact G|apply IZR_lt; lia|exact D]. destruct (Rlt_dec _ 0) as [C|C].
    + constructor. right. right. exact C.
    + constructor; [exact N0|apply weight_nz; exact D|lra].
Qed.
Lemma uncertainty_unique : forall x n m up low a b, uncertainty x n m up low a -> uncertainty x n m up low b -> a = b.
Proof. intros x n m up low a b [[A|[A|A]]|A1 A2 A3] [B|B1 B2 B3]; try reflexivity; try contradiction; try lra. destruct B as [B|[B|B]]; [contradiction|contradiction|lra]. Qed.
Lemma sub_clip_ok : forall v b, less_dark v b (sub_clip v b).
Proof.
  intros v [y|]; [|left; split; reflexivity]. right. exists y. split; [reflexivity|]. cbn. destruct (Rlt_dec (v - y) 0) as [C|C]; f_equal; symmetry; [apply Rmax_left|apply Rmax_right]; lra.
Qed.
Lemma less_unique : forall v b m m', less_dark v b m -> less_dark v b m' -> m = m'.
Proof. intros v b m m' [[A B]|(y & A & B)] [[C D]|(z & C & D)]; congruence. Qed.
Lemma quad2_ok : forall u b, with_dark u b (quad2 u b).
Proof. intros [u|] [b|]; cbn; [right; exists u, b; auto|left; auto|left; auto|left; auto]. Qed.
Lemma with_unique : forall u b e e', with_dark u b e -> with_dark u b e' -> e = e'.
Proof. intros u b e e' [[A B]|(s & t & A & B & C)] [[D E]|(s' & t' & D & E & F)]; try congruence; [destruct A|destruct D]; congruence. Qed.

(** headers *)
Lemma settings_ok : forall f e c k r, settings_of f = Ok (e, c, k, r) <-> pf_exp f = Some e /\ pf_emc f = Some c /\ pf_kgp f = Some k /\ pf_rn f = Some r.
Proof.
  intros f e c k r. unfold settings_of. destruct (pf_exp f), (pf_emc f), (pf_kgp f), (pf_rn f); cbn; split; try discriminate; try (intros (A & B & C & D); discriminate).
  - intros E. injection E as -> -> -> ->. auto.
  - intros (A & B & C & D). congruence.
Qed.
Lemma settings_mapR : forall l e c k r, (exists ks, mapR settings_of l = Ok ks /\ forallb (seteq (e, c, k, r)) ks = true) <-> Forall (same_settings e c k r) l.
Proof.
  intros l e c k r. induction l as [|f l IH]; [split; [constructor|exists []; auto]|]. cbn [mapR]. split.
  - intros (ks & E & F). destruct (settings_of f) as [[[[e1 c1] k1] r1]|] eqn:S1; [|discriminate E]. cbn [bind] in E. destruct (mapR settings_of l) as [ks'|]; [|discriminate E]. injection E as <-. cbn [forallb] in F. apply andb_prop in F. destruct F as [F1 F2].
    constructor; [|apply IH; exists ks'; auto]. apply settings_ok in S1. destruct S1 as (A & B & C & D). unfold seteq in F1. cbn [fst snd] in F1. repeat (apply andb_prop in F1; destruct F1 as [F1 ?]).
    repeat match goal with H : Qeq_bool _ _ = true |- _ => apply Qeq_bool_iff in H end. split; [exists e1; split; [exact A|symmetry; assumption]|]. split; [exists c1; split; [exact B|symmetry; assumption]|]. split; [exists k1; split; [exact C|symmetry; assumption]|exists r1; split; [exact D|symmetry; assumption]].
  - intros F. inversion F as [|? ? ((e1 & A & A2) & (c1 & B & B2) & (k1 & C & C2) & (r1 & D & D2)) F2]; subst. destruct (proj2 IH F2) as (ks & E & FB). assert (S1 : settings_of f = Ok (e1, c1, k1, r1)) by (apply settings_ok; auto). rewrite S1, E. cbn [bind].
    exists ((e1, c1, k1, r1) :: ks). split; [reflexivity|]. cbn [forallb]. rewrite FB, andb_true_r. unfold seteq. cbn [fst snd]. rewrite !andb_true_iff, !Qeq_bool_iff. repeat split; symmetry; assumption.
Qed.
Lemma seteq_refl : forall a, seteq a a = true.
Proof. intros [[[a b] c] d]. unfold seteq. cbn [fst snd]. rewrite !andb_true_iff, !Qeq_bool_iff. repeat split; reflexivity. Qed.
Lemma same_settings_eq : forall e c k r e' c' k' r' f, (e == e')%Q -> (c == c')%Q -> (k == k')%Q -> (r == r')%Q -> same_settings e c k r f -> same_settings e' c' k' r' f.
Proof.
  intros e c k r e' c' k' r' f E1 E2 E3 E4 ((a & A & A2) & (b & B & B2) & (d & D & D2) & (g & G & G2)).
  split; [exists a; split; [exact A|rewrite A2; exact E1]|]. split; [exists b; split; [exact B|rewrite B2; exact E2]|]. split; [exists d; split; [exact D|rewrite D2; exact E3]|exists g; split; [exact G|rewrite G2; exact E4]].
Qed.
Lemma vis_mapR : forall (l : list pframe) v, (exists vs, mapR (fun f => getkey (pf_vis f)) l = Ok vs /\ forallb (String.eqb v) vs = true) <-> Forall (fun f => pf_vis f = Some v) l.
Proof.
  intros l v. induction l as [|f l IH]; [split; [constructor|exists []; auto]|]. cbn [mapR]. split.
  - intros (vs & E & F). destruct (pf_vis f) as [w|] eqn:W; [|discriminate E]. cbn [getkey bind] in E. destruct (mapR _ l) as [vs'|]; [|discriminate E]. injection E as <-. cbn [forallb] in F. apply andb_prop in F. destruct F as [F1 F2].
    constructor; [apply String.eqb_eq in F1; congruence|]. apply IH. exists vs'. auto.
  - intros F. inversion F as [|? ? W F2]; subst. destruct (proj2 IH F2) as (vs & E & FB). rewrite W, E. cbn. exists (v :: vs). split; [reflexivity|]. cbn. rewrite String.eqb_refl. exact FB.
Qed.
Lemma checked_spec : forall mode dark f0 fs v,
  checked mode (match dark with Some _ => true | None => false end) f0 fs = Ok v <->
  (exists e c k r, Forall (same_settings e c k r) (f0 :: fs)) /\ Forall (fun f => pf_vis f = Some v) (f0 :: fs) /\ accepts mode dark v /\ pf_ispc f0 <> Some false.
Proof.
  intros mode dark f0 fs v. unfold checked. split.
  - intros E. destruct (mapR settings_of (f0 :: fs)) as [ks|] eqn:M; [|discriminate E]. cbn [bind] in E.
    destruct (match ks with k :: r => forallb (seteq k) r | [] => true end) eqn:FB; [|discriminate E].
    destruct (mapR (fun f => getkey (pf_vis f)) (f0 :: fs)) as [vs|] eqn:V; [|discriminate E]. cbn [bind] in E. destruct vs as [|v0 vs]; [discriminate E|].
    destruct (forallb (String.eqb v0) vs) eqn:FV; [|discriminate E]. cbn [negb] in E.
    assert (AC : v0 = v /\ accepts mode dark v /\ pf_ispc f0 <> Some false).
    { destruct (String.eqb_spec v0 "DARK") as [D|D]; cbn [andb negb] in E.
      - destruct (String.eqb_spec mode "darks") as [MD|MD]; cbn [negb] in E; [|discriminate E]. destruct dark as [d|]; [discriminate E|]. destruct (pf_ispc f0) as [[|]|] eqn:I; try discriminate E; injection E as <-; (split; [reflexivity|]; split; [left; auto|congruence]).
      - destruct (String.eqb_spec mode "illuminated") as [MD|MD]; cbn [negb] in E; [|discriminate E]. destruct (pf_ispc f0) as [[|]|] eqn:I; try discriminate E; injection E as <-; (split; [reflexivity|]; split; [right; auto|congruence]). }
    destruct AC as (<- & AC & I). split; [|split; [|split; [exact AC|exact I]]].
    + destruct ks as [|[[[e c] k] r] ks]; [cbn in M; destruct (settings_of f0); cbn in M; [destruct (mapR settings_of fs)|]; discriminate M|]. exists e, c, k, r. apply settings_mapR. exists ((e, c, k, r) :: ks). split; [exact M|]. cbn [forallb]. rewrite seteq_refl. exact FB.
    + apply vis_mapR. exists (v0 :: vs). split; [exact V|]. cbn [forallb]. rewrite String.eqb_refl. exact FV.
  - intros ((e & c & k & r & FS) & FV & AC & I). 
    assert (F0 := Forall_inv FS). destruct F0 as ((e1 & A & A2) & (c1 & B & B2) & (k1 & C & C2) & (r1 & D & D2)).
    assert (FS2 : Forall (same_settings e1 c1 k1 r1) (f0 :: fs)) by (eapply Forall_impl; [|exact FS]; intros f; apply same_settings_eq; symmetry; assumption).
    apply settings_mapR in FS2. destruct FS2 as (ks & M & FB). rewrite M. cbn [bind]. assert (S1 : settings_of f0 = Ok (e1, c1, k1, r1)) by (apply settings_ok; auto).
    cbn [mapR] in M. rewrite S1 in M. cbn [bind] in M. destruct (mapR settings_of fs) as [ks'|]; [|discriminate M]. injection M as <-. cbn [forallb] in FB. rewrite seteq_refl in FB. cbn [andb] in FB. rewrite FB.
    apply vis_mapR in FV. destruct FV as (vs & V & FV). rewrite V. cbn [bind]. destruct vs as [|v0 vs]; [exfalso; cbn in V; destruct (pf_vis f0); cbn in V; [destruct (mapR _ fs)|]; discriminate V|]. cbn [forallb] in FV. apply andb_prop in FV. destruct FV as [V0 FV]. apply String.eqb_eq in V0. subst v0. rewrite FV. cbn [negb].
    destruct AC as [(-> & -> & ->)|(ND & ->)].
    + cbn [String.eqb Ascii.eqb Bool.eqb andb negb]. destruct (pf_ispc f0) as [[|]|]; [reflexivity|congruence|reflexivity].
    + destruct (String.eqb_spec v "DARK") as [D0|_]; [contradiction|]. cbn [andb negb]. rewrite String.eqb_refl. cbn [negb]. destruct (pf_ispc f0) as [[|]|]; [reflexivity|congruence|reflexivity].
Qed.
Lemma gain_spec : forall f g, em_gain f = Ok g <-> gain_is f g.
Proof.
  intros f g. unfold em_gain. split.
  - destruct (pf_emm f) as [m|] eqn:M; [intros E; injection E as <-; apply g_meas; exact M|]. destruct (pf_ema f) as [a|] eqn:A; [|discriminate]. cbn [getkey bind]. destruct (qgt a 0) eqn:G.
    + intros E. injection E as <-. apply g_appl; [exact M|exact A|apply qgt_spec; exact G].
    + destruct (pf_emc f) as [c|] eqn:C; [|discriminate]. intros E. injection E as <-. apply (g_cmd _ a); try assumption. apply Qnot_lt_le. intros L. apply qgt_spec in L. congruence.
  - intros [g' M|g' M A L|a g' M A L C]; rewrite M; [reflexivity| |]; rewrite A; cbn [getkey bind].
    + apply qgt_spec in L. rewrite L. reflexivity.
    + destruct (qgt a 0) eqn:G; [apply qgt_spec in G; Lqa.lra|]. rewrite C. reflexivity.
Qed.
Lemma gain_unique : forall f a b, gain_is f a -> gain_is f b -> a = b.
Proof. intros f a b A B. apply gain_spec in A. apply gain_spec in B. congruence. Qed.
Lemma zip_pool : forall (m : list bool) (d : list px) s, zipR (fun (b : bool) (x : px) => if b then x else None) m d = Ok s ->
  flat_map (fun x : px => match x with Some v => [v] | None => [] end) s = flat_map (fun p : bool * px => match p with (true, Some v) => [v] | _ => [] end) (combine m d).
Proof.
  induction m as [|b m IH]; intros [|x d] s E; try discriminate E; [injection E as <-; reflexivity|]. cbn in E. destruct (zipR _ m d) as [r|] eqn:Z0; [|discriminate E]. injection E as <-. cbn. rewrite (IH _ _ Z0). destruct b, x; reflexivity.
Qed.
Lemma map_true_len : forall (l l' : list px), List.length l = List.length l' -> map (fun _ => true) l = map (fun _ => true) l'.
Proof. induction l as [|a l IH]; intros [|b l'] E; try discriminate E; [reflexivity|]. cbn. f_equal. apply IH. cbn in E. lia. Qed.
Definition cons_of (mask : option (list bool)) (f0 : pframe) : list bool := match mask with None => map (fun _ => true) (pf_data f0) | Some m => m end.
Lemma collect_spec : forall mask f0 l vals, (collect (cons_of mask f0) (map pf_data l) = Ok vals <->
  Forall (fun f => List.length (pf_data f) = List.length (cons_of mask f0)) l /\ vals = pool mask l).
Proof.
  intros mask f0 l. induction l as [|f l IH]; intros vals; cbn [map collect]; [split; [intros E; injection E as <-; split; [constructor|reflexivity]|intros (_ & ->); reflexivity]|].
  assert (K : forall s, zipR (fun (b : bool) (x : px) => if b then x else None) (cons_of mask f0) (pf_data f) = Ok s ->
     flat_map (fun x : px => match x with Some v => [v] | None => [] end) s = pool mask [f]).
  { intros s Z0. assert (ZL := DarkProofs.zipR_ok _ _ _ _ _ _ _ Z0). rewrite (zip_pool _ _ _ Z0). unfold pool. cbn [flat_map]. rewrite app_nil_r. f_equal. f_equal. unfold cons_of in *. destruct mask as [m|]; [reflexivity|]. rewrite map_length in ZL. apply map_true_len. apply ZL. }
  assert (PC : forall b, pool mask (f :: l) = b ++ pool mask l <-> pool mask [f] = b). { intros b. unfold pool. cbn [flat_map]. rewrite app_nil_r. split; [apply app_inv_tail|intros ->; reflexivity]. }
  split.
  - intros E. destruct (zipR _ (cons_of mask f0) (pf_data f)) as [s|] eqn:Z0; [|discriminate E]. cbn [bind] in E. destruct (collect _ (map pf_data l)) as [t|] eqn:C; [|discriminate E]. injection E as <-. destruct (proj1 (IH t) eq_refl) as [F ->].
    split; [constructor; [symmetry; apply (DarkProofs.zipR_ok _ _ _ _ _ _ _ Z0)|exact F]|]. symmetry. apply PC. symmetry. apply K. exact eq_refl.
  - intros (F & ->). inversion F as [|? ? L F2]; subst. destruct (DriftProofs.zipR_total _ _ _ (fun (b : bool) (x : px) => if b then x else None) (cons_of mask f0) (pf_data f) (eq_sym L)) as (s & Z0 & _). rewrite Z0. cbn [bind].
    rewrite (proj2 (IH _) (conj F2 eq_refl)). cbn [bind]. f_equal. symmetry. apply PC. symmetry. apply K. exact Z0.
Qed.
Lemma bright_spec : forall vals g mx, too_bright vals g mx = false <-> (vals <> [] -> (average vals / g <= mx)%Q).
Proof.
  intros [|v l] g mx; cbn [too_bright]; [split; [intros _ H; contradiction|reflexivity]|]. fold (average (v :: l)). unfold average. destruct (qgt _ mx) eqn:E.
  - split; [discriminate|]. intros H. apply qgt_spec in E. exfalso. apply (Qlt_not_le _ _ E). apply H. discriminate.
  - split; [|reflexivity]. intros _ _. apply Qnot_lt_le. intros L. apply qgt_spec in L. congruence.
Qed.
