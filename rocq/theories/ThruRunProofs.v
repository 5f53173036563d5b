(** Proofs for the throughput of the PSF subtraction: one KL mode and the whole table. *)
From Coq Require Import List Arith Bool Reals ZArith String Sorted Permutation Lia Lra.
From Verif Require Import Base DqModel AngleModel NearModel NearProofs CombineModel CombineSpec CombineProofs ComboSpec ComboProofs FindModel FlatModel FlatSpec FlatProofs CtDataProofs FluxRunProofs ThruModel ThruSpec ThruProofs ThruInjectProofs ThruTableProofs.
Import ListNotations.
Local Open Scope R_scope.

(** ** The settings *)
Lemma below_ceil : forall q i, (i < Z.to_nat (ceil q))%nat <-> INR i < q.
Proof.
  intros q i. pose proof (proj2 (ceil_up q (ceil q)) eq_refl) as (A & B). split; intro H.
  - assert (Z.of_nat i + 1 <= ceil q)%Z by lia. apply IZR_le in H0. rewrite plus_IZR, <- INR_IZR_INZ in H0. lra.
  - assert (IZR (Z.of_nat i) < IZR (ceil q)) by (rewrite <- INR_IZR_INZ; lra). apply lt_IZR in H0. lia.
Qed.
Lemma quot_lt : forall a b d x, d <> 0 -> (x < (b - a) / d <-> 0 < d /\ a + x * d < b \/ d < 0 /\ b < a + x * d).
Proof.
  intros a b d x D. assert (E : (b - a) / d * d = b - a) by (field; exact D). set (q := (b - a) / d) in *. destruct (Rlt_dec 0 d) as [P|P].
  - split; [intro H; left; split; [exact P|]; nra|]. intros [(_ & H)|(N & _)]; [|lra]. nra.
  - assert (N : d < 0) by lra. split; [intro H; right; split; [exact N|]; nra|]. intros [(? & _)|(_ & H)]; [lra|]. nra.
Qed.
Lemma list_nth : forall A (l m : list A), (forall i x, nth_error l i = Some x <-> nth_error m i = Some x) -> l = m.
Proof.
  intros A l m H. apply nth_ext_err. intro i. destruct (nth_error l i) as [x|] eqn:E; [symmetry; apply H, E|]. destruct (nth_error m i) as [x|] eqn:E'; [|reflexivity]. apply H in E'. congruence.
Qed.
Lemma nth_seq_map : forall A (g : nat -> A) n i x, nth_error (map g (seq 0 n)) i = Some x <-> (i < n)%nat /\ x = g i.
Proof.
  intros A g n i x. rewrite nth_error_map. destruct (Nat.lt_ge_cases i n) as [L|L].
  - rewrite (nth_error_nth' (seq 0 n) 0%nat) by (rewrite seq_length; exact L). rewrite seq_nth by exact L. cbn [option_map Nat.add]. split; [intro E; injection E as <-; split; [exact L|reflexivity]|intros (_ & ->); reflexivity].
  - rewrite (proj2 (nth_error_None (seq 0 n) i)) by (rewrite seq_length; exact L). split; [discriminate|lia].
Qed.
Lemma arange_iff : forall a b d l, arange a b d = Ok l <-> spaced a b d l.
Proof.
  intros a b d l. unfold arange, spaced. destruct (Req_EM_T d 0) as [E|E]; [split; [discriminate|intros (N & _); congruence]|].
  assert (V : forall i x, nth_error (map (fun i => a + INR i * d) (seq 0 (Z.to_nat (ceil ((b - a) / d))))) i = Some x <-> x = a + INR i * d /\ (0 < d /\ x < b \/ d < 0 /\ b < x)).
  { intros i x. rewrite nth_seq_map, below_ceil, (quot_lt a b d _ E). split; [intros (H & ->); split; [reflexivity|exact H]|intros (-> & H); split; [exact H|reflexivity]]. }
  split; [intro H; injection H as <-; split; [exact E|exact V]|]. intros (_ & H). f_equal. apply list_nth. intros i x. rewrite H, V. reflexivity.
Qed.
Lemma seps_iff : forall h scale res given seps, match given with Some s => Ok s | None => auto_seps h scale res end = Ok seps <-> separations h scale res given seps.
Proof.
  intros h scale res [s|] seps; unfold separations.
  - split; [intro E; left; congruence|]. intros [E|(E & _)]; congruence.
  - unfold auto_seps. split.
    + destruct (h_lsam h) as [l|]; cbn [getkey bind]; [|discriminate]. destruct (String.eqb_spec l "NFOV") as [->|N]; cbn [negb]; [|discriminate]. destruct (h_fpam h) as [f|]; cbn [getkey bind]; [|discriminate]. destruct (String.eqb_spec f "HLC12_C2R1") as [->|N]; cbn [negb]; [|discriminate]. intro H. right. split; [reflexivity|]. split; [reflexivity|]. split; [reflexivity|]. apply arange_iff, H.
    + intros [E|(_ & L & G & H)]; [discriminate E|]. rewrite L, G. cbn [getkey bind]. rewrite !String.eqb_refl. cbn [negb]. apply arange_iff, H.
Qed.
Lemma pas_iff : forall n given pas, match given with Some p => p | None => auto_pas n end = pas <-> angles n given pas.
Proof.
  intros n [p|] pas; unfold angles.
  - split; [intros ->; left; reflexivity|]. intros [E|(E & _)]; congruence.
  - assert (V : forall i x, nth_error (auto_pas n) i = Some x <-> (i < n)%nat /\ x = INR i * 360 / INR n) by (intros i x; unfold auto_pas; rewrite nth_seq_map; replace (INR i * (360 / INR n)) with (INR i * 360 / INR n) by (unfold Rdiv; ring); reflexivity). split.
    + intros <-. right. split; [reflexivity|exact V].
    + intros [E|(_ & H)]; [discriminate E|]. apply list_nth. intros i x. rewrite H, V. reflexivity.
Qed.
Lemma resolution_eq : fwhm_mas = resolution.
Proof. unfold fwhm_mas, resolution. field. Qed.

Section Run.
Variable F : Type.
Variable roll_of : F -> option R.
Variable inject : F -> val -> loc -> result (F * img).
Variable K : Type.
Variable klip : K -> list F -> result (img * (R * R)).
Variable fit : img -> R * R -> R -> val -> val * val.

Lemma rolls_iff : forall fs, (exists rolls, mapR (fun f => getkey (roll_of f)) fs = Ok rolls) <-> forall g, In g fs -> roll_of g <> None.
Proof using.
  induction fs as [|f fs IH]; [split; [intros _ g []|intros _; exists []; reflexivity]|]. cbn [mapR]. split.
  - intros (rolls & E) g [->|I].
    + intro N. rewrite N in E. discriminate E.
    + destruct (roll_of f); cbn [getkey bind] in E; [|discriminate E]. destruct (mapR _ fs) as [r0|] eqn:M; [|discriminate E]. apply (proj1 IH); [exists r0; reflexivity|exact I].
  - intros H. destruct (roll_of f) as [x|] eqn:R0; [|exfalso; exact (H f (or_introl eq_refl) R0)]. destruct (proj2 IH) as (r & ->); [intros g I; apply H; right; exact I|]. exists (x :: r). reflexivity.
Qed.
Lemma rolls_some : forall fs rolls, mapR (fun f => getkey (roll_of f)) fs = Ok rolls -> fs <> [] -> rolls <> [].
Proof using. intros [|f fs] rolls E N; [congruence|]. apply mapR_f2 in E. inversion E; subst. discriminate. Qed.

(** All the places of the pattern are at one of the separations *)
Lemma row_sep : forall snr pas i s row t, row_of snr pas i s row -> In t row -> fst (fst t) = fst s.
Proof using. intros snr pas i s row t H I. unfold row_of in H. induction H as [|pa u pas' row' U _ IH]; [destruct I|]. destruct I as [->|I]; [apply U|apply IH, I]. Qed.
Lemma grid_sep : forall snr pas seps g t, grid_of snr pas seps g -> In t g -> In (fst (fst t)) (map fst seps).
Proof using.
  intros snr pas seps g t (rws & -> & L & H) I. apply in_concat in I. destruct I as (row & J & I). apply In_nth_error in J. destruct J as (i & J). destruct (nth_error seps i) as [s|] eqn:Es; [|apply nth_error_None in Es; assert (nth_error rws i <> None) by congruence; apply nth_error_Some in H0; lia].
  rewrite (row_sep _ _ _ _ _ _ (H i s row Es J) I). apply in_map. exact (nth_error_In _ _ Es).
Qed.
Lemma sieve_in : forall A (P : A -> Prop) l m x, sieve P l m -> In x m -> In x l /\ P x.
Proof using.
  intros A P l m x H. induction H as [|y l m Y _ IH|y l m Y _ IH]; intro I; [destruct I| |].
  - destruct I as [->|I]; [split; [left; reflexivity|exact Y]|]. destruct (IH I). split; [right; assumption|assumption].
  - destruct (IH I). split; [right; assumption|assumption].
Qed.
Lemma targets_sep : forall snr res cands pas seps ts t, targets snr res cands pas seps ts -> In t ts -> In (fst (fst t)) (map fst seps).
Proof using. intros snr res cands pas seps ts t (g & G & S) I. destruct (sieve_in _ _ _ _ _ S I) as (J & _). exact (grid_sep _ _ _ _ _ G J). Qed.
Lemma map_fst_combine : forall A B (l : list A) (m : list B), List.length l = List.length m -> map fst (combine l m) = l.
Proof using. induction l as [|x l IH]; intros [|y m] L; cbn in *; try discriminate L; [reflexivity|]. injection L as L. rewrite (IH m L). reflexivity. Qed.
Lemma f2_len : forall A B (P : A -> B -> Prop) l m, Forall2 P l m -> List.length l = List.length m.
Proof using. intros A B P l m H. induction H; cbn; congruence. Qed.

Section Mode.
Variables (cen : option R * option R) (cube : list img) (fs : list F) (seps pas : list R) (cands : list loc) (snr fwhm res : R).
Hypothesis frames : fs <> [].
Notation one := (one_mode F roll_of inject K klip fit cen cube fs seps pas cands snr fwhm res).
Lemma mode_iff : forall k klmode row, (exists t, one k klmode = Ok t /\ mapR (fun i => pick t i) (seq 0 (List.length seps)) = Ok row) <-> mode_of F roll_of inject K klip fit cen cube fs seps pas cands snr fwhm res k klmode row.
Proof using frames.
  intros k klmode row. unfold one_mode. split.
  - intros (t & E & P). destruct (mapR (fun f => getkey (roll_of f)) fs) as [rolls|] eqn:ER; cbn [bind] in E; [|discriminate E]. pose proof (rolls_some _ _ ER frames) as RN.
    destruct (measure_noise cen cube seps fwhm cands) as [m|] eqn:EM; cbn [bind] in E; [|discriminate E]. pose proof EM as EM'. apply measure_noise_iff in EM'. destruct EM' as (cx & cy & -> & _). unfold measure_noise in EM. cbn [fst snd getkey bind] in EM. injection EM as <-.
    destruct (column k _) as [nz|] eqn:EC; cbn [bind] in E; [|discriminate E]. apply column_iff in EC. destruct EC as (SN & f & Ef & NZ).
    destruct (visit_frames F inject true rolls cands res snr pas (combine seps nz) [] fs) as [out|] eqn:EV; cbn [bind] in E; [|discriminate E].
    destruct fs as [|f0 fs'] eqn:EF; [congruence|]. assert (PN : pas <> []) by (intros ->; discriminate EV). rewrite (injections_iff F inject rolls cands res snr RN pas PN (combine seps nz) f0 fs' out) in EV. destruct EV as (ts & T & O).
    destruct out as [|(o & ds) out']; [discriminate E|]. destruct ds as [|d0 ds']; [discriminate E|]. set (ds := d0 :: ds') in *.
    destruct (klip klmode (map fst ((o, ds) :: out'))) as [(data & pc)|] eqn:EK; cbn [bind fst snd] in E; [|discriminate E].
    destruct (mapR _ ds) as [vs|] eqn:EVS; cbn [bind] in E; [|discriminate E]. injection E as <-. pose proof O as O'. inversion O' as [|? ? ? ? CH _]; subst. cbn [fst snd] in CH. pose proof (chain_targets _ _ _ _ _ _ CH) as CT. apply mapR_f2 in EVS.
    assert (LT : map p_loc ds = map fst ts) by (rewrite <- CT, map_map; reflexivity). change (mapR (fun i => pick (tabulate (map p_loc ds) vs) i) (seq 0 (List.length seps)) = Ok row) in P. rewrite LT in P.
    exists cx, cy, f, nz, ts, ((o, ds) :: out'), data, pc, (background data), vs. split; [intros g I; apply (proj1 (rolls_iff (f0 :: fs'))); [exists rolls; exact ER|exact I]|]. split; [reflexivity|]. split; [exact SN|]. split; [exact PN|]. split; [exact Ef|]. split; [exact NZ|]. split; [exact T|]. split; [intros ->; discriminate CT|]. split; [exact O|]. split; [exact EK|]. split; [apply level_iff; reflexivity|]. split.
    + exists (levelled data). split; [reflexivity|]. split; [reflexivity|]. split; [reflexivity|]. exists ds, o. split; [reflexivity|]. revert EVS. apply f2_impl. intros p v V. apply measure_iff, V.
    + apply table_iff; [|..|exact P].
      * rewrite map_length, <- (f2_len _ _ _ _ _ EVS), <- CT, map_length. reflexivity.
      * intros l I. apply in_map_iff in I. destruct I as (u & <- & I). pose proof (targets_sep _ _ _ _ _ _ _ T I) as J. rewrite map_fst_combine in J; [exact J|exact (f2_len _ _ _ _ _ NZ)].
  - intros (cx & cy & f & nz & ts & outs & data & pc & level & vs & RL & -> & SN & PN & Ef & NZ & T & TN & O & EK & LV & (lev & LR & LC & LP & ds & o & OE & MS) & P).
    destruct (proj2 (rolls_iff fs) RL) as (rolls & ER). rewrite ER. cbn [bind]. pose proof (rolls_some _ _ ER frames) as RN. unfold measure_noise. cbn [fst snd getkey bind].
    assert (EC : column k (map (fun sep => map (noise cx cy fwhm cands sep) cube) seps) = Ok nz) by (apply column_iff; split; [exact SN|]; exists f; split; [exact Ef|exact NZ]). rewrite EC. cbn [bind].
    destruct fs as [|f0 fs'] eqn:EF; [congruence|]. rewrite (proj2 (injections_iff F inject rolls cands res snr RN pas PN (combine seps nz) f0 fs' outs) (ex_intro _ ts (conj T O))). cbn [bind].
    destruct outs as [|x outs']; [discriminate OE|]. injection OE as ->. cbn [tl] in *. pose proof O as O'. inversion O' as [|? ? ? ? CH _]; subst. cbn [fst snd] in CH. pose proof (chain_targets _ _ _ _ _ _ CH) as CT. destruct ds as [|d0 ds']; [exfalso; apply TN; symmetry; exact CT|]. set (ds := d0 :: ds') in *. rewrite EK. cbn [bind fst snd].
    apply level_iff in LV. assert (lev = levelled data) as -> by (apply img_ext; [exact LR|exact LC|intros r c; rewrite LP, LV; reflexivity]).
    assert (EVS : mapR (measure fit fwhm (vscale snr (last nz None)) (levelled data) pc) ds = Ok vs) by (apply mapR_f2; revert MS; apply f2_impl; intros p v V; apply measure_iff, V). rewrite EVS. cbn [bind]. eexists. split; [reflexivity|].
    assert (LT : map p_loc ds = map fst ts) by (rewrite <- CT, map_map; reflexivity). rewrite LT. apply table_iff; [|..|exact P].
    + rewrite map_length, <- (f2_len _ _ _ _ _ MS), <- CT, map_length. reflexivity.
    + intros l I. apply in_map_iff in I. destruct I as (u & <- & I). pose proof (targets_sep _ _ _ _ _ _ _ T I) as J. rewrite map_fst_combine in J; [exact J|exact (f2_len _ _ _ _ _ NZ)].
Qed.
End Mode.

Lemma modes_iff : forall (one : nat -> K -> result (list (val * val))) n l k out,
  (exists ts, all_modes K one k l = Ok ts /\ mapR (fun t => mapR (fun i => pick t i) (seq 0 n)) ts = Ok out) <->
  List.length out = List.length l /\ forall i m row, nth_error l i = Some m -> nth_error out i = Some row -> exists t, one (k + i)%nat m = Ok t /\ mapR (fun i => pick t i) (seq 0 n) = Ok row.
Proof using.
  intros one n. induction l as [|m l IH]; intros k out; cbn [all_modes].
  - split.
    + intros (ts & E & M). injection E as <-. injection M as <-. split; [reflexivity|]. intros [|i] ? ? E; discriminate E.
    + intros (L & _). destruct out; [|discriminate L]. exists []. split; reflexivity.
  - split.
    + intros (ts & E & M). destruct (one k m) as [a|] eqn:EA; cbn [bind] in E; [|discriminate E]. destruct (all_modes K one (S k) l) as [r|] eqn:ER; cbn [bind] in E; [|discriminate E]. injection E as <-. cbn [mapR] in M. destruct (mapR _ (seq 0 n)) as [row|] eqn:EP; cbn [bind] in M; [|discriminate M]. destruct (mapR _ r) as [rs|] eqn:EQ; cbn [bind] in M; [|discriminate M]. injection M as <-.
      destruct (proj1 (IH (S k) rs)) as (L & H); [exists r; split; [exact ER|exact EQ]|]. split; [cbn; congruence|]. intros [|i] m' row' Em Er; cbn [nth_error] in Em, Er.
      * injection Em as <-. injection Er as <-. exists a. rewrite Nat.add_0_r. split; assumption.
      * destruct (H i m' row' Em Er) as (t & T & P). exists t. rewrite Nat.add_succ_r. split; assumption.
    + intros (L & H). destruct out as [|row rs]; [discriminate L|]. destruct (H O m row eq_refl eq_refl) as (a & EA & EP). rewrite Nat.add_0_r in EA. destruct (proj2 (IH (S k) rs)) as (r & ER & EQ).
      * split; [cbn in L; congruence|]. intros i m' row' Em Er. destruct (H (S i) m' row' Em Er) as (t & T & P). exists t. rewrite Nat.add_succ_r in T. split; assumption.
      * exists (a :: r). rewrite EA, ER. cbn [bind mapR]. rewrite EP. cbn [bind]. rewrite EQ. split; reflexivity.
Qed.
Lemma thrupt_iff : forall h cen cube fs numbasis snr spacing n_pas seps pas cands out, fs <> [] ->
  (meas_klip_thrupt F roll_of inject K klip fit h cen cube fs numbasis snr spacing n_pas seps pas cands = Ok out <->
   throughput F roll_of inject K klip fit h cen cube fs numbasis snr spacing n_pas seps pas cands out).
Proof using.
  intros h cen cube fs numbasis snr spacing n_pas seps pas cands (ss & rowsk) FN. unfold meas_klip_thrupt, throughput. cbn [fst snd]. cbv zeta. rewrite resolution_eq. split.
  - destruct (h_cfam h) as [c|]; cbn [getkey bind]; [|discriminate]. destruct (String.eqb_spec c "1F") as [->|N]; cbn [negb]; [|discriminate]. destruct (h_plate h) as [scale|]; cbn [getkey bind]; [|discriminate]. destruct (Req_EM_T scale 0) as [Z|Z]; [discriminate|].
    destruct (match seps with Some s => Ok s | None => _ end) as [ss'|] eqn:ES; cbn [bind]; [|discriminate]. apply seps_iff in ES. set (ps := match pas with Some p => p | None => auto_pas n_pas end).
    destruct (all_modes _ _ _ _) as [tables|] eqn:EA; cbn [bind]; [|discriminate]. destruct (mapR _ tables) as [o|] eqn:EO; cbn [bind]; [|discriminate]. intro E. injection E as -> ->.
    exists scale, ps. split; [reflexivity|]. split; [reflexivity|]. split; [exact Z|]. split; [exact ES|]. split; [apply pas_iff; reflexivity|]. destruct (proj1 (modes_iff _ _ _ _ _) (ex_intro _ tables (conj EA EO))) as (L & H). split; [exact L|]. intros k m row Em Er. specialize (H k m row Em Er). cbn [Nat.add] in H. apply mode_iff; assumption.
  - intros (scale & ps & -> & -> & Z & ES & EP & L & H). cbn [getkey bind]. rewrite String.eqb_refl. cbn [negb]. destruct (Req_EM_T scale 0) as [Z'|_]; [congruence|]. apply seps_iff in ES. rewrite ES. cbn [bind]. apply pas_iff in EP. rewrite EP.
    destruct (proj2 (modes_iff (one_mode F roll_of inject K klip fit cen cube fs ss ps cands snr (resolution / scale) (spacing * (resolution / scale))) (List.length ss) numbasis 0 rowsk)) as (tables & EA & EO).
    + split; [exact L|]. intros k m row Em Er. cbn [Nat.add]. apply mode_iff; [exact FN|]. apply (H k m row Em Er).
    + rewrite EA. cbn [bind]. rewrite EO. reflexivity.
Qed.
End Run.
