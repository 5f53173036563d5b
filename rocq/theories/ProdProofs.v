(** Reading calibration products meets its specification. *)
From Coq Require Import List Arith Bool String Ascii ZArith QArith Lia.
From Verif Require Import Base DiskModel DiskSpec DiskProofs DiskLawProofs ProdModel ProdSpec ProdTextProofs.
Import ListNotations.
Local Open Scope nat_scope.
Local Open Scope string_scope.
Local Open Scope list_scope.

Lemma bind_iff : forall {A B} (m : result A) (k : A -> result B) y, bind m k = Ok y <-> exists x, m = Ok x /\ k x = Ok y.
Proof. intros A B [a|e] k y; cbn; split; [intros H; exists a; auto|intros (x & H & K); injection H as ->; exact K|discriminate|intros (x & H & _); discriminate]. Qed.
Lemma unit_iff : forall {B} (m : result unit) (r : result B) y, bind m (fun _ => r) = Ok y <-> m = Ok tt /\ r = Ok y.
Proof. intros B m r y. rewrite bind_iff. split; [intros ([] & H); exact H|intros H; exists tt; exact H]. Qed.
Lemma if_ok : forall {A} (b : bool) (a r : A) e, (if b then Ok a else Raise e) = Ok r <-> b = true /\ r = a.
Proof. intros A [] a r e; split; [intros H; injection H as <-; auto|intros (_ & ->); reflexivity|discriminate|intros (H & _); discriminate]. Qed.
Lemma has_iff : forall k h, has k h = true <-> get k h <> None.
Proof. intros k h. unfold has. destruct (get k h); split; intros H; try discriminate; try reflexivity. contradiction. Qed.
Lemma has_not : forall k h, has k h = false <-> get k h = None.
Proof. intros k h. unfold has. destruct (get k h); split; intros H; try discriminate; reflexivity. Qed.
Lemma hdr_eq : forall a b, cards a = cards b -> hist a = hist b -> comm a = comm b -> a = b.
Proof. intros [] [] ? ? ?. cbn in *. subst. reflexivity. Qed.
Lemma label_named : forall c, label c = named c.
Proof. intros []; reflexivity. Qed.
Lemma named_inj : forall a b, named a = named b -> a = b.
Proof. intros [] [] H; try reflexivity; discriminate. Qed.
Lemma at_ok_iff : forall ix s, at_ok ix s = true <-> exists a b, s = a ++ b /\ Forall2 lt ix a.
Proof.
  induction ix as [|i ix IH]; intros s; cbn [at_ok]; [split; [intros _; exists [], s; split; [reflexivity|constructor]|reflexivity]|]. destruct s as [|n s]; [split; [discriminate|]; intros (a & b & H & F); destruct a; [inversion F|discriminate]|]. rewrite andb_true_iff, Nat.ltb_lt, IH. split.
  - intros (L & a & b & -> & F). exists (n :: a), b. split; [reflexivity|]. constructor; assumption.
  - intros (a & b & H & F). inversion F as [|? m ? a' L F' X1 X2]; subst. injection H as -> ->. split; [exact L|]. exists a', b. auto.
Qed.
(** Parameters *)
Lemma table_same : par_table = parameters.
Proof. reflexivity. Qed.
Lemma read_par_iff : forall ext e p, read_par ext e = Ok p <-> par_value ext e p.
Proof.
  intros ext [[k d] o] [q v]. unfold read_par, par_value. cbn [fst snd]. destruct (get k ext) as [w|] eqn:G.
  - split; [intros H; apply (f_equal (fun r => match r with Ok a => a | Raise _ => (q, v) end)) in H; cbn in H; injection H as <- <-; auto|]. intros (-> & [H|(H & _)]); [injection H as ->; reflexivity|discriminate].
  - destruct o as [o|].
    + destruct (get o ext) as [w|] eqn:G2.
      * split; [intros H; injection H as <- <-; split; [reflexivity|]; right; split; [reflexivity|]; exists o; auto|]. intros (-> & [H|(_ & o' & H & H2)]); [discriminate|]. injection H as <-. rewrite G2 in H2. injection H2 as ->. reflexivity.
      * split; [discriminate|]. intros (_ & [H|(_ & o' & H & H2)]); [discriminate|]. injection H as <-. congruence.
    + split; [discriminate|]. intros (_ & [H|(_ & o' & H & _)]); discriminate.
Qed.
Lemma read_pars_iff : forall ext l r, read_pars ext l = Ok r <-> Forall2 (par_value ext) l r.
Proof.
  intros ext. induction l as [|e l IH]; intros r; cbn [read_pars]; [split; [intros H; injection H as <-; constructor|intros H; inversion H; reflexivity]|]. rewrite bind_iff. split.
  - intros (p & P & H). apply bind_iff in H. destruct H as (t & T & H). injection H as <-. constructor; [apply read_par_iff; exact P|apply IH; exact T].
  - intros H. inversion H as [|? p ? t P T]; subst. exists p. split; [apply read_par_iff; exact P|]. apply bind_iff. exists t. split; [apply IH; exact T|reflexivity].
Qed.
Lemma par_all : forall {A B} (R : A -> B -> Prop) l, (forall e, In e l -> exists p, R e p) <-> exists r, Forall2 R l r.
Proof.
  intros A B R. induction l as [|e l IH]; [split; [exists []; constructor|intros _ ? []]|]. split.
  - intros H. destruct (H e (or_introl eq_refl)) as (p & P). destruct (proj1 IH (fun x I => H x (or_intror I))) as (r & F). exists (p :: r). constructor; assumption.
  - intros (r & F). inversion F as [|? p ? t P T]; subst. intros x [->|I]; [exists p; exact P|]. exact (proj2 IH (ex_intro _ t T) x I).
Qed.
Lemma par_value_fun : forall ext e p q, par_value ext e p -> par_value ext e q -> p = q.
Proof. intros ext e p q P Q. apply read_par_iff in P. apply read_par_iff in Q. congruence. Qed.
Lemma par_value_same : forall ext ext' e p, (forall k, k = fst (fst e) \/ Some k = snd e -> get k ext' = get k ext) -> par_value ext e p -> par_value ext' e p.
Proof. intros ext ext' e p S (H & C). split; [exact H|]. rewrite S by (left; reflexivity). destruct C as [C|(N & o & O & C)]; [left; exact C|]. right. split; [exact N|]. exists o. split; [exact O|]. rewrite S by (right; symmetry; exact O). exact C. Qed.

Section Prod.
Context {E : Type}.
Variable zero : E.
Variable is_nan : E -> bool.
Notation arr := (arr E).
Notation hdu := (hdu E).
Notation image := (image E).
Notation file := (file E).
Notation prod := (prod E).

(** ** Checks *)
Lemma check_iff : forall c (x : image), check_type c x = Ok tt <-> get "DATATYPE" (i_ext x) = Some (HS (named c)).
Proof using.
  intros c x. unfold check_type. rewrite label_named. destruct (get "DATATYPE" (i_ext x)) as [[| | |s|]|]; try (split; discriminate). destruct (String.eqb s (named c)) eqn:Q; [apply String.eqb_eq in Q; subst; split; reflexivity|]. split; [discriminate|]. intros H. injection H as ->. rewrite String.eqb_refl in Q. discriminate.
Qed.
Lemma check_raises : forall c (x : image), get "DATATYPE" (i_ext x) <> Some (HS (named c)) -> check_type c x = Raise ValueError.
Proof using.
  intros c x N. unfold check_type. rewrite label_named. destruct (get "DATATYPE" (i_ext x)) as [[| | |s|]|]; try reflexivity. destruct (String.eqb s (named c)) eqn:Q; [apply String.eqb_eq in Q; subst; contradiction|reflexivity].
Qed.
Lemma nonlin_iff : forall x : image, fit_nonlin is_nan x = Ok tt <-> fits is_nan CNonLin x.
Proof using.
  intros x. unfold fit_nonlin, fits. destruct (shp (i_data x)) as [|a [|b r]]; try (split; [discriminate|intros (? & ? & ? & ? & ? & H & _); discriminate]). destruct (Nat.ltb a 2) eqn:A; [apply Nat.ltb_lt in A; split; [discriminate|intros (? & ? & ? & ? & ? & H & ?); injection H as -> -> ->; lia]|]. apply Nat.ltb_ge in A. destruct (Nat.ltb b 2) eqn:B; [apply Nat.ltb_lt in B; split; [discriminate|intros (? & ? & ? & ? & ? & H & ?); injection H as -> -> ->; lia]|]. apply Nat.ltb_ge in B. cbn [orb]. destruct (Nat.eqb (size r) 1) eqn:S; cbn [negb].
  - apply Nat.eqb_eq in S. destruct (vals (i_data x)) as [|v t]; [split; [discriminate|intros (? & ? & ? & ? & ? & _ & _ & _ & _ & H & _); discriminate]|]. destruct (is_nan v) eqn:V.
    + split; [intros _; exists a, b, r, v, t; auto 10|reflexivity].
    + split; [discriminate|]. intros (? & ? & ? & ? & ? & _ & _ & _ & _ & H & K). injection H as <- <-. congruence.
  - apply Nat.eqb_neq in S. split; [discriminate|]. intros (? & ? & ? & ? & ? & H & _ & _ & K & _). injection H as <- <- <-. contradiction.
Qed.
Lemma kgain_iff : forall x : image, fit_kgain x = Ok tt <-> fits is_nan CKGain x.
Proof using.
  intros x. unfold fit_kgain, fits. destruct (list_eqb (shp (i_data x)) [1; 1]) eqn:L; cbn [negb].
  - apply list_eqb_iff in L. rewrite if_ok, at_ok_iff. split.
    + intros ((a & b & S & F) & _). split; [exact L|]. inversion F as [|? n ? a1 L1 F1]; subst. inversion F1 as [|? m ? a2 L2 F2]; subst. inversion F2; subst. rewrite S. destruct n; [lia|]. destruct m; [lia|]. cbn. eauto.
    + intros (_ & a & b & r & S). split; [|reflexivity]. exists [Datatypes.S a; Datatypes.S b], r. split; [exact S|]. repeat (apply Forall2_cons; [lia|]); apply Forall2_nil.
  - split; [discriminate|]. intros (H & _). apply list_eqb_iff in H. congruence.
Qed.
Lemma cube_iff : forall s, cube3 s = true <-> exists a b, s = [3; a; b].
Proof using. intros s. unfold cube3. rewrite andb_true_iff, !Nat.eqb_eq. split; [|intros (a & b & ->); split; reflexivity]. destruct s as [|n [|a [|b [|? ?]]]]; cbn; intros (A & B); try lia. subst. eauto. Qed.
Lemma dnm_iff : forall x : image, fit_dnm x = Ok tt /\ maps_dnm x = Ok tt <-> fits is_nan CDnm x.
Proof using.
  intros x. unfold fit_dnm, maps_dnm, fits. rewrite if_ok, at_ok_iff, <- !cube_iff, <- !has_iff. destruct (cube3 (shp (i_data x))); cbn [negb]; [|split; [intros (H & _); discriminate|intros (H & _); discriminate]]. destruct (cube3 (shp (i_dq x))); cbn [negb].
  - destruct (has "B_O" (i_ext x)), (has "B_O_ERR" (i_ext x)); cbn [andb]; try (split; [intros (H & _); destruct (negb _); discriminate|intros (_ & _ & _ & H & H2); discriminate]). split.
    + intros (H & (a & b & S & F) & _). split; [reflexivity|]. split; [|auto]. inversion F as [|? n ? a1 L1 F1]; subst. inversion F1 as [|? m ? a2 L2 F2]; subst. inversion F2; subst. rewrite S in *. destruct (andb _ _) eqn:Q in H; [|discriminate]. apply andb_true_iff in Q. destruct Q as (Q1 & Q2). apply Nat.eqb_eq in Q1, Q2. cbn in Q1, Q2. subst n. destruct b as [|u [|v [|? ?]]]; cbn in Q1; try lia. exists m, u, v. split; [reflexivity|lia].
    + intros (_ & (k & a & b & S & L) & _). rewrite S. cbn. split; [reflexivity|]. split; [|reflexivity]. exists [1; k], [a; b]. split; [reflexivity|]. repeat (apply Forall2_cons; [lia|]); apply Forall2_nil.
  - split; [|intros (_ & _ & H & _); discriminate]. intros (H & _). destruct (negb _); discriminate.
Qed.
Lemma astrom_iff : forall x : image, fit_astrom x = Ok tt <-> fits is_nan CAstrom x.
Proof using.
  intros x. unfold fit_astrom, fits. rewrite if_ok, at_ok_iff. split.
  - intros ((a & b & S & F) & _). inversion F as [|? n ? a1 L1 F1]; subst. inversion F1; subst. rewrite S. exists n, b. split; [reflexivity|lia].
  - intros (n & r & S & L). split; [|reflexivity]. exists [n], r. split; [exact S|]. repeat (apply Forall2_cons; [lia|]); apply Forall2_nil.
Qed.
Lemma band_fun : forall ext v w, band_card ext v -> band_card ext w -> v = w.
Proof using. intros ext v w [A|(N & A)] [B|(M & B)]; congruence. Qed.
Lemma flux_iff : forall (x : image) nf, fit_flux x = Ok nf /\ vals_flux x = Ok tt <->
  fits is_nan CFlux x /\ exists s v, band_card (i_ext x) (HS s) /\ get "CFAMNAME" (i_ext x) = Some v /\ nf = (if String.prefix "ND" s then s else "ND0", v).
Proof using.
  intros x nf. unfold fit_flux, vals_flux, fits. rewrite if_ok, at_ok_iff. assert (SH : (exists a b, shp (i_err x) = a ++ b /\ Forall2 lt [0; 0; 0] a) <-> exists a b d r, shp (i_err x) = S a :: S b :: S d :: r).
  { split; [|intros (a & b & d & r & S); exists [Datatypes.S a; Datatypes.S b; Datatypes.S d], r; split; [exact S|repeat (apply Forall2_cons; [lia|]); apply Forall2_nil]]. intros (a & b & S & F). inversion F as [|? n ? a1 L1 F1]; subst. inversion F1 as [|? m ? a2 L2 F2]; subst. inversion F2 as [|? q ? a3 L3 F3]; subst. inversion F3; subst. rewrite S. destruct n; [lia|]. destruct m; [lia|]. destruct q; [lia|]. cbn. eauto 6. }
  destruct (list_eqb (shp (i_data x)) [1; 1]) eqn:L; cbn [negb]; [apply list_eqb_iff in L|split; [intros (H & _); discriminate|intros ((H & _) & _); apply list_eqb_iff in H; congruence]]. rewrite bind_iff.
  assert (BC : forall nd, (match get "FPAMNAME" (i_ext x) with Some v => nd_name v | None => match get "FSAMNAME" (i_ext x) with Some v => nd_name v | None => Raise ValueError end end) = Ok nd <-> exists s, band_card (i_ext x) (HS s) /\ nd = (if String.prefix "ND" s then s else "ND0")).
  { assert (NN : forall v nd, nd_name v = Ok nd <-> exists s, v = HS s /\ nd = (if String.prefix "ND" s then s else "ND0")). { intros [| | |s|] nd; cbn [nd_name]; try (split; [discriminate|intros (? & H & _); discriminate]). split; [intros H; injection H as <-; exists s; auto|intros (s' & H & ->); injection H as ->; reflexivity]. }
    intros nd. unfold band_card. destruct (get "FPAMNAME" (i_ext x)) as [v|].
    - rewrite NN. split; [intros (s & -> & ->); exists s; auto|intros (s & [H|(H & _)] & ->); [injection H as ->; exists s; auto|discriminate]].
    - destruct (get "FSAMNAME" (i_ext x)) as [v|]; [rewrite NN; split; [intros (s & -> & ->); exists s; auto|intros (s & [H|(_ & H)] & ->); [discriminate|injection H as ->; exists s; auto]]|]. split; [discriminate|intros (s & [H|(_ & H)] & _); discriminate]. }
  split.
  - intros ((nd & N & C) & S & _). apply SH in S. assert (N' : exists s, band_card (i_ext x) (HS s) /\ nd = (if String.prefix "ND" s then s else "ND0")) by (apply BC; destruct (get "FPAMNAME" (i_ext x)); exact N). destruct N' as (s & B & ->). destruct (get "CFAMNAME" (i_ext x)) as [v|] eqn:G; [|discriminate]. injection C as <-. split; [split; [exact L|]; split; [exists s; exact B|split; [discriminate|exact S]]|]. exists s, v. auto.
  - intros ((_ & _ & _ & S) & s & v & B & G & ->). split; [|split; [apply SH; exact S|reflexivity]]. exists (if String.prefix "ND" s then s else "ND0"). rewrite G. split; [|reflexivity]. pose proof (proj2 (BC _) (ex_intro _ s (conj B eq_refl))) as Q. destruct (get "FPAMNAME" (i_ext x)); exact Q.
Qed.
Lemma nth_named_iff : forall i k (x : image) y, nth_named i k x = Ok y <-> nth_error (i_list x) i = Some y /\ h_name y = k.
Proof using. intros i k x y. unfold nth_named. destruct (nth_error (i_list x) i) as [z|]; [|split; [discriminate|intros (H & _); discriminate]]. destruct (String.eqb (h_name z) k) eqn:Q; [apply String.eqb_eq in Q; split; [intros H; injection H as <-; auto|intros (H & _); injection H as ->; reflexivity]|]. split; [discriminate|]. intros (H & K). injection H as ->. rewrite K, String.eqb_refl in Q. discriminate. Qed.
Lemma ct_iff : forall x : image, fit_ct x = Ok tt <-> fits is_nan CCt x.
Proof using.
  intros x. unfold fit_ct, fits. destruct (get "EXTNAME" (i_ext x)) as [[| | |s|]|]; try (split; [discriminate|intros (H & _); discriminate]). destruct (string_dec s "PSFCUBE") as [->|NS].
  - rewrite bind_iff. split.
    + intros (y0 & N0 & H). apply bind_iff in H. destruct H as (y1 & N1 & H). apply bind_iff in H. destruct H as (y2 & N2 & H). apply nth_named_iff in N0, N1, N2. destruct N0 as (N0 & K0), N1 as (N1 & K1), N2 as (N2 & K2). split; [reflexivity|]. destruct (i_list x) as [|z0 [|z1 [|z2 l]]]; try discriminate. injection N0 as ->. injection N1 as ->. injection N2 as ->. destruct (shp (i_data x)) as [|n [|a [|b [|? ?]]]]; try discriminate. cbn [List.length Nat.eqb negb hd] in H. destruct (shp (h_data y0)) as [|m [|q r]] eqn:HS0; [discriminate| |].
      * destruct (Nat.eqb m 3); discriminate.
      * destruct (Nat.eqb m 3) eqn:M; [|discriminate]. apply Nat.eqb_eq in M. destruct (Nat.eqb q n) eqn:Q; [|discriminate]. apply Nat.eqb_eq in Q. subst m q. exists y0, y1, y2, l, n, a, b, r. split; [reflexivity|]. split; [exact K0|]. split; [exact K1|]. split; [exact K2|]. split; [reflexivity|exact HS0].
    + intros (_ & y0 & y1 & y2 & l & n & a & b & r & L & K0 & K1 & K2 & S & S0). exists y0. split; [apply nth_named_iff; rewrite L; auto|]. apply bind_iff. exists y1. split; [apply nth_named_iff; rewrite L; auto|]. apply bind_iff. exists y2. split; [apply nth_named_iff; rewrite L; auto|]. rewrite S, S0. cbn. rewrite Nat.eqb_refl. reflexivity.
  - split; [|intros (H & _); injection H as ->; contradiction]. intros H. exfalso. apply NS. clear NS. repeat (let c := fresh "c" in destruct s as [|c s]; [discriminate|]; destruct c as [[] [] [] [] [] [] [] []]; try discriminate). destruct s; [reflexivity|discriminate].
Qed.
Lemma nd_iff : forall x : image, fit_nd x = Ok tt <-> fits is_nan CNd x.
Proof using. intros x. unfold fit_nd, fits. destruct (shp (i_data x)) as [|n [|[|[|[|[|m]]]] [|? ?]]]; try (split; [discriminate|intros (? & H); discriminate]). split; [intros _; exists n; reflexivity|reflexivity]. Qed.

(** ** The product made of a frame *)
Definition rem (l : list string) (h : hdr) : hdr := mkh (cards h) (hist h) (comm h ++ l).
Lemma rem_nil : forall h, rem [] h = h.
Proof using. intros h. apply hdr_eq; cbn; try reflexivity. apply app_nil_r. Qed.
Lemma rem_iff : forall l h h', remarked l h h' <-> h' = rem l h.
Proof using. intros l h h'. unfold remarked. split; [intros (A & B & C); apply hdr_eq; cbn; assumption|intros ->; cbn; auto]. Qed.
Definition mk (c : cls) (x : image) (m : more E) : prod :=
  mkp c (mkim (pri_of c (i_pri x)) (ext_of c (i_ext x)) (i_data x) (i_err x) (rem (err_remarks c) (i_errh x)) (i_dq x) (rem (dq_remarks c) (i_dqh x)) (i_list x) (i_names x) (i_dir x) (i_file x)) m.
Lemma loaded_iff : forall c f x y, loaded c f x y <-> exists m, extra c f x m /\ y = mk c x m.
Proof using.
  intros c f x y. unfold loaded. rewrite !rem_iff. split.
  - intros (A0 & A1 & A2 & A3 & A4 & A5 & A6 & A7 & A8 & A9 & A10 & A11 & A12). exists (p_more y). split; [exact A1|]. destruct y as [c' z m]. destruct z. cbn in *. subst. reflexivity.
  - intros (m & X & ->). cbn. auto 20.
Qed.
Lemma img_eta : forall x : image, mkim (i_pri x) (i_ext x) (i_data x) (i_err x) (i_errh x) (i_dq x) (i_dqh x) (i_list x) (i_names x) (i_dir x) (i_file x) = x.
Proof using. intros []. reflexivity. Qed.
Lemma pri_plain : forall c h, c <> CParams -> pri_of c h = h.
Proof using. intros [] h N; try reflexivity. contradiction. Qed.
Ltac whole := unfold mk; cbn [pri_of ext_of err_remarks dq_remarks]; rewrite ?pri_plain by discriminate; rewrite ?rem_nil, ?img_eta.

(** ** Reading *)
Theorem load_as_iff : forall track c p (f : file) y, load_as zero is_nan track c p f = Ok y <->
  exists x, load_image zero track p f None None None None None = Ok x /\ fits is_nan c x /\ labelled c x /\ loaded c f x y.
Proof using.
  intros track c p f y. unfold load_as. rewrite bind_iff. split; intros (x & L & H); exists x; (split; [exact L|]); rewrite loaded_iff in *.
  - unfold labelled. destruct c.
    + injection H as <-. split; [exact I|]. split; [left; reflexivity|]. exists MNone. split; [reflexivity|]. whole. reflexivity.
    + apply unit_iff in H. destruct H as (C & H). injection H as <-. apply check_iff in C. cbn [with_ext i_ext] in C. rewrite set_new_get in C. cbn [String.eqb Ascii.eqb Bool.eqb] in C. split; [exact I|]. split; [right; exact C|]. exists MNone. split; [reflexivity|]. whole. reflexivity.
    + apply unit_iff in H. destruct H as (C & H). injection H as <-. apply check_iff in C. split; [exact I|]. split; [right; exact C|]. exists MNone. split; [reflexivity|]. whole. reflexivity.
    + apply unit_iff in H. destruct H as (F & H). apply unit_iff in H. destruct H as (C & H). injection H as <-. apply check_iff in C. apply nonlin_iff in F. split; [exact F|]. split; [right; exact C|]. exists MNone. split; [reflexivity|]. whole. reflexivity.
    + apply unit_iff in H. destruct H as (F & H). apply kgain_iff in F. destruct (f_hdus f) as [|y0 [|y1 [|y2 r]]] eqn:FH; try discriminate. cbn [nth_error] in H. apply unit_iff in H. destruct H as (C & H). injection H as <-. apply check_iff in C. cbn [with_ext i_ext] in C. rewrite !set_new_get in C. cbn [String.eqb Ascii.eqb Bool.eqb] in C. split; [exact F|]. split; [right; exact C|]. exists (MPtc (set "EXTNAME" (HS "PTC") (h_hdr y2)) (h_data y2)). split; [exists y0, y1, y2, r; auto|]. whole. reflexivity.
    + apply unit_iff in H. destruct H as (C & H). injection H as <-. apply check_iff in C. split; [exact I|]. split; [right; exact C|]. exists MNone. split; [reflexivity|]. whole. reflexivity.
    + apply unit_iff in H. destruct H as (F & H). apply unit_iff in H. destruct H as (C & H). apply unit_iff in H. destruct H as (M & H). injection H as <-. apply check_iff in C. split; [apply dnm_iff; split; assumption|]. split; [right; exact C|]. exists MNone. split; [reflexivity|]. whole. reflexivity.
    + apply unit_iff in H. destruct H as (C & H). apply bind_iff in H. destruct H as (l & R & H). injection H as <-. apply check_iff in C. rewrite table_same in R. apply read_pars_iff in R. split; [exact (proj2 (par_all (par_value (i_ext x)) parameters) (ex_intro _ l R))|]. split; [right; exact C|]. exists (MPars l). split; [exists l; auto|]. unfold mk. cbn [pri_of ext_of err_remarks dq_remarks]. rewrite ?rem_nil. destruct (get "OBSID" (i_pri x)); cbn [with_pri i_ext]; destruct (get "CMDGAIN" (i_ext x)); cbn [with_ext with_pri i_pri i_ext i_data i_err i_errh i_dq i_dqh i_list i_names i_dir i_file]; rewrite ?img_eta; reflexivity.
    + apply unit_iff in H. destruct H as (F & H). apply unit_iff in H. destruct H as (C & H). injection H as <-. apply check_iff in C. apply astrom_iff in F. split; [exact F|]. split; [right; exact C|]. exists MNone. split; [reflexivity|]. whole. reflexivity.
    + apply unit_iff in H. destruct H as (C & H). injection H as <-. apply check_iff in C. split; [exact I|]. split; [right; exact C|]. exists MNone. split; [reflexivity|]. whole. reflexivity.
    + apply bind_iff in H. destruct H as (nf & F & H). apply unit_iff in H. destruct H as (C & H). apply unit_iff in H. destruct H as (V & H). injection H as <-. apply check_iff in C. destruct (proj1 (flux_iff x nf) (conj F V)) as (FF & s & v & B & G & ->). split; [exact FF|]. split; [right; exact C|]. exists (MFlux (if String.prefix "ND" s then s else "ND0") v). split; [exists s, v; auto|]. whole. reflexivity.
    + apply unit_iff in H. destruct H as (C & H). injection H as <-. apply check_iff in C. split; [exact I|]. split; [right; exact C|]. exists MNone. split; [reflexivity|]. whole. reflexivity.
    + apply unit_iff in H. destruct H as (F & H). apply unit_iff in H. destruct H as (C & H). injection H as <-. apply check_iff in C. apply ct_iff in F. split; [exact F|]. split; [right; exact C|]. exists MNone. split; [reflexivity|]. whole. reflexivity.
    + apply unit_iff in H. destruct H as (F & H). apply unit_iff in H. destruct H as (C & H). injection H as <-. apply check_iff in C. apply nd_iff in F. split; [exact F|]. split; [right; exact C|]. exists MNone. split; [reflexivity|]. whole. reflexivity.
  - destruct H as (F & [C|C] & m & X & ->); [subst c; cbn in X; subst m; whole; reflexivity|]. destruct c; cbn in X.
    + subst m. whole. reflexivity.
    + subst m. apply unit_iff. split; [apply check_iff; cbn [with_ext i_ext]; rewrite set_new_get; exact C|]. whole. reflexivity.
    + subst m. apply unit_iff. split; [apply check_iff; exact C|]. whole. reflexivity.
    + subst m. apply unit_iff. split; [apply nonlin_iff; exact F|]. apply unit_iff. split; [apply check_iff; exact C|]. whole. reflexivity.
    + destruct X as (y0 & y1 & y2 & r & -> & ->). apply unit_iff. split; [apply kgain_iff; exact F|]. cbn [nth_error]. apply unit_iff. split; [apply check_iff; cbn [with_ext i_ext]; rewrite !set_new_get; exact C|]. whole. reflexivity.
    + subst m. apply unit_iff. split; [apply check_iff; exact C|]. whole. reflexivity.
    + subst m. apply dnm_iff in F. destruct F as (F & M). apply unit_iff. split; [exact F|]. apply unit_iff. split; [apply check_iff; exact C|]. apply unit_iff. split; [exact M|]. whole. reflexivity.
    + destruct X as (l & P & ->). apply unit_iff. split; [apply check_iff; exact C|]. apply bind_iff. exists l. split; [apply read_pars_iff; exact P|]. unfold mk. cbn [pri_of ext_of err_remarks dq_remarks]. rewrite ?rem_nil. destruct (get "OBSID" (i_pri x)); cbn [with_pri i_ext]; destruct (get "CMDGAIN" (i_ext x)); cbn [with_ext with_pri i_pri i_ext i_data i_err i_errh i_dq i_dqh i_list i_names i_dir i_file]; rewrite ?img_eta; reflexivity.
    + subst m. apply unit_iff. split; [apply astrom_iff; exact F|]. apply unit_iff. split; [apply check_iff; exact C|]. whole. reflexivity.
    + subst m. apply unit_iff. split; [apply check_iff; exact C|]. whole. reflexivity.
    + destruct X as (s & v & B & G & ->). destruct (proj2 (flux_iff x (if String.prefix "ND" s then s else "ND0", v))) as (FF & V); [split; [exact F|]; exists s, v; auto|]. apply bind_iff. eexists. split; [exact FF|]. apply unit_iff. split; [apply check_iff; exact C|]. apply unit_iff. split; [exact V|]. whole. reflexivity.
    + subst m. apply unit_iff. split; [apply check_iff; exact C|]. whole. reflexivity.
    + subst m. apply unit_iff. split; [apply ct_iff; exact F|]. apply unit_iff. split; [apply check_iff; exact C|]. whole. reflexivity.
    + subst m. apply unit_iff. split; [apply nd_iff; exact F|]. apply unit_iff. split; [apply check_iff; exact C|]. whole. reflexivity.
Qed.
End Prod.
