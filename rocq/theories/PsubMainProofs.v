(** The product of a PSF subtraction. *)
From Coq Require Import List Arith Bool Reals ZArith String Lia Lra FunctionalExtensionality.
From Verif Require Import Base DqModel CombineModel ComboSpec ComboProofs FlatModel FlatSpec CtModel CtSpec PhotModel PhotSpec PhotCalProofs PsubModel PsubSpec PsubProofs.
Import ListNotations.
Local Open Scope R_scope.

Lemma skipped_iff : forall k, skipped k = true <-> dropped k.
Proof. intros k. unfold skipped, dropped. rewrite existsb_exists. split; [intros (x & I & E); apply String.eqb_eq in E; subst; assumption|]. intros I. exists k. split; [assumption|apply String.eqb_refl]. Qed.
Lemma add_get : forall h e k, get k (add_cards h e) = match (if skipped k then None else get k (rev h)) with Some v => Some v | None => get k e end.
Proof.
  intros h e k. unfold add_cards. induction h as [|(a, v) h IH] using rev_ind; [cbn [fold_left rev get]; destruct (skipped k); reflexivity|]. rewrite fold_left_app. cbn [fold_left fst snd]. rewrite rev_app_distr. cbn [rev app get]. destruct (skipped a) eqn:S1.
  - rewrite IH. destruct (String.eqb_spec a k) as [->|]; [rewrite S1; reflexivity|reflexivity].
  - rewrite get_put, IH. destruct (String.eqb_spec a k) as [->|]; [rewrite S1; reflexivity|reflexivity].
Qed.
Lemma written_iff : forall h k v, written h k v <-> (if skipped k then None else get k (rev h)) = Some v.
Proof.
  intros h k v. unfold written. rewrite <- skipped_iff, <- get_iff. destruct (skipped k).
  - split; [intros (N & _); destruct (N eq_refl)|discriminate].
  - split; [intros (_ & E); exact E|intros E; split; [discriminate|assumption]].
Qed.
Lemma add_iff : forall h e k v, card (add_cards h e) k v <-> written h k v \/ ((forall w, ~ written h k w) /\ card e k v).
Proof.
  intros h e k v. rewrite written_iff, <- !get_iff, add_get. destruct (if skipped k then None else get k (rev h)) as [w|] eqn:E.
  - split; [auto|]. intros [Q|(N & _)]; [assumption|]. exfalso. apply (N w). apply written_iff. assumption.
  - split; [intros Q; right; split; [intros w W; apply written_iff in W; congruence|assumption]|intros [Q|(_ & Q)]; [discriminate|assumption]].
Qed.
Lemma put_iff : forall a x h k v, card (put a x h) k v <-> (k = a /\ v = x) \/ (k <> a /\ card h k v).
Proof.
  intros a x h k v. rewrite <- !get_iff, get_put. destruct (String.eqb_spec a k) as [->|N]; [split; [intros Q; injection Q as ->; auto|intros [(_ & ->)|(Q & _)]; [reflexivity|destruct (Q eq_refl)]]|split; [intros Q; right; split; [congruence|assumption]|intros [(-> & _)|(_ & Q)]; [contradiction|assumption]]].
Qed.
Lemma last_app : forall A (l : list A) d, l <> [] -> exists pre, l = pre ++ [last l d].
Proof. intros A l d N. exists (removelast l). apply app_removelast_last. assumption. Qed.
Section Product.
  Variables K C : Type.
  Lemma new_out_made : forall mode sci cube h (d : out K C), new_out K C mode sci cube h = Ok d -> made mode sci cube h d /\ o_kl _ _ d = None /\ o_ct _ _ d = None.
  Proof using.
    intros mode sci cube h d E. unfold new_out in E. destruct sci as [|f post]; [discriminate|]. destruct (get "PSFCENTX" h) as [x|] eqn:EX; cbn [getkey bind] in E; [|discriminate]. destruct (get "PSFCENTY" h) as [y|] eqn:EY; cbn [getkey bind] in E; [|discriminate]. injection E as <-. split; [|split; reflexivity].
    destruct (last_app _ (f :: post) f ltac:(discriminate)) as (pre & L). exists f, (last (f :: post) f), pre, post, x, y. split; [reflexivity|]. split; [exact L|]. split; [apply get_iff; assumption|]. split; [apply get_iff; assumption|]. cbn [o_pri o_ext o_planes o_dq o_err o_name].
    split; [intros k v; apply put_iff|]. split.
    { intros k v. rewrite !put_iff, add_iff. split.
      - intros [(-> & ->)|(N1 & [(-> & ->)|(N2 & H)])]; auto 6.
      - intros [(-> & ->)|[(-> & ->)|(N1 & N2 & H)]]; [right; split; [discriminate|auto]|auto|auto 6]. }
    split; [reflexivity|]. split; [reflexivity|]. split.
    - induction cube as [|p cube IH]; constructor; [|assumption]. intros i j. unfold flag_plane. destruct (pix p i j); split; intros H; try discriminate; try reflexivity. destruct (H eq_refl).
    - induction cube as [|p cube IH]; constructor; [|assumption]. split; [reflexivity|]. split; [reflexivity|]. intros i j. unfold err_plane. cbn [pix]. destruct (pix p i j); split; intros H; try discriminate; try reflexivity. destruct (H eq_refl).
  Qed.
  Lemma new_out_fails : forall mode sci cube h e, new_out K C mode sci cube h = Raise e <-> (sci = [] /\ e = IndexError) \/ (sci <> [] /\ ~ same_pair h /\ e = KeyError).
  Proof using.
    intros mode sci cube h e. unfold new_out, same_pair. destruct sci as [|f post]; [split; [intros Q; injection Q as <-; auto|intros [(_ & ->)|(N & _)]; [reflexivity|destruct (N eq_refl)]]|].
    destruct (get "PSFCENTX" h) as [x|] eqn:EX; cbn [getkey bind].
    2: { split; [intros Q; injection Q as <-; right; split; [discriminate|]; split; [intros (x & y & X & _); apply get_iff in X; congruence|reflexivity]|]. intros [(Q & _)|(_ & _ & ->)]; [discriminate|reflexivity]. }
    destruct (get "PSFCENTY" h) as [y|] eqn:EY; cbn [getkey bind].
    2: { split; [intros Q; injection Q as <-; right; split; [discriminate|]; split; [intros (x' & y & _ & Y); apply get_iff in Y; congruence|reflexivity]|]. intros [(Q & _)|(_ & _ & ->)]; [discriminate|reflexivity]. }
    split; [discriminate|]. intros [(Q & _)|(_ & N & _)]; [discriminate|]. exfalso. apply N. exists x, y. split; apply get_iff; assumption.
  Qed.
  Lemma card_one : forall h k v w, card h k v -> card h k w -> v = w.
  Proof using. intros h k v w A B. apply get_iff in A. apply get_iff in B. congruence. Qed.
  Lemma planes_one : forall A B (P : A -> B -> Prop) l m n, (forall a b c, P a b -> P a c -> c = b) -> Forall2 P l m -> Forall2 P l n -> n = m.
  Proof using. intros A B P l m n H F. revert n. induction F as [|a b l m Q F IH]; intros n G; inversion G as [|? c ? n' Q' G']; subst; [reflexivity|]. f_equal; [eapply H; eassumption|apply IH; assumption]. Qed.
  Lemma made_similar : forall mode sci cube h (d d' : out K C), made mode sci cube h d -> made mode sci cube h d' -> o_kl _ _ d' = o_kl _ _ d -> o_ct _ _ d' = o_ct _ _ d -> similar d d'.
  Proof using.
    intros mode sci cube h d d' (f & g & pre & post & x & y & S1 & S2 & X & Y & HP & HE & PL & NM & DQ & ER) (f' & g' & pre' & post' & x' & y' & S1' & S2' & X' & Y' & HP' & HE' & PL' & NM' & DQ' & ER') K1 C1.
    assert (f' = f) by congruence. subst f'. assert (g' = g) by (rewrite S2' in S2; apply app_inj_tail in S2; destruct S2; assumption). subst g'. assert (x' = x) by (eapply card_one; eassumption). assert (y' = y) by (eapply card_one; eassumption). subst x' y'.
    split; [intros k v; rewrite HP, HP'; reflexivity|]. split; [intros k v; rewrite HE, HE'; reflexivity|]. split; [congruence|]. split; [|split; [|split; [congruence|split; assumption]]].
    - eapply planes_one; [|exact ER|exact ER']. intros p a b (R1 & R2 & H) (R1' & R2' & H'). apply img_eq; [congruence|congruence|]. intros i j. destruct (H i j) as (A & B), (H' i j) as (A' & B'). destruct (pix p i j) as [v|]; [rewrite B, B' by discriminate; reflexivity|rewrite A, A' by reflexivity; reflexivity].
    - eapply planes_one; [|exact DQ|exact DQ']. intros p a b H H'. extensionality i. extensionality j. destruct (H i j) as (A & B), (H' i j) as (A' & B'). destruct (pix p i j) as [v|]; [rewrite B, B' by discriminate; reflexivity|rewrite A, A' by reflexivity; reflexivity].
  Qed.
  Variable crop : list sframe -> result (list sframe).
  Variable klip : string -> list Z -> list sframe -> option (list sframe) -> result (list img * cards).
  Variable thrupt : string -> list Z -> list sframe -> option (list sframe) -> out K C -> result K.
  Variable seps_of : K -> list R.
  Variable core : out K C -> list R -> result C.
  Notation run := (do_psf_subtraction K C crop klip thrupt seps_of core).
  Definition finish (o : opts) (mode : string) (nb : list Z) (sm : list sframe) (rm : option (list sframe)) (d : out K C) : result (out K C) :=
    do d <- (if p_kl o then do k <- thrupt mode nb sm rm d; Ok (mkout K C (o_pri _ _ d) (o_ext _ _ d) (o_planes _ _ d) (o_err _ _ d) (o_dq _ _ d) (o_name _ _ d) (Some k) None) else Ok d);
    if p_core o then
      do c <- core d (match o_kl _ _ d with Some k => seps_of k | None => default_seps end);
      Ok (mkout K C (o_pri _ _ d) (o_ext _ _ d) (o_planes _ _ d) (o_err _ _ d) (o_dq _ _ d) (o_name _ _ d) (o_kl _ _ d) (Some c))
    else Ok d.
  Lemma run_eq : forall o fs, run o fs =
    do p <- prepare crop o fs;
    let '(mode, sci, ref) := p in
    let nb := basis_of (p_basis o) in
    let sm := map masked_frame sci in
    let rm := option_map (map masked_frame) ref in
    do kr <- klip mode nb sm rm;
    do d <- new_out K C mode sci (fst kr) (snd kr);
    finish o mode nb sm rm d.
  Proof using.
    intros o fs. unfold do_psf_subtraction, prepare. destruct (_ && _); [reflexivity|]. destruct (choose _ _) as [sr|]; cbn [bind]; [|reflexivity]. destruct (Nat.eqb _ _); [reflexivity|]. destruct (mode_of _ _ _); cbn [bind]; [|reflexivity]. destruct (crop_if _ _ _); cbn [bind]; [|reflexivity]. destruct (crop_refs _ _ _); reflexivity.
  Qed.
  Lemma tables_one : forall (k : option K) (c : option C) d d' d'', with_tables k c d d' -> with_tables k c d d'' -> d'' = d'.
  Proof using. intros k c d (a1, a2, a3, a4, a5, a6, a7, a8) (b1, b2, b3, b4, b5, b6, b7, b8) (A1 & A2 & A3 & A4 & A5 & A6 & A7 & A8) (B1 & B2 & B3 & B4 & B5 & B6 & B7 & B8). cbn in *. subst. reflexivity. Qed.
  Lemma tables_self : forall d : out K C, with_tables (o_kl _ _ d) (o_ct _ _ d) d d.
  Proof using. intros d. repeat split. Qed.
  Lemma finish_iff : forall o mode nb sm rm d d', o_kl _ _ d = None -> o_ct _ _ d = None -> (finish o mode nb sm rm d = Ok d' <-> tables K C thrupt seps_of core o mode nb sm rm d d').
  Proof using.
    intros o mode nb sm rm d d' K0 C0. unfold finish, tables. split.
    - destruct (p_kl o).
      + destruct (thrupt mode nb sm rm d) as [t|] eqn:ET; cbn [bind]; [|discriminate]. cbn [o_pri o_ext o_planes o_err o_dq o_name o_kl o_ct]. destruct (p_core o).
        * destruct (core _ _) as [c|] eqn:EC; cbn [bind]; [|discriminate]. intros Q. injection Q as <-. exists (Some t), (Some c). split; [left; eauto|]. split; [left; split; [reflexivity|]; do 3 eexists; split; [|split; [reflexivity|split; [exact EC|reflexivity]]]; repeat split|repeat split].
        * intros Q. injection Q as <-. exists (Some t), None. split; [left; eauto|]. split; [right; auto|repeat split].
      + cbn [bind]. rewrite K0. destruct (p_core o).
        * destruct (core _ _) as [c|] eqn:EC; cbn [bind]; [|discriminate]. intros Q. injection Q as <-. exists None, (Some c). split; [right; auto|]. split; [left; split; [reflexivity|]; exists d; do 2 eexists; split; [|split; [reflexivity|split; [exact EC|reflexivity]]]|repeat split]. repeat split; assumption.
        * intros Q. injection Q as <-. exists None, None. split; [right; auto|]. split; [right; auto|repeat split; assumption].
    - intros (k & c & HK & HC & W). destruct HK as [(PK & t & ET & ->)|(PK & ->)]; rewrite PK.
      + rewrite ET. cbn [bind o_pri o_ext o_planes o_err o_dq o_name o_kl o_ct]. destruct HC as [(PC & d1 & s & u & W1 & -> & EC & ->)|(PC & ->)]; rewrite PC.
        * match goal with |- context[core ?x _] => assert (X : x = d1) by (eapply tables_one; [exact W1|repeat split]) end. rewrite X, EC. cbn [bind]. f_equal. eapply tables_one; [exact W|repeat split].
        * f_equal. eapply tables_one; [exact W|repeat split].
      + cbn [bind]. destruct HC as [(PC & d1 & s & u & W1 & -> & EC & ->)|(PC & ->)]; rewrite PC.
        * rewrite K0. assert (X : d = d1) by (eapply tables_one; [exact W1|]; rewrite <- K0, <- C0; apply tables_self). subst d1. change default_seps with [5; 10; 15; 20; 25; 30; 35]. rewrite EC. cbn [bind]. f_equal. eapply tables_one; [exact W|repeat split].
        * f_equal. eapply tables_one; [exact W|]. rewrite <- K0, <- C0. apply tables_self.
  Qed.
  Lemma finish_fails : forall o mode nb sm rm d e, o_kl _ _ d = None -> o_ct _ _ d = None -> (finish o mode nb sm rm d = Raise e <->
    (p_kl o = true /\ thrupt mode nb sm rm d = Raise e) \/
    exists k d1 s, ((p_kl o = true /\ exists t, thrupt mode nb sm rm d = Ok t /\ k = Some t) \/ (p_kl o = false /\ k = None)) /\ with_tables k None d d1 /\
      match k with Some q => s = seps_of q | None => s = [5; 10; 15; 20; 25; 30; 35] end /\ p_core o = true /\ core d1 s = Raise e).
  Proof using.
    intros o mode nb sm rm d e K0 C0. unfold finish. split.
    - destruct (p_kl o).
      + destruct (thrupt mode nb sm rm d) as [t|] eqn:ET; cbn [bind]; [|intros Q; injection Q as ->; auto]. cbn [o_pri o_ext o_planes o_err o_dq o_name o_kl o_ct]. destruct (p_core o); [|discriminate]. destruct (core _ _) as [c|] eqn:EC; cbn [bind]; [discriminate|]. intros Q. injection Q as ->. right. exists (Some t). do 2 eexists. split; [left; eauto|]. split; [|split; [reflexivity|split; [reflexivity|exact EC]]]. repeat split.
      + cbn [bind]. rewrite K0. destruct (p_core o); [|discriminate]. destruct (core _ _) as [c|] eqn:EC; cbn [bind]; [discriminate|]. intros Q. injection Q as ->. right. exists None, d. eexists. split; [right; auto|]. split; [repeat split; assumption|]. split; [reflexivity|]. split; [reflexivity|exact EC].
    - intros [(PK & ET)|(k & d1 & s & HK & W1 & HS & PC & EC)]; [rewrite PK, ET; reflexivity|]. rewrite PC. destruct HK as [(PK & t & ET & ->)|(PK & ->)]; rewrite PK; [rewrite ET|]; cbn [bind o_pri o_ext o_planes o_err o_dq o_name o_kl o_ct].
      + subst s. match goal with |- context[core ?x _] => assert (X : x = d1) by (eapply tables_one; [exact W1|repeat split]) end. rewrite X, EC. reflexivity.
      + subst s. rewrite K0. assert (X : d = d1) by (eapply tables_one; [exact W1|]; rewrite <- K0, <- C0; apply tables_self). subst d1. change default_seps with [5; 10; 15; 20; 25; 30; 35]. rewrite EC. reflexivity.
  Qed.
  (** What is returned *)
  Lemma run_sound : forall o fs d, run o fs = Ok d -> subtracted K C crop klip thrupt seps_of core o fs d.
  Proof using.
    intros o fs d E. rewrite run_eq in E. destruct (prepare crop o fs) as [((mode, sci), ref)|] eqn:EP; cbn [bind] in E; [|discriminate]. cbv zeta in E. destruct (klip _ _ _ _) as [(cube, h)|] eqn:EK; cbn [bind fst snd] in E; [|discriminate]. destruct (new_out K C mode sci cube h) as [d0|] eqn:EN; cbn [bind] in E; [|discriminate]. destruct (new_out_made _ _ _ _ _ EN) as (M & K0 & C0).
    exists mode, (basis_of (p_basis o)), sci, (map masked_frame sci), (option_map (map masked_frame) ref), cube, h, d0. split; [apply given_iff; exists ref; auto|]. split; [exact EK|]. split; [exact M|]. split; [exact K0|]. split; [exact C0|]. apply finish_iff; assumption.
  Qed.
  Lemma with_similar : forall (k : option K) (c : option C) d0 d0' d d', similar d0 d0' -> with_tables k c d0 d -> with_tables k c d0' d' -> similar d d'.
  Proof using.
    intros k c d0 d0' d d' (S1 & S2 & S3 & S4 & S5 & S6 & _ & _) (A1 & A2 & A3 & A4 & A5 & A6 & A7 & A8) (B1 & B2 & B3 & B4 & B5 & B6 & B7 & B8). unfold similar, same_cards in *. rewrite A1, B1, A2, B2. split; [exact S1|]. split; [exact S2|]. repeat (split; [congruence|]). congruence.
  Qed.
  Lemma made_run : forall mode sci cube h d0, made mode sci cube h d0 -> o_kl _ _ d0 = None -> o_ct _ _ d0 = None -> exists d, new_out K C mode sci cube h = Ok d /\ o_kl _ _ d = None /\ o_ct _ _ d = None /\ similar d d0.
  Proof using.
    intros mode sci cube h d0 M K0 C0. destruct (new_out K C mode sci cube h) as [d|e] eqn:E.
    - destruct (new_out_made _ _ _ _ _ E) as (M' & K1 & C1). exists d. split; [reflexivity|]. split; [exact K1|]. split; [exact C1|]. eapply made_similar; [exact M'|exact M|congruence|congruence].
    - exfalso. apply new_out_fails in E. destruct M as (f & g & pre & post & x & y & S1 & _ & X & Y & _). destruct E as [(-> & _)|(_ & N & _)]; [discriminate|]. apply N. exists x, y. auto.
  Qed.
  Lemma run_complete : forall o fs d, steady thrupt core -> subtracted K C crop klip thrupt seps_of core o fs d -> exists d', run o fs = Ok d' /\ similar d' d.
  Proof using.
    intros o fs d (ST & SC) (mode & nb & sci & sm & rm & cube & h & d0 & G & EK & M & K0 & C0 & T). apply given_iff in G. destruct G as (ref & EP & -> & -> & ->). destruct (made_run _ _ _ _ _ M K0 C0) as (d1 & EN & K1 & C1 & SIM). rewrite run_eq, EP. cbn [bind]. cbv zeta. rewrite EK. cbn [bind fst snd]. rewrite EN. cbn [bind].
    destruct T as (k & c & HK & HC & W). set (sm := map masked_frame sci) in *. set (rm := option_map (map masked_frame) ref) in *. set (nb := basis_of (p_basis o)) in *.
    set (d2 := mkout K C (o_pri _ _ d1) (o_ext _ _ d1) (o_planes _ _ d1) (o_err _ _ d1) (o_dq _ _ d1) (o_name _ _ d1) k c).
    exists d2. assert (W2 : with_tables k c d1 d2) by repeat split. split; [|eapply with_similar; eassumption]. apply finish_iff; [assumption|assumption|]. exists k, c. split; [destruct HK as [(PK & t & ET & ->)|(PK & ->)]; [left; split; [assumption|]; exists t; split; [rewrite <- (ST mode nb sm rm _ _ SIM); exact ET|reflexivity]|right; auto]|]. split; [|exact W2].
    destruct HC as [(PC & e1 & s & t & W1 & HS & EC & ->)|(PC & ->)]; [left|right; auto]. split; [assumption|]. exists (mkout K C (o_pri _ _ d1) (o_ext _ _ d1) (o_planes _ _ d1) (o_err _ _ d1) (o_dq _ _ d1) (o_name _ _ d1) k None), s, t. assert (W3 : with_tables k None d1 (mkout K C (o_pri _ _ d1) (o_ext _ _ d1) (o_planes _ _ d1) (o_err _ _ d1) (o_dq _ _ d1) (o_name _ _ d1) k None)) by repeat split. split; [exact W3|]. split; [exact HS|]. split; [|reflexivity]. rewrite <- EC. symmetry. apply (SC s). eapply with_similar; eassumption.
  Qed.
  Lemma similar_sym : forall d d' : out K C, similar d d' -> similar d' d.
  Proof using. intros d d' (S1 & S2 & S3 & S4 & S5 & S6 & S7 & S8). split; [intros k v; symmetry; apply S1|]. split; [intros k v; symmetry; apply S2|]. repeat (split; [congruence|]). congruence. Qed.
  (** When nothing is returned *)
  Lemma run_fails : forall o fs e, steady thrupt core -> (run o fs = Raise e <-> refused K C crop klip thrupt seps_of core o fs e).
  Proof using.
    intros o fs e (ST & SC). rewrite run_eq. unfold refused. rewrite not_given_iff. destruct (prepare crop o fs) as [((mode, sci), ref)|e'] eqn:EP; cbn [bind].
    2: { split; [intros Q; left; injection Q as ->; reflexivity|]. intros [Q|(mode & nb & sci & sm & rm & G & _)]; [injection Q as ->; reflexivity|]. apply given_iff in G. destruct G as (ref & Q & _). congruence. }
    cbv zeta. set (nb := basis_of (p_basis o)). set (sm := map masked_frame sci). set (rm := option_map (map masked_frame) ref).
    transitivity (klip mode nb sm rm = Raise e \/ exists cube h, klip mode nb sm rm = Ok (cube, h) /\ ((sci = [] /\ e = IndexError) \/ (sci <> [] /\ ~ same_pair h /\ e = KeyError) \/
          exists d0, made mode sci cube h d0 /\ o_kl _ _ d0 = None /\ o_ct _ _ d0 = None /\
            ((p_kl o = true /\ thrupt mode nb sm rm d0 = Raise e) \/
             exists k d1 s, ((p_kl o = true /\ exists t, thrupt mode nb sm rm d0 = Ok t /\ k = Some t) \/ (p_kl o = false /\ k = None)) /\ with_tables k None d0 d1 /\
               match k with Some q => s = seps_of q | None => s = [5; 10; 15; 20; 25; 30; 35] end /\ p_core o = true /\ core d1 s = Raise e))).
    2: { split; [intros H; right; exists mode, nb, sci, sm, rm; split; [apply given_iff; exists ref; auto|exact H]|]. intros [Q|(mode' & nb' & sci' & sm' & rm' & G & H)]; [discriminate|]. apply given_iff in G. destruct G as (ref' & Q & -> & -> & ->). rewrite EP in Q. injection Q as <- <- <-. exact H. }
    destruct (klip mode nb sm rm) as [(cube, h)|e'] eqn:EK; cbn [bind fst snd].
    2: { split; [intros Q; injection Q as ->; auto|]. intros [Q|(cube & h & Q & _)]; [injection Q as ->; reflexivity|discriminate]. }
    destruct (new_out K C mode sci cube h) as [d1|e'] eqn:EN; cbn [bind].
    2: { pose proof EN as EN'. apply new_out_fails in EN'. split.
         - intros Q. injection Q as ->. right. exists cube, h. split; [reflexivity|]. destruct EN' as [H|H]; auto.
         - intros [Q|(cube' & h' & Q & [(-> & ->)|[(N & P & ->)|(d0 & M & K0 & C0 & _)]])]; [discriminate| | |]; injection Q as <- <-.
           + destruct EN' as [(_ & ->)|(N & _)]; [reflexivity|destruct (N eq_refl)].
           + destruct EN' as [(Z & _)|(_ & _ & ->)]; [contradiction|reflexivity].
           + destruct (made_run _ _ _ _ _ M K0 C0) as (d1 & Q & _). congruence. }
    destruct (new_out_made _ _ _ _ _ EN) as (M1 & K1 & C1). rewrite (finish_fails o mode nb sm rm d1 e K1 C1). split.
    - intros H. right. exists cube, h. split; [reflexivity|]. right. right. exists d1. auto.
    - intros [Q|(cube' & h' & Q & [(-> & _)|[(_ & N & _)|(d0 & M & K0 & C0 & H)]])]; [discriminate| | |]; injection Q as <- <-.
      + destruct M1 as (f & _ & _ & post & _ & _ & Q & _). discriminate.
      + exfalso. apply N. destruct M1 as (f & g & pre & post & x & y & _ & _ & X & Y & _). exists x, y. auto.
      + assert (SIM : similar d0 d1) by (eapply made_similar; [exact M|exact M1|congruence|congruence]). destruct H as [(PK & ET)|(k & e1 & s & HK & W1 & HS & PC & EC)].
        * left. split; [assumption|]. rewrite (ST mode nb sm rm _ _ SIM). exact ET.
        * right. exists k, (mkout K C (o_pri _ _ d1) (o_ext _ _ d1) (o_planes _ _ d1) (o_err _ _ d1) (o_dq _ _ d1) (o_name _ _ d1) k None), s. assert (W3 : with_tables k None d1 (mkout K C (o_pri _ _ d1) (o_ext _ _ d1) (o_planes _ _ d1) (o_err _ _ d1) (o_dq _ _ d1) (o_name _ _ d1) k None)) by repeat split.
          split; [destruct HK as [(PK & t & ET & ->)|(PK & ->)]; [left; split; [assumption|]; exists t; split; [rewrite (ST mode nb sm rm _ _ SIM); exact ET|reflexivity]|right; auto]|]. split; [exact W3|]. split; [exact HS|]. split; [exact PC|]. rewrite <- EC. apply (SC s). eapply with_similar; eassumption.
  Qed.
End Product.

(** The same, with nothing left open *)
Lemma product : forall K C crop klip thrupt seps_of core o fs d, do_psf_subtraction K C crop klip thrupt seps_of core o fs = Ok d -> subtracted K C crop klip thrupt seps_of core o fs d.
Proof. intros. apply run_sound. assumption. Qed.
Lemma product_found : forall K C crop klip thrupt seps_of core o fs d, steady thrupt core -> subtracted K C crop klip thrupt seps_of core o fs d -> exists d', do_psf_subtraction K C crop klip thrupt seps_of core o fs = Ok d' /\ similar d' d.
Proof. intros. apply run_complete; assumption. Qed.
Lemma product_refused : forall K C crop klip thrupt seps_of core o fs e, steady thrupt core -> (do_psf_subtraction K C crop klip thrupt seps_of core o fs = Raise e <-> refused K C crop klip thrupt seps_of core o fs e).
Proof. intros. apply run_fails. assumption. Qed.
