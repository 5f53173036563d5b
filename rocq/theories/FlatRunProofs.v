(** Proofs about the on-sky flat as a whole. *)
From Coq Require Import List Arith Bool Reals ZArith Lia Lra String Ascii Permutation.
From Verif Require Import Base CombineModel CombineSpec CombineProofs ComboSpec ComboProofs FindModel FindProofs FlatModel FlatSpec FlatProofs.
Import ListNotations.
Local Open Scope R_scope.

Definition params (a : args) (f0 : frame) : result (option R * option R) :=
  do planet <- match a_planet a with Some p => Ok p | None => getkey (f_target f0) end;
  do band <- match a_band a with Some b => Ok b | None => getkey (f_ext f0 "CFAMNAME"%string) end;
  do mask <- band_mask (a_mask a) band;
  Ok (planet_radius (a_rad a) planet, mask).
Lemma planet_one : forall a f s t, planet_is a f s -> planet_is a f t -> s = t.
Proof. intros a f s t [H|(H & H')] [K|(K & K')]; congruence. Qed.
Lemma band_one : forall a f s t, band_is a f s -> band_is a f t -> s = t.
Proof. intros a f s t [H|(H & H')] [K|(K & K')]; congruence. Qed.
Lemma radius_iff : forall a s rad, radius_is a s rad <-> planet_radius (a_rad a) s = Some rad.
Proof.
  intros a s rad. unfold radius_is, planet_radius. destruct (a_rad a) as [r|].
  - split; [intros [H|(H & _)]; congruence|auto].
  - destruct (String.eqb_spec (lower s) "neptune") as [E|E]; [|destruct (String.eqb_spec (lower s) "uranus") as [E'|E']].
    + split; [intros [H|(_ & [(_ & ->)|(K & _)])]; [discriminate H|reflexivity|congruence]|intros H; injection H as <-; right; auto].
    + split; [intros [H|(_ & [(K & _)|(_ & ->)])]; [discriminate H|congruence|reflexivity]|intros H; injection H as <-; right; auto].
    + split; [intros [H|(_ & [(K & _)|(K & _)])]; congruence|discriminate].
Qed.
Lemma radius_one : forall a s r r', radius_is a s r -> radius_is a s r' -> r = r'.
Proof. intros a s r r' H K. apply radius_iff in H, K. congruence. Qed.
Lemma size_one : forall a f n m, size_is a f n -> size_is a f m -> n = m.
Proof. intros a f n m [H|(H & ->)] [K|(K & ->)]; congruence. Qed.
Lemma no_radius : forall a s, planet_radius (a_rad a) s = None <-> forall rad, ~ radius_is a s rad.
Proof. intros a s. split; [intros H rad K; apply radius_iff in K; congruence|]. intros H. destruct (planet_radius (a_rad a) s) as [r|] eqn:E; [|reflexivity]. destruct (H r). apply radius_iff. exact E. Qed.
Lemma mask_iff : forall a b, (exists m, band_mask (a_mask a) b = Ok (Some m)) <-> mask_known a b.
Proof.
  intros a b. unfold mask_known, band_mask. destruct (a_mask a) as [m|]; [split; [left; discriminate|intros _; eexists; reflexivity]|].
  destruct b as [|c t]; [split; [intros (m & H); discriminate H|intros [H|(t & [H|H])]; congruence]|]. destruct (Ascii.eqb_spec c "1") as [->|E]; [|destruct (Ascii.eqb_spec c "4") as [->|E']].
  - split; [intros _; right; exists t; auto|intros _; eexists; reflexivity].
  - split; [intros _; right; exists t; auto|intros _; eexists; reflexivity].
  - split; [intros (m & H); discriminate H|intros [H|(u & [H|H])]; [congruence| |]; injection H as H _; contradiction].
Qed.
Lemma mask_raise : forall a b e, band_mask (a_mask a) b = Raise e <-> a_mask a = None /\ b = ""%string /\ e = IndexError.
Proof. intros a b e. unfold band_mask. destruct (a_mask a); [split; [discriminate|intros (H & _); discriminate H]|]. destruct b; [split; [intros H; injection H as <-; auto|intros (_ & _ & ->); reflexivity]|split; [discriminate|intros (_ & H & _); discriminate H]]. Qed.
Lemma mask_none : forall a b, band_mask (a_mask a) b = Ok None -> ~ mask_known a b.
Proof. intros a b H K. apply mask_iff in K. destruct K as (m & K). congruence. Qed.
Lemma params_cases : forall a f0, (exists planet band mask, planet_is a f0 planet /\ band_is a f0 band /\ band_mask (a_mask a) band = Ok mask /\ params a f0 = Ok (planet_radius (a_rad a) planet, mask))
  \/ (params a f0 = Raise KeyError /\ forall s, ~ planet_is a f0 s) \/ (params a f0 = Raise KeyError /\ (exists planet, planet_is a f0 planet) /\ forall s, ~ band_is a f0 s)
  \/ (params a f0 = Raise IndexError /\ (exists planet, planet_is a f0 planet) /\ band_is a f0 ""%string /\ a_mask a = None).
Proof.
  intros a f0. unfold params. assert (P : (exists p, planet_is a f0 p /\ match a_planet a with Some p => Ok p | None => getkey (f_target f0) end = Ok p) \/ ((forall s, ~ planet_is a f0 s) /\ match a_planet a with Some p => Ok p | None => getkey (f_target f0) end = Raise KeyError)).
  { unfold planet_is. destruct (a_planet a) as [p|]; [left; exists p; auto|]. destruct (f_target f0) as [p|]; [left; exists p; auto|right; split; [intros s [H|(_ & H)]; discriminate H|reflexivity]]. }
  destruct P as [(p & P & ->)|(P & ->)]; cbn [bind]; [|right; left; auto].
  assert (B : (exists p, band_is a f0 p /\ match a_band a with Some b => Ok b | None => getkey (f_ext f0 "CFAMNAME"%string) end = Ok p) \/ ((forall s, ~ band_is a f0 s) /\ match a_band a with Some b => Ok b | None => getkey (f_ext f0 "CFAMNAME"%string) end = Raise KeyError)).
  { unfold band_is. destruct (a_band a) as [b|]; [left; exists b; auto|]. destruct (f_ext f0 "CFAMNAME"%string) as [b|]; [left; exists b; auto|right; split; [intros s [H|(_ & H)]; discriminate H|reflexivity]]. }
  destruct B as [(b & B & ->)|(B & ->)]; cbn [bind]; [|right; right; left; eauto]. destruct (band_mask (a_mask a) b) as [m|e] eqn:E; cbn [bind]; [left; exists p, b, m; auto|]. apply mask_raise in E. destruct E as (E1 & -> & ->). right; right; right. eauto.
Qed.

(** ** Headers *)
Lemma relabel_snoc : forall l f h, relabel (l ++ [f]) h = l ++ [mkframe (f_img f) (f_target f) h].
Proof. induction l as [|g l IH]; intros f h; [reflexivity|]. cbn [app relabel]. rewrite IH. destruct (l ++ [f]) eqn:E; [destruct l; discriminate E|reflexivity]. Qed.
Lemma cards_labelled : forall h h', flat_cards h = Ok h' -> labelled h h'.
Proof.
  intros h h' H. unfold flat_cards in H. destruct (h "EXPTIME"%string) eqn:EX; cbn [getkey bind] in H; [|discriminate H]. injection H as <-. unfold labelled, setcard. cbn [String.eqb Ascii.eqb Bool.eqb]. split; [congruence|]. repeat split. intros k A B C. destruct (String.eqb_spec k "DATALVL"); [congruence|]. destruct (String.eqb_spec k "BUNIT"); [congruence|]. destruct (String.eqb_spec k "DATATYPE"); [congruence|reflexivity].
Qed.

Section Run.
Variable centre : img -> Z * Z.
Variable gauss : img -> img.
Notation cy f := (fst (centre f)).
Notation cx f := (snd (centre f)).
Notation onsky := (onsky centre gauss).
Definition shots (l m : list frame) : list (img * img) := combine (map f_img l) (map f_img m).
Lemma shots_shaped : forall a rad l m, Forall2 (keeps centre a rad) l m -> Forall shaped (shots l m).
Proof. intros a rad l m F. induction F as [|f g l m (C & _) F IH]; [constructor|]. constructor; [|exact IH]. exact (cleaned_shape centre gauss _ _ _ _ C). Qed.
Lemma shots_len : forall {P} l m, Forall2 P l m -> List.length (shots l m) = List.length l.
Proof. intros P l m F. unfold shots. rewrite combine_length, !map_length. induction F; cbn; lia. Qed.
Lemma shots_in : forall {P : frame -> frame -> Prop} l m q, Forall2 P l m -> In q (shots l m) -> exists f, In f l /\ fst q = f_img f.
Proof. intros P l m q F I. destruct q as (x, y). apply in_combine_l in I. apply in_map_iff in I. destruct I as (f & <- & I). exists f. auto. Qed.
Lemma in_shots : forall {P : frame -> frame -> Prop} l m f, Forall2 P l m -> In f l -> exists g, In (f_img f, g) (shots l m).
Proof. intros P l m f F. induction F as [|x y l m K F IH]; intros I; [destruct I|]. destruct I as [->|I]; [exists (f_img y); left; reflexivity|]. destruct (IH I) as (g & G). exists g. right. exact G. Qed.
Lemma alike_iff : forall {P : frame -> frame -> Prop} up l m, Forall2 P l m -> (alike_q centre up (shots l m) <-> alike centre up l).
Proof.
  intros P up l m F. split.
  - intros H f g If Ig. destruct (in_shots l m f F If) as (f' & I1). destruct (in_shots l m g F Ig) as (g' & I2). exact (H _ _ I1 I2).
  - intros H p q Ip Iq. destruct (shots_in l m p F Ip) as (f & I1 & ->). destruct (shots_in l m q F Iq) as (g & I2 & ->). exact (H f g I1 I2).
Qed.
Lemma fitting_iff : forall {P : frame -> frame -> Prop} up n l m, Forall2 P l m -> (Forall (fun jq => sized centre up n (snd jq)) (index (shots l m)) <-> fitting centre up n l).
Proof.
  intros P up n l m F. rewrite Forall_forall. split.
  - intros H f If. destruct (in_shots l m f F If) as (f' & I1). destruct (In_nth_error _ _ I1) as (j & J). assert (IJ : In (j, (f_img f, f')) (index (shots l m))) by (unfold index; apply (combine_seq_nth _ 0); exact J). exact (H _ IJ).
  - intros H (j, q) I. unfold index in I. apply in_combine_r in I. destruct (shots_in l m q F I) as (f & I1 & E). unfold sized. cbn [snd]. rewrite E. exact (H f I1).
Qed.
Lemma crops_shots : forall a {P : frame -> frame -> Prop} l m, Forall2 P l m ->
  map (fun p => crop (snd p) (f_img (fst p))) (combine m (map (fun f => around (a_up a) (cy (f_img f)) (cx (f_img f))) l)) = map (crop_of centre (a_up a)) (shots l m).
Proof. intros a P l m F. unfold shots. induction F as [|f g l m K F IH]; [reflexivity|]. cbn [map combine fst snd]. rewrite IH. reflexivity. Qed.
Lemma boxes_shots : forall a {P : frame -> frame -> Prop} l m, Forall2 P l m ->
  map snd (combine m (map (fun f => around (a_up a) (cy (f_img f)) (cx (f_img f))) l)) = map (fun jq => around (a_up a) (cy (fst (snd jq))) (cx (fst (snd jq)))) (index (shots l m)).
Proof.
  intros a P l m F. unfold index, shots. generalize 0%nat as k. induction F as [|f g l m K F IH]; intros k; [reflexivity|]. cbn [map combine List.length seq fst snd]. rewrite <- IH. reflexivity.
Qed.
Lemma combine_maps : forall {A B C} (f : A -> B) (g : A -> C) L, combine (map f L) (map g L) = map (fun x => (f x, g x)) L.
Proof. intros A B C f g L. induction L as [|x L IH]; [reflexivity|]. cbn. rewrite IH. reflexivity. Qed.
Lemma carried_all : forall up l N, Forall shaped l -> Forall (carried centre up (residual centre gauss up l N)) (index l).
Proof. intros up l N S. rewrite Forall_forall in *. intros (j, q) I. unfold index in I. apply in_combine_r in I. unfold carried, residual. cbn [fst snd divide rows cols]. exact (crop_shape _ _ _ (S q I)). Qed.
Lemma pad_border : forall a n, border_is a n (pad_of a n).
Proof. intros a n. unfold border_is, pad_of. destruct (a_pad a); [auto|right; split; [reflexivity|lia]]. Qed.

(** What happens once names and sizes are settled. *)
Definition size_of (a : args) (f0 : frame) : nat := match a_size a with Some n => n | None => rows (f_img f0) end.
Lemma size_ok : forall a f0, size_is a f0 (size_of a f0).
Proof. intros a f0. unfold size_is, size_of. destruct (a_size a); auto. Qed.
Definition body (a : args) (n : nat) (rad mask : option R) (l : list frame) : list frame * result product :=
  let '(l', r) := prepare centre a rad l in
  match (do bs <- r;
         do rs <- residuals gauss (map (fun p => crop (snd p) (f_img (fst p))) bs) (a_groups a);
         combine_rasters rad mask n (pad_of a n) (a_npix a) (combine (map snd bs) rs)) with
  | Raise e => (l', Raise e)
  | Ok (d, e) =>
    match rev l' with
    | [] => (l', Raise UnboundLocalError)
    | g :: _ => match flat_cards (f_ext g) with
                | Raise ex => (relabel l' (setcard "BUNIT" "None" (setcard "DATATYPE" "FlatField" (f_ext g))), Raise ex)
                | Ok h => (relabel l' h, Ok (mkproduct d e h))
                end
    end
  end.
Lemma onsky_eq : forall a f0 l, onsky a (f0 :: l) = match params a f0 with Raise e => (f0 :: l, Raise e) | Ok (rad, mask) => body a (size_of a f0) rad mask (f0 :: l) end.
Proof. reflexivity. Qed.
Lemma body_bad : forall a n mask f l, a_annulus a <> None -> body a n None mask (f :: l) = (f :: l, Raise TypeError).
Proof. intros a n mask f l H. unfold body. rewrite (prepare_bad _ _ _ _ H). reflexivity. Qed.
(** The values painted. *)
Definition drawn (a : args) (n : nat) (rad : R) (q : list (img * img)) : result (nat -> nat -> val) :=
  paint_all n rad (fun _ _ => Some 0) (map (item centre (a_up a) (residual centre gauss (a_up a) q (a_groups a))) (index q)).
Lemma combine_eq : forall o mask a n q, q <> [] -> combine_rasters o mask n (pad_of a n) (a_npix a) (map (item centre (a_up a) (residual centre gauss (a_up a) q (a_groups a))) (index q))
  = match mask, o with Some _, Some rad => do full <- drawn a n rad q; Ok (padded n (pad_of a n) (Some 1) (finish n (a_npix a) full), padded n (pad_of a n) (Some 0) (fun _ _ => Some 0)) | _, _ => Raise TypeError end.
Proof.
  intros o mask a n q N. unfold combine_rasters, drawn. destruct mask as [mk|], o as [rad|]; try reflexivity. destruct (paint_all _ _ _ _); cbn [bind]; [|reflexivity]. destruct q as [|x q]; [congruence|]. reflexivity.
Qed.
Lemma body_run : forall a n o mask l rad, l <> [] -> (o = Some rad \/ o = None /\ a_annulus a = None) -> exists m, Forall2 (keeps centre a rad) l m /\
  ((alike centre (a_up a) l -> a_groups a <> 0%nat /\ ~ exists k, List.length l = (a_groups a * k)%nat) /\ snd (body a n o mask l) = Raise ValueError /\ fst (body a n o mask l) = m
   \/ alike centre (a_up a) l /\ a_groups a = 0%nat /\ body a n o mask l = (m, Raise PyException)
   \/ (alike centre (a_up a) l /\ a_groups a <> 0%nat /\ exists k, List.length l = (a_groups a * k)%nat) /\
      ((mask = None \/ o = None) /\ body a n o mask l = (m, Raise TypeError)
       \/ (mask <> None /\ o = Some rad) /\ ~ fitting centre (a_up a) n l /\ body a n o mask l = (m, Raise ValueError)
       \/ (mask <> None /\ o = Some rad) /\ fitting centre (a_up a) n l /\ exists full l1 g, drawn a n rad (shots l m) = Ok full /\ m = l1 ++ [g] /\
          match flat_cards (f_ext g) with
          | Raise ex => body a n o mask l = (relabel m (setcard "BUNIT" "None" (setcard "DATATYPE" "FlatField" (f_ext g))), Raise ex)
          | Ok h => body a n o mask l = (relabel m h, Ok (mkproduct (padded n (pad_of a n) (Some 1) (finish n (a_npix a) full)) (padded n (pad_of a n) (Some 0) (fun _ _ => Some 0)) h))
          end)).
Proof.
  intros a n o mask l rad NL H. destruct (prepare_ok centre gauss a o rad l) as (m & PR & F); [tauto|]. exists m. split; [exact F|]. pose proof (shots_shaped _ _ _ _ F) as SH. pose proof (shots_len l m F) as LN. assert (NS : shots l m <> []) by (intros E; rewrite E in LN; destruct l; [congruence|discriminate LN]).
  pose proof (alike_iff (a_up a) l m F) as AL. unfold body. rewrite PR. cbn [bind]. rewrite (crops_shots a l m F). destruct (residuals_cases centre gauss (a_up a) (shots l m) (a_groups a) NS SH) as [(E & A & NZ & K)|[(E & A & Z)|(E & A)]]; rewrite E; cbn [bind].
  - rewrite LN in K. right; right. split; [split; [apply AL; exact A|split; assumption]|]. rewrite (boxes_shots a l m F), combine_maps. change (fun x : nat * (img * img) => (around (a_up a) (cy (fst (snd x))) (cx (fst (snd x))), residual centre gauss (a_up a) (shots l m) (a_groups a) x)) with (item centre (a_up a) (residual centre gauss (a_up a) (shots l m) (a_groups a))). rewrite (combine_eq _ _ _ _ _ NS).
    destruct mask as [mk|]; [|left; auto]. destruct H as [->|(-> & _)]; [|left; auto]. pose proof (carried_all (a_up a) (shots l m) (a_groups a) SH) as CA. pose proof (fitting_iff (a_up a) n l m F) as FI. destruct (drawn a n rad (shots l m)) as [full|e] eqn:D; cbn [bind].
    + right; right. split; [split; [discriminate|reflexivity]|]. split.
      * apply FI. assert (FD : Forall (fun jq : nat * (img * img) => sized centre (a_up a) n (snd jq)) (index (shots l m)) \/ ~ Forall (fun jq : nat * (img * img) => sized centre (a_up a) n (snd jq)) (index (shots l m))). { destruct (Forall_dec (fun jq : nat * (img * img) => sized centre (a_up a) n (snd jq))) with (l := index (shots l m)) as [Y|N]; [|left; exact Y|right; exact N]. intros x. unfold sized. decide equality; apply Nat.eq_dec. }
        destruct FD as [Y|N]; [exact Y|]. exfalso. apply N. rewrite Forall_forall. intros jq I. exact (paint_all_sized centre n (a_up a) rad _ _ _ _ CA D jq I).
      * destruct (rev m) as [|g r] eqn:RV; [exfalso; apply (f_equal (@rev _)) in RV; rewrite rev_involutive in RV; cbn in RV; subst m; inversion F; congruence|]. exists full, (rev r), g. split; [reflexivity|]. split; [apply (f_equal (@rev _)) in RV; rewrite rev_involutive in RV; exact RV|]. destruct (flat_cards (f_ext g)); reflexivity.
    + right; left. destruct (paint_all_bad centre n (a_up a) rad _ _ _ _ CA D) as (-> & NF). split; [split; [discriminate|reflexivity]|]. split; [intros K'; apply NF, FI; exact K'|reflexivity].
  - right; left. split; [apply AL; exact A|]. auto.
  - left. rewrite LN in A. split; [intros K; apply A, AL, K|]. auto.
Qed.

Lemma params_ok : forall a f0 rad mask, params a f0 = Ok (rad, mask) -> exists planet band, planet_is a f0 planet /\ band_is a f0 band /\ band_mask (a_mask a) band = Ok mask /\ rad = planet_radius (a_rad a) planet.
Proof. intros a f0 rad mask H. destruct (params_cases a f0) as [(p & b & m & P & B & M & E)|[(E & _)|[(E & _)|(E & _)]]]; try congruence. exists p, b. rewrite E in H. injection H as <- <-. auto. Qed.
Lemma value_forall : forall a n l ch r c, Forall shaped l -> alike_q centre (a_up a) l -> a_groups a <> 0%nat -> (exists k, List.length l = (a_groups a * k)%nat) -> (forall jq, In jq ch -> In jq (index l)) ->
  Forall2 (fun jq x => value_at centre gauss (a_groups a) (a_up a) n l (fst jq) (snd jq) r c x) ch
    (map (fun jq => pix (residual centre gauss (a_up a) l (a_groups a) jq) (r - start n (cy (fst (snd jq)) - a_up a)) (c - start n (cx (fst (snd jq)) - a_up a))) ch).
Proof.
  intros a n l ch r c S A NZ K I. induction ch as [|(j, q) ch IH]; cbn [map]; constructor; [|apply IH; intros x X; apply I; right; exact X]. cbn [fst snd]. apply residual_value; try assumption. apply (combine_seq_nth _ 0). exact (I _ (or_introl eq_refl)).
Qed.
Lemma sieve_sub : forall {A} (P : A -> Prop) l m, sieve P l m -> forall x, In x m -> In x l.
Proof. intros A P l m H. induction H as [|y l m Y H IH|y l m Y H IH]; intros x X; [destruct X| |right; exact (IH x X)]. destruct X as [->|X]; [left; reflexivity|right; exact (IH x X)]. Qed.
Lemma onsky_ok : forall a l l' p, onsky a l = (l', Ok p) -> flat_of centre gauss a l l' p.
Proof.
  intros a l l' p H. destruct l as [|f0 t]; [discriminate H|]. rewrite onsky_eq in H. destruct (params a f0) as [(o, mask)|] eqn:EP; [|discriminate H]. destruct (params_ok _ _ _ _ EP) as (planet & band & P & B & M & ->). set (l := f0 :: t) in *. assert (NL : l <> []) by discriminate.
  destruct (planet_radius (a_rad a) planet) as [rad|] eqn:ER.
  2:{ destruct (a_annulus a) as [x|] eqn:EA; [unfold l in H; rewrite body_bad in H by (rewrite EA; discriminate); discriminate H|]. destruct (body_run a (size_of a f0) None mask l 0 NL) as (m & _ & [(_ & E & _)|[(_ & _ & E)|(_ & [(_ & E)|[((_ & E) & _)|((_ & E) & _)]])]]); auto; try discriminate E; rewrite H in E; discriminate E. }
  destruct (body_run a (size_of a f0) (Some rad) mask l rad NL) as (m & F & [(_ & E & _)|[(_ & _ & E)|((AL & NZ & K) & [(_ & E)|[(_ & _ & E)|((MK & _) & FT & full & l1 & g & D & ML & E)]])]]); auto; try (rewrite H in E; discriminate E).
  destruct (flat_cards (f_ext g)) as [h|] eqn:FC; rewrite H in E; [|discriminate E]. injection E as -> ->. constructor. exists f0, planet, band, rad, (size_of a f0), (pad_of a (size_of a f0)). eexists.
  split; [reflexivity|]. split; [exact P|]. split; [exact B|]. split; [apply radius_iff; exact ER|]. split; [apply mask_iff; destruct mask as [mk|]; [exists mk; exact M|congruence]|]. split; [apply size_ok|]. split; [apply pad_border|]. cbn [p_ext p_data p_err].
  assert (IM : map f_img (relabel m h) = map f_img m) by (rewrite ML, relabel_snoc, !map_app; reflexivity).
  split.
  { destruct (Forall2_app_inv_r _ _ (eq_rect _ (fun z => Forall2 (keeps centre a rad) l z) F _ ML)) as (k1 & k2 & F1 & F2 & EL). inversion F2 as [|f g' k2' nil' (KC & KT & KE) F3 E1 E2]; subst. inversion F3; subst. rewrite relabel_snoc. constructor.
    - rewrite EL. apply Forall2_app; [|constructor; [cbn [f_img f_target]; split; assumption|constructor]]. clear -F1. induction F1 as [|x y k1 l1 (A & B & _) F1 IH]; constructor; auto.
    - exists k1, f, l1. eexists. split; [exact EL|]. split; [reflexivity|]. cbn [f_ext]. split; [clear -F1; induction F1 as [|x y k1 l1 (_ & _ & E) F1 IH]; cbn [map]; congruence|]. split; [reflexivity|]. rewrite <- KE. exact (cards_labelled _ _ FC). }
  split; [lia|]. split; [exact K|]. split; [exact AL|]. split; [exact FT|]. split; [reflexivity|]. rewrite IM. fold (shots l m). set (n := size_of a f0) in *. set (pad := pad_of a n) in *.
  split; [split; cbn [padded rows cols]; lia|]. split; [split; cbn [padded rows cols]; lia|]. split; [intros r c; cbn [padded pix]; destruct (_ && _)%bool; reflexivity|]. split.
  - intros r c NI. cbn [padded pix]. match goal with |- (if ?b then _ else _) = _ => destruct b eqn:EB; [|reflexivity] end. exfalso. apply NI. unfold inner. rewrite !andb_true_iff, !Nat.leb_le, !Nat.ltb_lt in EB. lia.
  - intros r c Hr Hc. cbn [padded pix]. replace ((pad <=? pad + r) && (pad + r <? pad + n) && (pad <=? pad + c) && (pad + c <? pad + n))%bool with true by (symmetry; rewrite !andb_true_iff, !Nat.leb_le, !Nat.ltb_lt; lia).
    replace (pad + r - pad)%nat with r by lia. replace (pad + c - pad)%nat with c by lia. unfold pixel_of, finish. destruct (Rlt_dec (a_npix a) (sqrt ((INR c - INR n / 2) ^ 2 + (INR r - INR n / 2) ^ 2))) as [L|L]; [split; [reflexivity|lra]|]. split; [lra|]. intros _.
    destruct (paint_all_spec centre gauss n (a_up a) rad _ r c _ _ _ [] D st_none) as (ch & SV & ST). eexists ch, _, (full r c). split; [exact SV|]. split; [apply value_forall; [exact (shots_shaped _ _ _ _ F)|apply (alike_iff _ l m F); exact AL|exact NZ|rewrite (shots_len l m F); exact K|intros jq J; exact (sieve_sub _ _ _ SV jq J)]|]. split; [exact ST|].
    destruct (is_zero (full r c)) eqn:Z; [apply is_zero_iff in Z; split; [reflexivity|congruence]|]. split; [intros Q; apply is_zero_iff in Q; congruence|reflexivity].
Qed.
Lemma onsky_raise : forall a l l' e, onsky a l = (l', Raise e) -> fails centre a l e.
Proof.
  intros a l l' e H. destruct l as [|f0 t]; [injection H as _ <-; apply fl_none; reflexivity|]. rewrite onsky_eq in H. destruct (params_cases a f0) as [(planet & band & mask & P & B & M & E)|[(E & N)|[(E & (p & P) & N)|(E & (p & P) & B & M)]]]; rewrite E in H.
  2:{ injection H as _ <-. exact (fl_planet _ _ (f0 :: t) f0 eq_refl N). }
  2:{ injection H as _ <-. exact (fl_band _ _ (f0 :: t) f0 p eq_refl P N). }
  2:{ injection H as _ <-. exact (fl_noband _ _ (f0 :: t) f0 p eq_refl P B M). }
  assert (NB : a_mask a = None -> band <> ""%string). { intros Z K. assert (band_mask (a_mask a) band = Raise IndexError) by (apply mask_raise; auto). congruence. }
  set (l := f0 :: t) in *. assert (NL : l <> []) by discriminate. assert (HD : hd_error l = Some f0) by reflexivity.
  destruct (planet_radius (a_rad a) planet) as [rad|] eqn:ER.
  - assert (RI : radius_is a planet rad) by (apply radius_iff; exact ER). assert (RX : (forall r, ~ radius_is a planet r) -> a_annulus a = None) by (intros Q; destruct (Q rad RI)).
    destruct (body_run a (size_of a f0) (Some rad) mask l rad NL) as (m & F & [(A & E' & _)|[(A & Z & E')|((AL & NZ & K) & [(MO & E')|[((MK & _) & NF & E')|((MK & _) & FT & full & l1 & g & D & ML & E')]])]]); auto; rewrite H in E'.
    + cbn in E'. injection E' as ->. exact (fl_groups _ _ _ f0 planet band HD P B NB RX A).
    + injection E' as _ ->. exact (fl_zero _ _ _ f0 planet band HD P B NB RX A Z).
    + injection E' as _ ->. apply (fl_names _ _ _ f0 planet band HD P B NB RX AL NZ K). right. destruct MO as [->|MO]; [exact (mask_none _ _ M)|discriminate MO].
    + injection E' as _ ->. apply (fl_size _ _ _ f0 planet band rad (size_of a f0) HD P B RI); try assumption; [|apply size_ok]. apply mask_iff. destruct mask as [mk|]; [exists mk; exact M|congruence].
    + destruct (flat_cards (f_ext g)) as [h|ex] eqn:FC; [discriminate E'|]. injection E' as _ ->. unfold flat_cards in FC. destruct (f_ext g "EXPTIME"%string) eqn:EX; cbn [getkey bind] in FC; [discriminate FC|]. injection FC as <-.
      destruct (Forall2_app_inv_r _ _ (eq_rect _ (fun z => Forall2 (keeps centre a rad) l z) F _ ML)) as (k1 & k2 & F1 & F2 & EL). inversion F2 as [|f g' k2' nil' (KC & KT & KE) F3 E1 E2]. inversion F3. subst k2'. rewrite <- E1 in EL. apply (fl_exptime _ _ _ f0 planet band rad (size_of a f0) k1 f HD P B RI); try assumption; [|apply size_ok|congruence]. apply mask_iff. destruct mask as [mk|]; [exists mk; exact M|congruence].
  - assert (RN : forall r, ~ radius_is a planet r) by (apply no_radius; exact ER). destruct (a_annulus a) as [x|] eqn:EA.
    + unfold l in H. rewrite body_bad in H by (rewrite EA; discriminate). injection H as _ <-. apply (fl_sky _ _ _ f0 planet band HD P B NB RN). rewrite EA. discriminate.
    + assert (RX : (forall r, ~ radius_is a planet r) -> a_annulus a = None) by auto. destruct (body_run a (size_of a f0) None mask l 0 NL) as (m & F & [(A & E' & _)|[(A & Z & E')|((AL & NZ & K) & [(MO & E')|[((_ & Q) & _)|((_ & Q) & _)]])]]); auto; try discriminate Q; rewrite H in E'.
      * cbn in E'. injection E' as ->. exact (fl_groups _ _ _ f0 planet band HD P B NB RX A).
      * injection E' as _ ->. exact (fl_zero _ _ _ f0 planet band HD P B NB RX A Z).
      * injection E' as _ ->. apply (fl_names _ _ _ f0 planet band HD P B NB RX AL NZ K). left. exact RN.
Qed.
End Run.
