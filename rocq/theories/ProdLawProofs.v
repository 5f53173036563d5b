(** Laws of reading and writing calibration products. *)
From Coq Require Import List Arith Bool String Ascii ZArith QArith Lia.
From Verif Require Import Base DiskModel DiskSpec DiskProofs DiskLawProofs ProdModel ProdSpec ProdTextProofs ProdProofs.
Import ListNotations.
Local Open Scope nat_scope.
Local Open Scope string_scope.
Local Open Scope list_scope.

Section Prod.
Context {E : Type}.
Variable zero : E.
Variable is_nan : E -> bool.
Notation arr := (arr E).
Notation hdu := (hdu E).
Notation image := (image E).
Notation file := (file E).
Notation prod := (prod E).

Theorem exclusive : forall track c c' p (f : file) y y', load_as zero is_nan track c p f = Ok y -> load_as zero is_nan track c' p f = Ok y' -> c <> CImage -> c' <> CImage -> c = c'.
Proof using.
  intros track c c' p f y y' H H' N N'. apply load_as_iff in H, H'. destruct H as (x & L & _ & [C|C] & _); [contradiction|]. destruct H' as (x' & L' & _ & [C'|C'] & _); [contradiction|]. rewrite L in L'. injection L' as <-. rewrite C in C'. injection C' as C'. exact (named_inj _ _ C').
Qed.
Lemma has_extra : forall c (f : file) x, fits is_nan c x -> (c = CKGain -> 3 <= List.length (f_hdus f)) -> exists m, extra c f x m.
Proof using.
  intros c f x F K. destruct c; cbn; try (exists MNone; reflexivity).
  - destruct (f_hdus f) as [|y0 [|y1 [|y2 r]]]; try (exfalso; specialize (K eq_refl); cbn in K; lia). eexists. exists y0, y1, y2, r. split; reflexivity.
  - destruct (proj1 (par_all (par_value (i_ext x)) parameters) F) as (l & P). exists (MPars l), l. auto.
  - destruct F as (_ & (s & B) & G & _). destruct (get "CFAMNAME" (i_ext x)) as [v|] eqn:Q; [|contradiction]. eexists. exists s, v. auto.
Qed.
Theorem refused : forall track c p (f : file) x, load_image zero track p f None None None None None = Ok x -> fits is_nan c x -> (c = CKGain -> 3 <= List.length (f_hdus f)) ->
  (exists y, load_as zero is_nan track c p f = Ok y) /\ labelled c x \/ load_as zero is_nan track c p f = Raise ValueError /\ ~ labelled c x.
Proof using.
  intros track c p f x L F K. assert (D : labelled c x \/ ~ labelled c x /\ get "DATATYPE" (i_ext x) <> Some (HS (named c))).
  { unfold labelled. destruct c; try (left; left; reflexivity); (destruct (get "DATATYPE" (i_ext x)) as [[| | |s|]|]; try (right; split; [intros [H|H]; discriminate|discriminate])); (match goal with |- context [named ?c] => destruct (string_dec s (named c)) as [->|NS]; [left; right; reflexivity|right; split; [intros [H|H]; [discriminate|injection H as H; contradiction]|intros H; injection H as H; contradiction]] end). }
  destruct D as [D|(D & N)].
  - left. split; [|exact D]. destruct (has_extra c f x F K) as (m & X). exists (mk c x m). apply load_as_iff. exists x. split; [exact L|]. split; [exact F|]. split; [exact D|]. apply loaded_iff. exists m. auto.
  - right. split; [|exact D]. unfold load_as. rewrite L. cbn [bind]. destruct c.
    + exfalso. apply D. left. reflexivity.
    + rewrite check_raises; [reflexivity|]. cbn [with_ext i_ext]. rewrite set_new_get. exact N.
    + rewrite check_raises; [reflexivity|exact N].
    + rewrite (proj2 (nonlin_iff is_nan x) F). cbn [bind]. rewrite check_raises; [reflexivity|exact N].
    + match goal with |- context [fit_kgain ?X] => replace (fit_kgain X) with (fit_kgain x) by reflexivity end. rewrite (proj2 (kgain_iff is_nan x) F). cbn [bind]. destruct (f_hdus f) as [|y0 [|y1 [|y2 r]]]; try (exfalso; specialize (K eq_refl); cbn in K; lia). cbn [nth_error]. rewrite check_raises; [reflexivity|]. cbn [with_ext i_ext]. rewrite !set_new_get. exact N.
    + rewrite check_raises; [reflexivity|exact N].
    + apply dnm_iff in F. destruct F as (F & M). rewrite F. cbn [bind]. rewrite check_raises; [reflexivity|exact N].
    + rewrite check_raises; [reflexivity|exact N].
    + rewrite (proj2 (astrom_iff is_nan x) F). cbn [bind]. rewrite check_raises; [reflexivity|exact N].
    + rewrite check_raises; [reflexivity|exact N].
    + destruct (has_extra CFlux f x F K) as (m & s & v & B & G & _). destruct (proj2 (flux_iff is_nan x (if String.prefix "ND" s then s else "ND0", v))) as (FF & V); [split; [exact F|]; exists s, v; auto|]. rewrite FF. cbn [bind]. rewrite check_raises; [reflexivity|exact N].
    + rewrite check_raises; [reflexivity|exact N].
    + rewrite (proj2 (ct_iff is_nan x) F). cbn [bind]. rewrite check_raises; [reflexivity|exact N].
    + rewrite (proj2 (nd_iff is_nan x) F). cbn [bind]. rewrite check_raises; [reflexivity|exact N].
Qed.

(** ** Reading by the label *)
Definition key (c : cls) : string := match c with CNd => "NDFilterSweetSpot" | _ => named c end.
Lemma class_of_iff : forall k c, class_of k datatypes = Some c <-> k = key c.
Proof using.
  intros k c. split.
  - unfold datatypes. cbn [class_of]. repeat (match goal with |- (if String.eqb ?a k then _ else _) = _ -> _ => destruct (String.eqb a k) eqn:?Q; [intros H; injection H as <-; match goal with Q : _ = true |- _ => apply String.eqb_eq in Q; symmetry; exact Q end|] end). discriminate.
  - intros ->. destruct c; reflexivity.
Qed.
Theorem autoload_iff : forall track p (f : file) y, autoload zero is_nan track p f = Ok y <->
  exists h t c, f_hdus f = h :: t /\ taken c h /\ load_as zero is_nan track c p f = Ok y.
Proof using.
  intros track p f y. unfold autoload, taken. destruct (f_hdus f) as [|h t]; [split; [discriminate|intros (? & ? & ? & H & _); discriminate]|]. rewrite bind_iff. split.
  - intros (k & K & H). destruct (class_of k datatypes) as [c|] eqn:Q; [|discriminate]. exists h, t, c. split; [reflexivity|]. split; [|exact H]. apply class_of_iff in Q. subst k. destruct (get "DATATYPE" (h_hdr h)) as [[| | |s|]|]; try discriminate; [injection K as ->; left; reflexivity|]. destruct (Nat.eqb _ 2) eqn:N; [|discriminate]. apply Nat.eqb_eq in N. injection K as K. right. split; [reflexivity|]. split; [exact N|]. destruct c; try discriminate. reflexivity.
  - intros (h' & t' & c & H & T & L). injection H as <- <-. exists (key c). split; [|rewrite (proj2 (class_of_iff _ c) eq_refl); exact L]. destruct T as [T|(T & N & ->)]; rewrite T; [reflexivity|]. rewrite N. reflexivity.
Qed.
(** The four ways autoload itself fails *)
Theorem autoload_raises : forall track p (f : file),
  (f_hdus f = [] -> autoload zero is_nan track p f = Raise IndexError)
  /\ (forall h t, f_hdus f = h :: t -> get "DATATYPE" (h_hdr h) = None -> List.length (shp (h_data h)) <> 2 -> autoload zero is_nan track p f = Raise UnboundLocalError)
  /\ (forall h t, f_hdus f = h :: t -> get "DATATYPE" (h_hdr h) <> None -> (forall c, get "DATATYPE" (h_hdr h) <> Some (HS (match c with CNd => "NDFilterSweetSpot" | _ => named c end))) -> autoload zero is_nan track p f = Raise KeyError)
  /\ (forall h t c, f_hdus f = h :: t -> taken c h -> autoload zero is_nan track p f = load_as zero is_nan track c p f).
Proof using.
  intros track p f. unfold autoload. split; [intros ->; reflexivity|]. split; [|split].
  - intros h t -> G N. rewrite G. apply Nat.eqb_neq in N. rewrite N. reflexivity.
  - intros h t -> G N. destruct (get "DATATYPE" (h_hdr h)) as [[| | |s|]|]; try reflexivity; [|contradiction]. cbn [bind]. destruct (class_of s datatypes) as [c|] eqn:Q; [|reflexivity]. apply class_of_iff in Q. subst s. exfalso. exact (N c eq_refl).
  - intros h t c -> T. destruct T as [T|(T & N & ->)]; rewrite T; [cbn [bind]; rewrite (proj2 (class_of_iff (match c with CNd => "NDFilterSweetSpot" | _ => named c end) c) eq_refl); reflexivity|]. rewrite N. reflexivity.
Qed.
Lemma load_ext : forall track p (f : file) x, load_image zero track p f None None None None None = Ok x -> exists h t, f_hdus f = h :: t /\ i_ext x = stamped (h_hdr h) /\ i_data x = h_data h.
Proof using. intros track p f x L. apply load_iff in L. destruct L as (h & l & er & eh & l1 & d & dh & l2 & dir & name & F & _ & _ & _ & (h' & _ & _ & A & B & _)). exists h, l. auto. Qed.
Lemma stamp_type : forall h, get "DATATYPE" (stamped h) = get "DATATYPE" h.
Proof using. intros h. rewrite stamped_get. destruct (get "DATATYPE" h); reflexivity. Qed.
Theorem nd_never : forall track p (f : file) y, autoload zero is_nan track p f = Ok y -> p_cls y <> CNd.
Proof using.
  intros track p f y H. apply autoload_iff in H. destruct H as (h & t & c & F & T & L). apply load_as_iff in L. destruct L as (x & L & _ & C & D). destruct D as (-> & _). intros ->. destruct C as [C|C]; [discriminate|]. destruct (load_ext _ _ _ _ L) as (h' & t' & F' & X & _). rewrite F in F'. injection F' as <- <-. rewrite X, stamp_type in C. destruct T as [T|(_ & _ & T)]; [|discriminate]. rewrite T in C. discriminate.
Qed.

(** ** What a product satisfies *)
Definition keys : list string := ["EXTNAME"; "FPAMNAME"; "FSAMNAME"; "CFAMNAME"; "B_O"; "B_O_ERR"] ++ flat_map (fun e => fst (fst e) :: match snd e with Some o => [o] | None => [] end) parameters.
Lemma fits_same : forall c (x z : image), i_data z = i_data x -> i_err z = i_err x -> i_dq z = i_dq x -> i_list z = i_list x -> (forall k, In k keys -> get k (i_ext z) = get k (i_ext x)) -> fits is_nan c x -> fits is_nan c z.
Proof using.
  intros c x z D R Q L K F. destruct c; cbn [fits] in *; rewrite ?D, ?R, ?Q, ?L; try exact F.
  - rewrite !K by (cbn [keys app In]; auto 12). exact F.
  - intros e I. destruct (F e I) as (p & P). exists p. apply (par_value_same (i_ext x)); [|exact P]. intros k C. apply K. apply in_or_app. right. apply in_flat_map. exists e. split; [exact I|]. destruct C as [->|C]; [left; reflexivity|]. destruct (snd e); [|discriminate]. injection C as ->. right. left. reflexivity.
  - unfold band_card in *. rewrite !K by (cbn [keys app In]; auto 12). exact F.
  - rewrite K by (cbn [keys app In]; auto 12). exact F.
Qed.
Lemma fits_congr : forall c (x z : image), i_data z = i_data x -> i_err z = i_err x -> i_dq z = i_dq x -> i_list z = i_list x -> i_ext z = i_ext x -> fits is_nan c x -> fits is_nan c z.
Proof using. intros c x z D R Q L X F. apply (fits_same c x z); auto; intros k _; rewrite X; reflexivity. Qed.
Lemma ext_of_get : forall c h k, get k (ext_of c h) = match get k h with Some v => if andb (match c with CParams => true | _ => false end) (String.eqb k "EMGAIN_C") then (match get "CMDGAIN" h with Some w => Some w | None => Some v end) else Some v | None => if andb (match c with CParams => true | _ => false end) (String.eqb k "EMGAIN_C") then get "CMDGAIN" h else fallback c k end.
Proof using.
  intros c h k. destruct c; cbn [ext_of fallback andb]; try (destruct (get k h); reflexivity).
  - rewrite set_new_get. rewrite (String.eqb_sym k). destruct (String.eqb "PC_STAT" k) eqn:Q; [apply String.eqb_eq in Q; subst k|]; destruct (get _ h); reflexivity.
  - rewrite set_new_get. rewrite !(String.eqb_sym k). destruct (String.eqb "RN_ERR" k) eqn:Q; [apply String.eqb_eq in Q; subst k; rewrite set_new_get; cbn [String.eqb Ascii.eqb Bool.eqb orb]; destruct (get "RN_ERR" h); reflexivity|]. rewrite set_new_get. destruct (String.eqb "RN" k) eqn:Q2; [apply String.eqb_eq in Q2; subst k|]; cbn [orb]; destruct (get _ h); reflexivity.
  - rewrite (String.eqb_sym k). destruct (get "CMDGAIN" h) as [w|] eqn:G; [rewrite get_set|]; destruct (String.eqb "EMGAIN_C" k); destruct (get k h); reflexivity.
Qed.
Lemma ext_of_twice : forall c h, ext_of c (ext_of c h) = ext_of c h.
Proof using.
  intros c h. destruct c; try reflexivity; cbn [ext_of].
  - apply set_new_same. rewrite set_new_get. cbn. destruct (get "PC_STAT" h); discriminate.
  - rewrite (set_new_same "RN"); [apply set_new_same|]; rewrite ?set_new_get; cbn [String.eqb Ascii.eqb Bool.eqb]; [destruct (get "RN_ERR" _); discriminate|]. destruct (get "RN" h); discriminate.
  - destruct (get "CMDGAIN" h) as [w|] eqn:G; [|rewrite G; reflexivity]. rewrite get_set. cbn [String.eqb Ascii.eqb Bool.eqb]. rewrite G. apply set_same. rewrite get_set. reflexivity.
Qed.
Lemma pri_of_twice : forall c h, pri_of c (pri_of c h) = pri_of c h.
Proof using. intros c h. destruct c; try reflexivity. cbn [pri_of]. destruct (get "OBSID" h) as [w|] eqn:G; [|rewrite G; reflexivity]. rewrite get_set. cbn [String.eqb Ascii.eqb Bool.eqb]. rewrite G. apply set_same. rewrite get_set. reflexivity. Qed.
Lemma ext_of_type : forall c h, get "DATATYPE" (ext_of c h) = get "DATATYPE" h.
Proof using. intros c h. rewrite ext_of_get. destruct c; destruct (get "DATATYPE" h); reflexivity. Qed.
Lemma ready_mk : forall track c (x : image) m, ready track x -> ready track (p_img (mk c x m)).
Proof using.
  intros track c x m R. destruct R as [R1 R2 R3 R4 (R5 & R6 & R7) R8 R9]. assert (X : forall k, get k (i_ext x) <> None -> k <> "EMGAIN_C" -> get k (ext_of c (i_ext x)) <> None). { intros k G N. rewrite ext_of_get. destruct (get k (i_ext x)); [|contradiction]. destruct (andb _ _) eqn:Q; [|discriminate]. apply andb_true_iff in Q. destruct Q as (_ & Q). apply String.eqb_eq in Q. contradiction. }
  constructor; cbn [mk p_img i_errh i_dqh i_ext i_pri i_err i_data]; unfold get; cbn [rem cards]; try assumption.
  - repeat split; apply X; (assumption || discriminate).
  - destruct c; try assumption. cbn [pri_of]. fold (get "OBSID" (i_pri x)). destruct (get "OBSID" (i_pri x)); [|assumption]. fold (get "ORIGIN" (set "OBSNUM" h (i_pri x))). rewrite get_set. exact R8.
Qed.
Lemma keys_kept : forall c h k, In k keys -> get k (ext_of c h) = get k h.
Proof using.
  intros c h k I. rewrite ext_of_get. assert (A : String.eqb k "EMGAIN_C" = false /\ fallback c k = None).
  { cbn in I. repeat destruct I as [I|I]; try contradiction; subst k; destruct c; split; reflexivity. }
  destruct A as (A & B). rewrite A, B, andb_false_r. destruct (get k h); reflexivity.
Qed.
Lemma par_keys : forall c h l, Forall2 (par_value h) parameters l -> Forall2 (par_value (ext_of c h)) parameters l.
Proof using.
  intros c h l. assert (Q : forall t l, incl t parameters -> Forall2 (par_value h) t l -> Forall2 (par_value (ext_of c h)) t l).
  { induction t as [|e t IH]; intros l0 I F; inversion F as [|? p ? r P T]; subst; [constructor|]. constructor; [|apply IH; [intros z Z; apply I; right; exact Z|exact T]]. apply (par_value_same h); [|exact P]. intros k C. apply keys_kept. apply in_or_app. right. apply in_flat_map. exists e. split; [apply I; left; reflexivity|]. destruct C as [->|C]; [left; reflexivity|]. destruct (snd e); [|discriminate]. injection C as ->. right. left. reflexivity. }
  apply Q. apply incl_refl.
Qed.
(** the frame completed by what its class adds is a product *)
Lemma mk_sound : forall track c (x : image) m, ready track x -> fits is_nan c x -> labelled c x -> (exists f, extra c f x m) -> sound is_nan track (mk c x m).
Proof using.
  intros track c x m R F C (f & X). constructor; cbn [mk p_cls p_more].
  - apply (ready_mk track c x m R).
  - apply (fits_same c x); try reflexivity; [|exact F]. intros k I. cbn [mk p_img i_ext]. apply keys_kept. exact I.
  - unfold labelled in *. cbn [mk p_img i_ext]. rewrite ext_of_type. exact C.
  - cbn [p_img i_ext]. apply ext_of_twice.
  - cbn [p_img i_pri]. apply pri_of_twice.
  - destruct c; cbn in X; try exact X.
    + destruct X as (y0 & y1 & y2 & r & _ & ->). exists (set "EXTNAME" (HS "PTC") (h_hdr y2)), (h_data y2). split; [reflexivity|]. rewrite get_set. reflexivity.
    + destruct X as (l & P & ->). exists l. split; [apply (par_keys CParams); exact P|reflexivity].
Qed.
Theorem loaded_sound : forall track c p (f : file) y, load_as zero is_nan track c p f = Ok y -> p_cls y = c /\ sound is_nan track y.
Proof using.
  intros track c p f y H. apply load_as_iff in H. destruct H as (x & L & F & C & D). apply loaded_iff in D. destruct D as (m & X & ->). pose proof (load_ready _ _ _ _ _ _ _ _ _ _ L) as R. split; [reflexivity|]. apply mk_sound; [exact R|exact F|exact C|exists f; exact X].
Qed.

(** ** Writing, and reading what was written *)
Lemma saved_prod : forall dir name (y y' : prod) p f, save_prod dir name y = (y', Ok (p, f)) ->
  p_cls y' = p_cls y /\ p_more y' = p_more y /\ p_img y' = place dir name (p_img y) /\ i_file (p_img y') <> EmptyString /\ p = path_join (i_dir (p_img y')) (i_file (p_img y'))
  /\ f_pri f = i_pri (p_img y) /\ f_hdus f = mkhdu (i_ext (p_img y)) (i_data (p_img y)) :: mkhdu (i_errh (p_img y)) (i_err (p_img y)) :: match p_cls y, p_more y with CKGain, MPtc h a => [mkhdu h a] | _, _ => mkhdu (i_dqh (p_img y)) (i_dq (p_img y)) :: i_list (p_img y) end.
Proof using.
  intros dir name y y' p f H. unfold save_prod in H. apply pair_equal_spec in H. destruct H as (<- & H). destruct (String.eqb _ EmptyString) eqn:Q; [discriminate|]. injection H as <- <-. cbn [p_cls p_more p_img]. split; [reflexivity|]. split; [reflexivity|]. split; [reflexivity|]. split; [intros Z; rewrite Z in Q; discriminate|]. split; [reflexivity|]. destruct (p_cls y); try (split; reflexivity). destruct (p_more y); split; reflexivity.
Qed.
Theorem save_prod_raises : forall dir name (y y' : prod) e, save_prod dir name y = (y', Raise e) <-> e = ValueError /\ (match name with Some n => n | None => i_file (p_img y) end) = EmptyString /\ p_cls y' = p_cls y /\ p_more y' = p_more y /\ p_img y' = place dir name (p_img y).
Proof using.
  intros dir name y y' e. unfold save_prod. rewrite pair_equal_spec. change (i_file (place dir name (p_img y))) with (match name with Some n => n | None => i_file (p_img y) end). split.
  - intros (<- & H). destruct (String.eqb _ EmptyString) eqn:Q; [|discriminate]. apply String.eqb_eq in Q. injection H as <-. auto.
  - intros (-> & Z & A & B & C). split; [destruct y' as [c i m]; cbn in *; subst; reflexivity|]. rewrite Z. reflexivity.
Qed.
Lemma kgain_reload : forall track (y : prod) p h a, sound is_nan track y -> p_more y = MPtc h a -> p_cls y = CKGain ->
  exists z, load_image zero track p (mkfile (i_pri (p_img y)) [mkhdu (i_ext (p_img y)) (i_data (p_img y)); mkhdu (i_errh (p_img y)) (i_err (p_img y)); mkhdu h a]) None None None None None = Ok z
  /\ i_pri z = i_pri (p_img y) /\ i_ext z = i_ext (p_img y) /\ i_data z = i_data (p_img y) /\ i_err z = i_err (p_img y) /\ i_errh z = i_errh (p_img y)
  /\ all_zero zero (shp (i_data (p_img y))) (i_dq z) /\ i_dqh z = set "EXTNAME" (HS "DQ") blank /\ i_list z = [mkhdu h a] /\ splits p (i_dir z) (i_file z).
Proof using.
  intros track y p h a S M K. pose proof (sd_ready _ _ _ S) as R. pose proof (sd_more _ _ _ S) as D. rewrite K in D. destruct D as (h' & a' & M' & G). rewrite M in M'. injection M' as <- <-. set (x := p_img y) in *.
  assert (NE : h_name (mkhdu (i_errh x) (i_err x)) = "ERR") by (unfold h_name; cbn [h_hdr]; rewrite (rd_err _ _ R); reflexivity). assert (NP : h_name (mkhdu h a) = "PTC") by (unfold h_name; cbn [h_hdr]; rewrite G; reflexivity).
  destruct (dir_name p) as [d n] eqn:DN. apply dir_name_iff in DN. exists (mkim (i_pri x) (i_ext x) (i_data x) (i_err x) (i_errh x) (zeros E zero (shp (i_data x))) (set "EXTNAME" (HS "DQ") blank) [mkhdu h a] ["ERR"; "PTC"] d n). split; [|cbn; split; [reflexivity|]; do 4 (split; [reflexivity|]); split; [apply zeros_iff; reflexivity|auto]].
  apply load_iff. exists (mkhdu (i_ext x) (i_data x)), [mkhdu (i_errh x) (i_err x); mkhdu h a], (i_err x), (Some (i_errh x)), [mkhdu h a], (zeros E zero (shp (i_data x))), None, [mkhdu h a], d, n. cbn [f_hdus f_pri h_data h_hdr map]. rewrite NE, NP. split; [reflexivity|]. split; [|split; [|split; [exact DN|]]].
  - right. split; [reflexivity|]. split; [left; reflexivity|]. exists (mkhdu (i_errh x) (i_err x)). split; [exists [], [mkhdu h a]; split; [reflexivity|]; split; [reflexivity|]; split; [rewrite NE; reflexivity|intros ? []]|]. split; [reflexivity|]. right. split; [exact (rd_dim _ _ R)|reflexivity].
  - left. split; [right; intros [I|[I|[]]]; discriminate|]. split; [apply zeros_iff; reflexivity|auto].
  - exists (i_errh x). cbn [chosen_hdr i_err i_pri i_ext i_data i_errh i_dq i_dqh i_list i_names i_dir i_file]. rewrite (set_same "EXTNAME" (HS "ERR") (i_errh x)) by exact (rd_err _ _ R). split; [left; split; [destruct track; [left; reflexivity|right; apply (rd_one _ _ R); reflexivity]|split; reflexivity]|]. rewrite (set_same "ORIGIN") by exact (rd_origin _ _ R). destruct (rd_ext _ _ R) as (X1 & X2 & X3). rewrite (stamped_same (i_ext x)) by assumption. rewrite (set_same "TRK_ERRS") by exact (rd_trk _ _ R). auto 12.
Qed.
Theorem prod_round : forall track dir name (y y' : prod) p f, sound is_nan track y -> save_prod dir name y = (y', Ok (p, f)) ->
  exists z, load_as zero is_nan track (p_cls y) p f = Ok z /\ came_back zero y z /\ sound is_nan track z /\ splits p (i_dir (p_img z)) (i_file (p_img z))
  /\ (p_cls y <> CImage -> forall c w, load_as zero is_nan track c p f = Ok w -> c = p_cls y \/ c = CImage)
  /\ (p_cls y <> CImage -> p_cls y <> CNd -> autoload zero is_nan track p f = Ok z)
  /\ (p_cls y = CNd -> autoload zero is_nan track p f = Raise KeyError).
Proof using.
  intros track dir name y y' p f S V. apply saved_prod in V. destruct V as (_ & _ & _ & _ & _ & P & H). pose proof (sd_ready _ _ _ S) as R.
  assert (L : exists z, load_as zero is_nan track (p_cls y) p f = Ok z /\ came_back zero y z /\ splits p (i_dir (p_img z)) (i_file (p_img z))).
  { destruct f as [pri hs]. cbn [f_pri f_hdus] in P, H. subst pri. assert (K : p_cls y = CKGain \/ p_cls y <> CKGain) by (destruct (p_cls y); (left; reflexivity) || (right; discriminate)). destruct K as [K|K].
    - destruct (p_more y) as [|h a| |] eqn:M; try (pose proof (sd_more _ _ _ S) as D; rewrite K, M in D; destruct D as (? & ? & D & _); discriminate). rewrite K in H. destruct (kgain_reload track y p h a S M K) as (x & LX & A1 & A2 & A3 & A4 & A5 & A6 & A7 & A8 & A9). rewrite <- H in LX. pose proof (sd_more _ _ _ S) as D. rewrite K in D. destruct D as (h' & a' & M' & G). rewrite M in M'. injection M' as <- <-.
      exists (mk CKGain x (MPtc h a)). split; [|split; [|exact A9]].
      + rewrite K. apply load_as_iff. exists x. split; [exact LX|]. pose proof (sd_fits _ _ _ S) as F. rewrite K in F. split; [cbn [fits] in *; rewrite A3, A4; exact F|]. split; [unfold labelled; rewrite A2; pose proof (sd_label _ _ _ S) as C; rewrite K in C; exact C|]. apply loaded_iff. exists (MPtc h a). split; [|reflexivity]. cbn [extra f_hdus]. rewrite H. eexists _, _, (mkhdu h a), []. split; [reflexivity|]. cbn [h_hdr h_data]. rewrite (set_same _ _ _ G). reflexivity.
      + pose proof (sd_ext _ _ _ S) as SX. pose proof (sd_pri _ _ _ S) as SP. rewrite K in SX, SP. unfold came_back. rewrite !rem_iff. rewrite K, M. cbn [mk p_cls p_more p_img i_pri i_ext i_data i_err i_errh i_dq i_dqh i_list]. rewrite A1, A2, A3, A4, A5, SX, SP. split; [reflexivity|]. split; [reflexivity|]. do 4 (split; [reflexivity|]). split; [reflexivity|]. split; [intros N; contradiction|]. intros _. split; [exact A6|]. cbn [dq_remarks]. rewrite A7. split; [reflexivity|]. exists h, a. auto.
    - assert (W : mkfile (i_pri (p_img y)) hs = written (p_img y)). { unfold written. f_equal. rewrite H. destruct (p_cls y); try reflexivity. contradiction. }
      rewrite W. clear H W. destruct (dir_name p) as [d n] eqn:DN. apply dir_name_iff in DN. set (x := p_img y) in *. set (z := mkim (i_pri x) (i_ext x) (i_data x) (i_err x) (i_errh x) (i_dq x) (i_dqh x) (i_list x) ("ERR" :: "DQ" :: map h_name (i_list x)) d n).
      assert (LZ : load_image zero track p (written x) None None None None None = Ok z). { apply (reload_iff zero track); [exact R|]. exists (i_errh x). cbn. split; [left; split; [destruct track; [left; reflexivity|right; apply (rd_one _ _ R); reflexivity]|split; reflexivity]|]. split; [symmetry; apply set_same; exact (rd_trk _ _ R)|]. auto 10. }
      exists (mk (p_cls y) z (p_more y)). split; [|split; [|exact DN]].
      + apply load_as_iff. exists z. split; [exact LZ|]. split; [apply (fits_congr (p_cls y) x); try reflexivity; exact (sd_fits _ _ _ S)|]. split; [exact (sd_label _ _ _ S)|]. apply loaded_iff. exists (p_more y). split; [|reflexivity]. pose proof (sd_more _ _ _ S) as D. unfold extra. destruct (p_cls y); try exact D. contradiction.
      + unfold came_back. rewrite !rem_iff. cbn [mk p_cls p_more p_img i_pri i_ext i_data i_err i_errh i_dq i_dqh i_list z]. fold x. pose proof (sd_ext _ _ _ S) as SX. pose proof (sd_pri _ _ _ S) as SP. fold x in SX, SP. rewrite SX, SP. do 7 (split; [reflexivity|]). split; [auto|]. intros K2. contradiction. }
  destruct L as (z & L & C & SP). exists z. split; [exact L|]. split; [exact C|]. split; [exact (proj2 (loaded_sound _ _ _ _ _ L))|]. split; [exact SP|].
  assert (HD : forall c, p_cls y <> CImage -> taken c (mkhdu (i_ext (p_img y)) (i_data (p_img y))) <-> named (p_cls y) = key c). { intros c N. unfold taken. cbn [h_hdr]. destruct (sd_label _ _ _ S) as [Q|Q]; [contradiction|]. rewrite Q. split; [intros [A|(A & _)]; [injection A as A; exact A|discriminate]|]. intros A. left. rewrite A. reflexivity. }
  split; [|split].
  - intros N c w LW. destruct c; try (left; apply (exclusive _ _ _ _ _ _ _ LW L); [discriminate|exact N]). right. reflexivity.
  - intros N N2. rewrite (proj2 (proj2 (proj2 (autoload_raises track p f))) _ _ (p_cls y) H); [exact L|]. apply HD; [exact N|]. destruct (p_cls y); try reflexivity. contradiction.
  - intros N. apply (proj1 (proj2 (proj2 (autoload_raises track p f))) _ _ H); cbn [h_hdr]; (destruct (sd_label _ _ _ S) as [Q|Q]; [rewrite N in Q; discriminate|]); rewrite Q; [discriminate|]. rewrite N. intros c. destruct c; discriminate.
Qed.
(** Reading is final: what was read once is read again, remarks apart *)
Theorem read_again : forall track c p (f : file) y dir name y' p' f', load_as zero is_nan track c p f = Ok y -> save_prod dir name y = (y', Ok (p', f')) ->
  exists z, load_as zero is_nan track c p' f' = Ok z /\ came_back zero y z.
Proof using. intros track c p f y dir name y' p' f' L V. destruct (loaded_sound _ _ _ _ _ L) as (<- & S). destruct (prod_round _ _ _ _ _ _ _ S V) as (z & LZ & C & _). exists z. auto. Qed.
End Prod.
