(** Frames written, read again and extended. *)
From Coq Require Import List Arith Bool String Ascii ZArith QArith Lia Decimal DecimalString DecimalNat.
From Verif Require Import Base DiskModel DiskSpec DiskProofs.
Import ListNotations.
Local Open Scope nat_scope.
Local Open Scope string_scope.
Local Open Scope list_scope.

Lemma decimal_inj : forall n m, decimal n = decimal m -> n = m.
Proof.
  intros n m H. unfold decimal in H. assert (Q : NilEmpty.uint_of_string (NilEmpty.string_of_uint (Nat.to_uint n)) = NilEmpty.uint_of_string (NilEmpty.string_of_uint (Nat.to_uint m))) by (rewrite H; reflexivity).
  rewrite !NilEmpty.usu in Q. injection Q as Q. rewrite <- (DecimalNat.Unsigned.of_to n), <- (DecimalNat.Unsigned.of_to m), Q. reflexivity.
Qed.
Lemma layer_inj : forall n m, layer n = layer m -> n = m.
Proof. intros n m H. unfold layer in H. cbn [append] in H. injection H as H. apply decimal_inj. exact H. Qed.
(** Removing the cards of the layers: possible when all are there, and nothing else changes *)
Theorem cut_iff : forall n i h h1, 2 <= i -> i <= S n -> NoDup (map fst (cards h)) -> (cut_layers i n h h1 ->
  (forall j, i <= j <= n -> get (layer j) h <> None) /\ hist h1 = hist h /\ comm h1 = comm h /\ NoDup (map fst (cards h1)) /\ (forall j, i <= j <= n -> get (layer j) h1 = None) /\ forall k, (forall j, i <= j <= n -> k <> layer j) -> get k h1 = get k h).
Proof.
  intros n i h h1 _ _ N C. revert N. induction C as [n h|i n h h1 h2 L D C IH]; intros N.
  - split; [intros j H; lia|]. repeat (split; [try reflexivity; try exact N; intros j H; lia|]). intros k _. reflexivity.
  - destruct (del_ok _ _ _ D) as (G & HI & CO). destruct (del_get _ _ _ N D) as (N1 & G1). destruct (IH N1) as (P & HI2 & CO2 & N2 & Z & O). assert (LJ : forall j, i <= j <= n -> j <> i -> get (layer j) h1 = get (layer j) h). { intros j H Q. rewrite G1. destruct (String.eqb (layer i) (layer j)) eqn:X; [|reflexivity]. apply String.eqb_eq in X. apply layer_inj in X. congruence. }
    split; [|split; [congruence|split; [congruence|split; [exact N2|split]]]].
    + intros j H. destruct (Nat.eq_dec j i) as [->|Q]; [exact G|]. rewrite <- LJ by assumption. apply P. lia.
    + intros j H. destruct (Nat.eq_dec j i) as [->|Q]; [|apply Z; lia]. destruct (Nat.eq_dec i n) as [->|Q2]; [|]; (rewrite O; [rewrite G1, String.eqb_refl; reflexivity|intros j H2 X; apply layer_inj in X; lia]).
    + intros k H. rewrite O; [|intros j H2; apply H; lia]. rewrite G1. destruct (String.eqb (layer i) k) eqn:X; [|reflexivity]. apply String.eqb_eq in X. exfalso. exact (H i (conj (le_n i) L) (eq_sym X)).
Qed.
Lemma cut_can : forall m i n h, S n = i + m -> NoDup (map fst (cards h)) -> (forall j, i <= j <= n -> get (layer j) h <> None) -> exists h1, cut_layers i n h h1.
Proof.
  induction m as [|m IH]; intros i n h L N G; [rewrite Nat.add_0_r in L; subst i; exists h; constructor|]. destruct (proj2 (del_iff (layer i) h) (G i ltac:(lia))) as (h1 & D). destruct (del_get _ _ _ N D) as (N1 & G1). destruct (IH (S i) n h1) as (h2 & C); [lia|exact N1| |exists h2; apply (cl_one i n h h1 h2); [lia|exact D|exact C]].
  intros j H. rewrite G1. destruct (String.eqb (layer i) (layer j)) eqn:X; [apply String.eqb_eq in X; apply layer_inj in X; lia|]. apply G. lia.
Qed.
Lemma cut_exists : forall n h, 2 <= n -> NoDup (map fst (cards h)) -> ((exists h1, cut_layers 2 n h h1) <-> forall j, 2 <= j <= n -> get (layer j) h <> None).
Proof.
  intros n h L N. split; [intros (h1 & C); apply (cut_iff n 2 h h1); [lia|lia|exact N|exact C]|]. apply (cut_can (n - 1) 2 n h); [lia|exact N].
Qed.
Lemma cut_fun : forall i n h h1 h2, cut_layers i n h h1 -> cut_layers i n h h2 -> h1 = h2.
Proof. intros i n h h1 h2 C. induction C as [n h|i n h h3 h4 L D C IH]; intros C2; inversion C2; subst; [reflexivity|lia|lia|]. apply IH. congruence. Qed.
(** Layer cards are not the two names the frame needs *)
Lemma layer_not : forall i k, String.prefix "LAYER_" k = false -> k <> layer i.
Proof. intros i k H ->. unfold layer in H. assert (forall a b : string, String.prefix a (a ++ b) = true) as P; [|rewrite P in H; discriminate]. induction a as [|c a IH]; intros b; [destruct b; reflexivity|]. cbn. destruct (ascii_dec c c); [apply IH|congruence]. Qed.
Lemma cut_get : forall i n h h1 k, cut_layers i n h h1 -> (forall j, k <> layer j) -> get k h1 = get k h.
Proof.
  intros i n h h1 k C K. induction C as [n h|i n h h1 h2 L D C IH]; [reflexivity|]. rewrite IH. clear - D K. specialize (K i). destruct h as [l hi co]. unfold del, get, has in *. cbn [cards] in *. destruct (get (layer i) _); [|discriminate]. injection D as <-. cbn [cards]. induction l as [|[a w] l IH]; [reflexivity|]. cbn [drop_card find_card]. destruct (String.eqb a (layer i)) eqn:A.
  - apply String.eqb_eq in A. subst a. destruct (String.eqb (layer i) k) eqn:B; [apply String.eqb_eq in B; congruence|reflexivity].
  - cbn [find_card]. rewrite IH. reflexivity.
Qed.
(** Upper case *)
Definition is_letter (c : ascii) : bool := existsb (fun x => Ascii.eqb (fst x) c) letters.
Lemma letter_none : forall c, is_letter c = false -> forall e, ~ In (c, e) letters.
Proof. intros c H e I. assert (is_letter c = true); [|congruence]. apply existsb_exists. exists (c, e). split; [exact I|apply Ascii.eqb_refl]. Qed.
Theorem up_iff : forall s t, up s = t <-> Forall2 big (list_ascii_of_string s) (list_ascii_of_string t).
Proof.
  assert (B : forall c, big c (up_char c)).
  { intros c. destruct (is_letter c) eqn:L; [left|right; split; [|exact (letter_none c L)]].
    - revert L. destruct c as [[] [] [] [] [] [] [] []]; intros L; vm_compute in L; try discriminate; clear; vm_compute; repeat (try (left; reflexivity); right).
    - revert L. destruct c as [[] [] [] [] [] [] [] []]; intros L; vm_compute in L; try discriminate; reflexivity. }
  assert (U : forall c d e, big c d -> big c e -> d = e).
  { assert (F : forall c d e, In (c, d) letters -> In (c, e) letters -> d = e).
    { intros c d e I J. assert (N : NoDup (map fst letters)) by (vm_compute; repeat (constructor; [cbn; intuition discriminate|]); constructor). revert I J N. generalize letters. induction l as [|[a b] l IH]; [intros []|]. cbn. intros I J N. inversion N; subst. destruct I as [I|I]; destruct J as [J|J]; [congruence| | |apply IH; assumption].
      - injection I as -> ->. exfalso. apply H1. apply in_map_iff. exists (c, e). auto.
      - injection J as -> ->. exfalso. apply H1. apply in_map_iff. exists (c, d). auto. }
    intros c d e [I|(-> & N)] [J|(-> & M)]; [eapply F; eassumption|exfalso; exact (M _ I)|exfalso; exact (N _ J)|reflexivity]. }
  induction s as [|c s IH]; intros t; cbn [up list_ascii_of_string].
  - split; [intros <-; constructor|]. destruct t; cbn [list_ascii_of_string]; [reflexivity|]. intros H. inversion H.
  - split.
    + intros <-. cbn [list_ascii_of_string]. constructor; [apply B|]. apply IH. reflexivity.
    + intros H. destruct t as [|d t]; cbn [list_ascii_of_string] in H; inversion H; subst. f_equal; [eapply U; [apply B|assumption]|]. apply IH. assumption.
Qed.
Lemma up_char_twice : forall c, up_char (up_char c) = up_char c.
Proof. intros [[] [] [] [] [] [] [] []]; reflexivity. Qed.
Lemma up_twice : forall s, up (up s) = up s.
Proof. induction s as [|c s IH]; [reflexivity|]. cbn [up]. rewrite up_char_twice, IH. reflexivity. Qed.

(** Headers: setting, removing and stamping change nothing else *)
Theorem header_laws : forall k v h j, get j (set k v h) = (if String.eqb k j then Some v else get j h) /\ hist (set k v h) = hist h /\ comm (set k v h) = comm h
  /\ (NoDup (map fst (cards h)) -> NoDup (map fst (cards (set k v h))) /\ forall h1, del k h = Ok h1 -> NoDup (map fst (cards h1)) /\ get j h1 = (if String.eqb k j then None else get j h) /\ hist h1 = hist h /\ comm h1 = comm h)
  /\ ((exists h1, del k h = Ok h1) <-> get k h <> None) /\ (forall e, del k h = Raise e -> e = KeyError)
  /\ get j (stamped h) = match get j h with Some w => Some w | None => if existsb (String.eqb j) ["DESMEAR"; "CTI_CORR"; "IS_BAD"] then Some (HB false) else None end.
Proof.
  intros k v h j. split; [apply get_set|]. split; [reflexivity|]. split; [reflexivity|]. split; [|split; [apply del_iff|split; [intros e H; apply del_raises in H; tauto|apply stamped_get]]]. intros N. split; [apply set_keys; exact N|]. intros h1 D. destruct (del_get _ _ _ N D) as (N1 & G). destruct (del_ok _ _ _ D) as (_ & H1 & H2). auto.
Qed.
(** Cards keep their places, and a new one is the last *)
Theorem set_order : forall k v h, map fst (cards (set k v h)) = map fst (cards h) ++ (if in_dec string_dec k (map fst (cards h)) then [] else [k]).
Proof.
  intros k v [l hi co]. unfold set. cbn [cards]. induction l as [|[a w] l IH]; cbn [put_card map fst].
  - destruct (in_dec string_dec k []) as [[]|]; reflexivity.
  - destruct (String.eqb a k) eqn:A.
    + apply String.eqb_eq in A. subst a. destruct (in_dec string_dec k (k :: map fst l)) as [|N]; [rewrite app_nil_r; reflexivity|exfalso; apply N; left; reflexivity].
    + cbn [map fst]. rewrite IH. destruct (in_dec string_dec k (map fst l)) as [I|I]; destruct (in_dec string_dec k (a :: map fst l)) as [J|J]; try reflexivity; [exfalso; apply J; right; exact I|]. exfalso. destruct J as [->|J]; [rewrite String.eqb_refl in A; discriminate|exact (I J)].
Qed.
(** The parts of a path *)
Theorem join_iff : forall d f p, path_join d f = p <->
  (exists r, f = ("/" ++ r)%string) /\ p = f
  \/ (forall r, f <> ("/" ++ r)%string) /\ (d = EmptyString \/ exists a, d = (a ++ "/")%string) /\ p = (d ++ f)%string
  \/ (forall r, f <> ("/" ++ r)%string) /\ d <> EmptyString /\ (forall a, d <> (a ++ "/")%string) /\ p = (d ++ "/" ++ f)%string.
Proof.
  intros d f p. unfold path_join. destruct (String.prefix "/" f) eqn:P.
  - assert (X : exists r, f = ("/" ++ r)%string) by (destruct f as [|c f]; [discriminate|]; change (String.prefix "/" (String c f)) with (if ascii_dec "/" c then String.prefix EmptyString f else false) in P; destruct (ascii_dec "/" c) as [<-|]; [exists f; reflexivity|discriminate]). split; [intros <-; left; auto|]. destruct X as (r & X). intros [(_ & H)|[(H & _)|(H & _)]]; [symmetry; exact H|destruct (H r X)|destruct (H r X)].
  - assert (X : forall r, f <> ("/" ++ r)%string) by (intros r ->; destruct r; discriminate). destruct (orb (String.eqb d "") (ends_slash d)) eqn:Q.
    + assert (Y : d = EmptyString \/ exists a, d = (a ++ "/")%string) by (apply orb_true_iff in Q; destruct Q as [Q|Q]; [left; apply String.eqb_eq; exact Q|right; apply ends_iff; exact Q]). split; [intros <-; right; left; auto|]. intros [((r & H) & _)|[(_ & _ & H)|(_ & H1 & H2 & _)]]; [destruct (X r H)|symmetry; exact H|]. destruct Y as [Y|(a & Y)]; [contradiction|destruct (H2 a Y)].
    + apply orb_false_iff in Q. destruct Q as (Q1 & Q2). apply String.eqb_neq in Q1. assert (Y : forall a, d <> (a ++ "/")%string) by (intros a ->; assert (ends_slash (a ++ "/") = true) by (apply ends_iff; exists a; reflexivity); congruence). split; [intros <-; right; right; auto|]. intros [((r & H) & _)|[(_ & [H|(a & H)] & _)|(_ & _ & _ & H)]]; [destruct (X r H)|contradiction|destruct (Y a H)|symmetry; exact H].
Qed.
Theorem path_laws : forall p d f, (dir_name p = (d, f) <-> splits p d f) /\ (no_slash f -> forall d' f', splits (path_join d f) d' f' <->
  f' = f /\ (d = EmptyString /\ d' = "." \/ d <> EmptyString /\ (d = (d' ++ "/")%string \/ (forall a, d <> (a ++ "/")%string) /\ d' = d))).
Proof. intros p d f. split; [apply dir_name_iff|]. intros N d' f'. apply path_back. exact N. Qed.

Section Laws.
Context {E : Type}.
Variable zero : E.
Notation arr := (arr E).
Notation hdu := (hdu E).
Notation image := (image E).
Notation file := (file E).

Lemma assembled_ready : forall track pri ext (data err dq : arr) eh dh l names d f x, List.length (shp err) <> List.length (shp data) -> assembled track pri ext data err dq eh dh l names d f x -> ready track x.
Proof using.
  intros track pri ext data err dq eh dh l names d f x N (h' & K & A1 & A2 & A3 & A4 & A5 & A6 & A7 & A8 & A9 & A10).
  assert (EX : get "EXTNAME" h' = Some (HS "ERR")). { destruct K as [(_ & _ & ->)|(_ & n & t & _ & _ & _ & _ & C)]; [rewrite get_set, String.eqb_refl; reflexivity|]. rewrite (cut_get _ _ _ _ _ C) by (intros j; apply layer_not; reflexivity). rewrite get_set, String.eqb_refl. reflexivity. }
  constructor.
  - rewrite A4, get_set. exact EX.
  - rewrite A6, get_set, String.eqb_refl. reflexivity.
  - rewrite A4, get_set, String.eqb_refl. reflexivity.
  - intros ->. destruct K as [([H|H] & -> & _)|(_ & n & t & _ & _ & S1 & _)]; [discriminate|exact H|rewrite S1; cbn; lia].
  - rewrite A2, !stamped_get. cbn [existsb String.eqb Ascii.eqb Bool.eqb orb]. split; [|split]; match goal with |- match ?m with _ => _ end <> None => destruct m; discriminate end.
  - rewrite A1, get_set, String.eqb_refl. reflexivity.
  - rewrite A3. destruct K as [(_ & -> & _)|(_ & n & t & S & _ & S1 & _)]; [exact N|]. rewrite S1. rewrite S in N. exact N.
Qed.
Theorem new_ready : forall track v now data pri ext err dq gh gd input (x : image), new_image zero track v now data pri ext err dq gh gd input = Ok x -> ready track x.
Proof using.
  intros track v now data pri ext err dq gh gd input x H. apply new_iff in H. destruct H as (p & e & er & d & _ & _ & PE & _ & A). apply (assembled_ready _ _ _ _ _ _ _ _ _ _ _ _ _) in A; [exact A|].
  destruct err as [e0|]; cbn [plain_err] in PE.
  - destruct PE as (pre & S & Z & [(L & ->)|(L & S1 & _)]); [rewrite S, app_length, L; lia|rewrite S1; cbn [List.length]; rewrite S, app_length; lia].
  - destruct PE as (S & _). rewrite S. cbn [List.length]. lia.
Qed.
Theorem load_ready : forall track p (f : file) err dq gh gd input (x : image), load_image zero track p f err dq gh gd input = Ok x -> ready track x.
Proof using.
  intros track p f err dq gh gd input x H. apply load_iff in H. destruct H as (h & l & er & eh & l1 & d & dh & l2 & dir & name & _ & FE & _ & _ & A). apply (assembled_ready _ _ _ _ _ _ _ _ _ _ _ _ _) in A; [exact A|].
  destruct FE as [(_ & PE & _)|(_ & _ & y & _ & _ & [(L & S & _)|(L & ->)])]; [|rewrite S; cbn [List.length]; lia|exact L]. destruct err as [e0|]; cbn [plain_err] in PE.
  - destruct PE as (pre & S & Z & [(L & ->)|(L & S1 & _)]); [rewrite S, app_length, L; lia|rewrite S1; cbn [List.length]; rewrite S, app_length; lia].
  - destruct PE as (S & _). rewrite S. cbn [List.length]. lia.
Qed.

(** ** Writing *)
Theorem save_iff : forall dir name (x y : image) r, save_image dir name x = (y, r) <->
  same_content y x /\ i_names y = i_names x /\ i_dir y = match dir with Some d => d | None => i_dir x end /\ i_file y = match name with Some n => n | None => i_file x end
  /\ (i_file y = EmptyString /\ r = Raise ValueError
      \/ i_file y <> EmptyString /\ exists f, r = Ok (path_join (i_dir y) (i_file y), f) /\ f_pri f = i_pri x /\ map h_hdr (f_hdus f) = i_ext x :: i_errh x :: i_dqh x :: map h_hdr (i_list x) /\ map h_data (f_hdus f) = i_data x :: i_err x :: i_dq x :: map h_data (i_list x)).
Proof using.
  intros dir name x y r. unfold save_image, same_content. split.
  - intros H. apply pair_equal_spec in H. destruct H as (<- & <-). split; [cbn [place i_pri i_ext i_data i_err i_errh i_dq i_dqh i_list]; auto 10|]. split; [reflexivity|]. split; [reflexivity|]. split; [reflexivity|]. destruct (String.eqb (i_file (place dir name x)) EmptyString) eqn:Q; [left; apply String.eqb_eq in Q; split; [exact Q|reflexivity]|]. right. split; [intros Z; rewrite Z in Q; discriminate|]. exists (written (place dir name x)). split; [reflexivity|]. split; [reflexivity|]. split; reflexivity.
  - intros ((A1 & A2 & A3 & A4 & A5 & A6 & A7 & A8) & A9 & A10 & A11 & C). assert (Y : place dir name x = y) by (destruct y; cbn in *; subst; reflexivity). rewrite Y. f_equal. destruct C as [(Z & ->)|(Z & [p l] & -> & P & H1 & H2)]; [rewrite Z; reflexivity|]. destruct (String.eqb (i_file y) EmptyString) eqn:Q; [apply String.eqb_eq in Q; contradiction|]. f_equal. f_equal. unfold written. cbn [f_pri f_hdus] in *. subst p. rewrite A1. f_equal. rewrite A2, A3, A4, A5, A6, A7, A8.
    assert (U : forall a b : list hdu, map h_hdr a = map h_hdr b -> map h_data a = map h_data b -> a = b). { clear. induction a as [|[h v] a IH]; intros [|[h2 v2] b] HA HB; try discriminate; [reflexivity|]. cbn in *. injection HA as -> HA. injection HB as -> HB. f_equal. exact (IH _ HA HB). }
    apply U; cbn [map h_hdr h_data]; symmetry; assumption.
Qed.

(** ** Reading what was written *)
Lemma written_err : forall (x : image) track data, ready track x -> data = i_data x -> forall er eh l1, file_err zero data None (map h_name (mkhdu (i_errh x) (i_err x) :: mkhdu (i_dqh x) (i_dq x) :: i_list x)) (mkhdu (i_errh x) (i_err x) :: mkhdu (i_dqh x) (i_dq x) :: i_list x) er eh l1 <-> er = i_err x /\ eh = Some (i_errh x) /\ l1 = mkhdu (i_dqh x) (i_dq x) :: i_list x.
Proof using.
  intros x track data R -> er eh l1. assert (NE : h_name (mkhdu (i_errh x) (i_err x)) = "ERR") by (unfold h_name; cbn [h_hdr]; rewrite (rd_err _ _ R); reflexivity). unfold file_err. split.
  - intros [([H|H] & _)|(_ & _ & y & F & -> & C)]; [congruence|exfalso; apply H; left; exact NE|]. assert (F2 : first_named "ERR" (mkhdu (i_errh x) (i_err x) :: mkhdu (i_dqh x) (i_dq x) :: i_list x) (mkhdu (i_errh x) (i_err x)) (mkhdu (i_dqh x) (i_dq x) :: i_list x)) by (exists [], (mkhdu (i_dqh x) (i_dq x) :: i_list x); split; [reflexivity|]; split; [reflexivity|]; split; [rewrite NE; reflexivity|intros ? []]).
    apply pop_iff in F. apply pop_iff in F2. rewrite F in F2. injection F2 as -> ->. cbn [h_data h_hdr] in *. destruct C as [(L & _)|(_ & ->)]; [exfalso; exact (rd_dim _ _ R L)|auto].
  - intros (-> & -> & ->). right. split; [reflexivity|]. split; [left; exact NE|]. exists (mkhdu (i_errh x) (i_err x)). split; [exists [], (mkhdu (i_dqh x) (i_dq x) :: i_list x); split; [reflexivity|]; split; [reflexivity|]; split; [rewrite NE; reflexivity|intros ? []]|]. split; [reflexivity|]. right. split; [exact (rd_dim _ _ R)|reflexivity].
Qed.
Lemma written_dq : forall (x : image) track data, ready track x -> forall a d dh l2, file_dq zero data None (map h_name (a :: mkhdu (i_dqh x) (i_dq x) :: i_list x)) (mkhdu (i_dqh x) (i_dq x) :: i_list x) d dh l2 <-> d = i_dq x /\ dh = Some (i_dqh x) /\ l2 = i_list x.
Proof using.
  intros x track data R a d dh l2. assert (ND : h_name (mkhdu (i_dqh x) (i_dq x)) = "DQ") by (unfold h_name; cbn [h_hdr]; rewrite (rd_dq _ _ R); reflexivity). unfold file_dq. assert (F2 : first_named "DQ" (mkhdu (i_dqh x) (i_dq x) :: i_list x) (mkhdu (i_dqh x) (i_dq x)) (i_list x)) by (exists [], (i_list x); split; [reflexivity|]; split; [reflexivity|]; split; [rewrite ND; reflexivity|intros ? []]). split.
  - intros [([H|H] & _)|(_ & _ & y & F & -> & ->)]; [congruence|exfalso; apply H; right; left; exact ND|]. apply pop_iff in F. apply pop_iff in F2. rewrite F in F2. injection F2 as -> ->. auto.
  - intros (-> & -> & ->). right. split; [reflexivity|]. split; [right; left; exact ND|]. exists (mkhdu (i_dqh x) (i_dq x)). auto.
Qed.
(** Whatever the setting when reading *)
Theorem reload_iff : forall t track (x : image) p (z : image), ready t x -> (load_image zero track p (written x) None None None None None = Ok z <->
  exists h', kept track (i_err x) (i_errh x) (i_err z) h' /\ i_errh z = set "TRK_ERRS" (HB track) h'
  /\ i_pri z = i_pri x /\ i_ext z = i_ext x /\ i_data z = i_data x /\ i_dq z = i_dq x /\ i_dqh z = i_dqh x /\ i_list z = i_list x
  /\ i_names z = "ERR" :: "DQ" :: map h_name (i_list x) /\ splits p (i_dir z) (i_file z)).
Proof using.
  intros t track x p z R. assert (NE : h_name (mkhdu (i_errh x) (i_err x)) = "ERR") by (unfold h_name; cbn [h_hdr]; rewrite (rd_err _ _ R); reflexivity). assert (ND : h_name (mkhdu (i_dqh x) (i_dq x)) = "DQ") by (unfold h_name; cbn [h_hdr]; rewrite (rd_dq _ _ R); reflexivity).
  assert (S1 : set "ORIGIN" (HS "DRP") (i_pri x) = i_pri x) by (apply set_same; exact (rd_origin _ _ R)). assert (S2 : set "EXTNAME" (HS "ERR") (i_errh x) = i_errh x) by (apply set_same; exact (rd_err _ _ R)). assert (S3 : set "EXTNAME" (HS "DQ") (i_dqh x) = i_dqh x) by (apply set_same; exact (rd_dq _ _ R)). assert (S4 : stamped (i_ext x) = i_ext x) by (destruct (rd_ext _ _ R) as (A & B & C); apply stamped_same; assumption).
  rewrite load_iff. split.
  - intros (h & l & er & eh & l1 & d & dh & l2 & dir & name & F & FE & FD & SP & A). unfold written in F. cbn [f_hdus] in F. injection F as <- <-. cbn [h_data] in FE, FD. apply (written_err x t _ R eq_refl) in FE. destruct FE as (-> & -> & ->). apply (written_dq x t _ R) in FD. destruct FD as (-> & -> & ->). destruct A as (h' & K & A1 & A2 & A3 & A4 & A5 & A6 & A7 & A8 & A9 & A10). cbn [f_pri h_hdr h_data chosen_hdr written] in *. rewrite S2 in K. exists h'. split; [exact K|]. rewrite A9, A10. rewrite S1 in A1. rewrite S4 in A2. rewrite S3 in A6. cbn [map] in A8. rewrite NE, ND in A8. auto 12.
  - intros (h' & K & A4 & A1 & A2 & A3 & A5 & A6 & A7 & A8 & SP). exists (mkhdu (i_ext x) (i_data x)), (mkhdu (i_errh x) (i_err x) :: mkhdu (i_dqh x) (i_dq x) :: i_list x), (i_err x), (Some (i_errh x)), (mkhdu (i_dqh x) (i_dq x) :: i_list x), (i_dq x), (Some (i_dqh x)), (i_list x), (i_dir z), (i_file z).
    split; [reflexivity|]. split; [apply (written_err x t _ R eq_refl); auto|]. split; [apply (written_dq x t _ R); auto|]. split; [exact SP|]. exists h'. cbn [f_pri h_hdr h_data chosen_hdr written]. rewrite S1, S2, S3, S4. split; [exact K|]. cbn [map]. rewrite NE, ND. auto 12.
Qed.
(** A frame comes back as it was *)
Theorem round_trip : forall track dir name (x y : image) p f, ready track x -> save_image dir name x = (y, Ok (p, f)) ->
  exists z, load_image zero track p f None None None None None = Ok z /\ same_content z x /\ i_names z = "ERR" :: "DQ" :: map h_name (i_list x) /\ splits p (i_dir z) (i_file z).
Proof using.
  intros track dir name x y p f R H. unfold save_image in H. injection H as Hy H. destruct (String.eqb _ _); [discriminate|]. injection H as Hp Hf. assert (W : f = written x) by (rewrite <- Hf; reflexivity). rewrite W. clear Hf.
  destruct (dir_name p) as [d n] eqn:DN. apply dir_name_iff in DN. exists (mkim (i_pri x) (i_ext x) (i_data x) (i_err x) (i_errh x) (i_dq x) (i_dqh x) (i_list x) ("ERR" :: "DQ" :: map h_name (i_list x)) d n). split; [|split; [unfold same_content; cbn; auto 10|split; [reflexivity|exact DN]]].
  apply (reload_iff track); [exact R|]. exists (i_errh x). cbn. split; [left; split; [destruct track; [left; reflexivity|right; apply (rd_one _ _ R); reflexivity]|split; reflexivity]|]. split; [symmetry; apply set_same; exact (rd_trk _ _ R)|]. auto 10.
Qed.
Lemma saved : forall dir name (x y : image) p f, save_image dir name x = (y, Ok (p, f)) -> p = path_join (i_dir y) (i_file y) /\ f = written x.
Proof using. intros dir name x y p f H. unfold save_image in H. injection H as Hy H. destruct (String.eqb _ _); [discriminate|]. injection H as Hp Hf. split; [rewrite <- Hp, <- Hy; reflexivity|rewrite <- Hf; reflexivity]. Qed.
(** Load, save, load: the first reading is final *)
Theorem load_twice : forall track p (f : file) (x : image) dir name y p1 f1, load_image zero track p f None None None None None = Ok x -> save_image dir name x = (y, Ok (p1, f1)) ->
  exists z, load_image zero track p1 f1 None None None None None = Ok z /\ same_content z x /\ forall dir2 name2 y2 p2 f2, save_image dir2 name2 z = (y2, Ok (p2, f2)) -> f2 = f1.
Proof using.
  intros track p f x dir name y p1 f1 L S. pose proof (load_ready _ _ _ _ _ _ _ _ _ L) as R. destruct (round_trip _ _ _ _ _ _ _ R S) as (z & LZ & C & _). exists z. split; [exact LZ|]. split; [exact C|]. intros dir2 name2 y2 p2 f2 S2. apply saved in S. apply saved in S2. destruct S as (_ & ->). destruct S2 as (_ & ->). destruct C as (A1 & A2 & A3 & A4 & A5 & A6 & A7 & A8). unfold written. rewrite A1, A2, A3, A4, A5, A6, A7, A8. reflexivity.
Qed.
(** Where a file read is written again *)
Theorem same_place : forall track p (f : file) err dq gh gd input (x y : image) p1 f1, load_image zero track p f err dq gh gd input = Ok x -> save_image None None x = (y, Ok (p1, f1)) ->
  exists d n, splits p d n /\ (p1 = p <-> (exists a b, p = (a ++ "/" ++ b)%string) /\ d <> EmptyString /\ forall a, d <> (a ++ "/")%string) /\ (no_slash p -> p1 = ("./" ++ p)%string) /\ (d = EmptyString -> p1 = n).
Proof using.
  intros track p f err dq gh gd input x y p1 f1 L S. apply load_iff in L. destruct L as (h & l & er & eh & l1 & d & dh & l2 & dir & name & _ & _ & _ & SP & (h' & _ & _ & _ & _ & _ & _ & _ & _ & _ & A9 & A10)). apply saved in S as S2. destruct S2 as (-> & _). unfold save_image in S. injection S as Hy _. rewrite <- Hy. cbn [place i_dir i_file]. rewrite A9, A10. clear - SP. exists dir, name. split; [exact SP|].
  assert (NF : no_slash name) by (destruct SP as [(N & _ & ->)|(_ & N)]; exact N). rewrite path_join_flat by exact NF. split; [|split].
  - destruct SP as [(N & -> & ->)|(-> & _)].
    + cbn. split; [intros H; exfalso; clear N NF|intros ((a & b & H) & _); exfalso; exact (N a b H)]. assert (Q : String.length (String "." (String "/" p)) = String.length p) by (rewrite H; reflexivity). cbn in Q. lia.
    + destruct (String.eqb dir "") eqn:Z; cbn [orb].
      * apply String.eqb_eq in Z. subst dir. cbn [append]. split; [intros H; exfalso|intros (_ & H & _); congruence]. assert (Q : String.length name = String.length (String "/" name)) by (rewrite <- H; reflexivity). cbn in Q. lia.
      * destruct (ends_slash dir) eqn:ES.
        -- pose proof (proj1 (ends_iff dir) ES) as (a & Q). split; [intros H; exfalso|intros (_ & _ & H); exfalso; exact (H a Q)]. assert (LQ : String.length (dir ++ name) = String.length (dir ++ "/" ++ name)) by (rewrite H; reflexivity). clear - LQ. induction dir as [|c dir IH]; cbn [append String.length] in LQ; [cbn in LQ; lia|]. apply IH. exact (eq_add_S _ _ LQ).
        -- split; [intros _|reflexivity]. split; [exists dir, name; reflexivity|]. split; [intros ->; discriminate|]. intros a H. assert (ends_slash dir = true) by (apply ends_iff; exists a; exact H). congruence.
  - intros N. destruct SP as [(_ & -> & ->)|(-> & _)]; [reflexivity|exfalso; exact (N _ _ eq_refl)].
  - intros ->. reflexivity.
Qed.

(** ** Reading with the other setting *)
Theorem cross_on : forall (x : image) p, ready false x -> exists z, load_image zero true p (written x) None None None None None = Ok z
  /\ i_pri z = i_pri x /\ i_ext z = i_ext x /\ i_data z = i_data x /\ i_err z = i_err x /\ i_dq z = i_dq x /\ i_dqh z = i_dqh x /\ i_list z = i_list x /\ i_errh z = set "TRK_ERRS" (HB true) (i_errh x).
Proof using.
  intros x p R. destruct (dir_name p) as [d n] eqn:DN. apply dir_name_iff in DN. exists (mkim (i_pri x) (i_ext x) (i_data x) (i_err x) (set "TRK_ERRS" (HB true) (i_errh x)) (i_dq x) (i_dqh x) (i_list x) ("ERR" :: "DQ" :: map h_name (i_list x)) d n). split; [|cbn; auto 10].
  apply (reload_iff false); [exact R|]. exists (i_errh x). cbn. split; [left; auto|]. auto 12.
Qed.
Theorem cross_off : forall (x : image) p n t, ready true x -> shp (i_err x) = n :: t -> 2 <= n -> NoDup (map fst (cards (i_errh x))) ->
  ((exists z, load_image zero false p (written x) None None None None None = Ok z) <-> forall i, 2 <= i <= n -> get (layer i) (i_errh x) <> None)
  /\ forall z, load_image zero false p (written x) None None None None None = Ok z ->
     i_pri z = i_pri x /\ i_ext z = i_ext x /\ i_data z = i_data x /\ i_dq z = i_dq x /\ i_dqh z = i_dqh x /\ i_list z = i_list x
     /\ shp (i_err z) = 1 :: t /\ vals (i_err z) = firstn (fold_right Nat.mul 1 t) (vals (i_err x)) /\ hist (i_errh z) = hist (i_errh x) /\ comm (i_errh z) = comm (i_errh x)
     /\ get "TRK_ERRS" (i_errh z) = Some (HB false) /\ (forall i, 2 <= i <= n -> get (layer i) (i_errh z) = None) /\ forall k, k <> "TRK_ERRS" -> (forall i, 2 <= i <= n -> k <> layer i) -> get k (i_errh z) = get k (i_errh x).
Proof using.
  intros x p n t R S L N. split.
  - rewrite <- (cut_exists n (i_errh x) L N). split.
    + intros (z & H). apply (reload_iff true) in H; [|exact R]. destruct H as (h' & [([K|K] & _)|(_ & n' & t' & S' & _ & _ & _ & C)] & _); [discriminate|rewrite S in K; cbn in K; lia|]. rewrite S in S'. injection S' as <- <-. exists h'. exact C.
    + intros (h' & C). destruct (dir_name p) as [d m] eqn:DN. apply dir_name_iff in DN. exists (mkim (i_pri x) (i_ext x) (i_data x) (mka (1 :: t) (firstn (fold_right Nat.mul 1 t) (vals (i_err x)))) (set "TRK_ERRS" (HB false) h') (i_dq x) (i_dqh x) (i_list x) ("ERR" :: "DQ" :: map h_name (i_list x)) d m). apply (reload_iff true); [exact R|]. exists h'. cbn. split; [right; split; [reflexivity|]; exists n, t; auto|]. auto 12.
  - intros z H. apply (reload_iff true) in H; [|exact R]. destruct H as (h' & K & A4 & A1 & A2 & A3 & A5 & A6 & A7 & _). destruct K as [([K|K] & _)|(_ & n' & t' & S' & _ & S1 & V1 & C)]; [discriminate|rewrite S in K; cbn in K; lia|]. rewrite S in S'. injection S' as <- <-.
    pose proof (le_S 2 n L) as L2. destruct (cut_iff n 2 _ _ (le_n 2) L2 N C) as (_ & HI & CO & _ & Z & O). rewrite A4. split; [exact A1|]. split; [exact A2|]. split; [exact A3|]. split; [exact A5|]. split; [exact A6|]. split; [exact A7|]. split; [exact S1|]. split; [exact V1|]. split; [exact HI|]. split; [exact CO|]. split; [rewrite get_set, String.eqb_refl; reflexivity|]. split.
    + intros i H. rewrite get_set. destruct (String.eqb "TRK_ERRS" (layer i)) eqn:Q; [apply String.eqb_eq in Q; exfalso; revert Q; apply layer_not; reflexivity|]. apply Z. exact H.
    + intros k NK H. rewrite get_set. destruct (String.eqb "TRK_ERRS" k) eqn:Q; [apply String.eqb_eq in Q; congruence|]. apply O. exact H.
Qed.

(** ** Refusals *)
Lemma del_layers_raises : forall n i h e, del_layers i n h = Raise e -> e = KeyError.
Proof using. induction n as [|n IH]; intros i h e; cbn [del_layers]; [discriminate|]. unfold bind. destruct (del _ h) as [h1|e1] eqn:D; [apply IH|]. intros H. injection H as <-. apply del_raises in D. tauto. Qed.
Lemma finish_raises : forall track pri ext (data err dq : arr) eh dh gh gd l names d f e, finish track pri ext data err dq eh dh gh gd l names d f = Raise e -> e = KeyError.
Proof using.
  intros track pri ext data err dq eh dh gh gd l names d f e. unfold finish. cbv zeta. unfold bind. destruct (negb track && Nat.ltb 1 (hd 0 (shp err))); [|discriminate]. destruct (del_layers 0 (hd 0 (shp err) - 1) _) as [h1|e1] eqn:D; [discriminate|]. intros H. injection H as <-. exact (del_layers_raises _ _ _ _ D).
Qed.
Lemma finish_can : forall track pri ext (data err dq : arr) eh dh gh gd l names d f, (exists x, finish track pri ext data err dq eh dh gh gd l names d f = Ok x) <-> (track = true \/ hd 0 (shp err) <= 1 \/ exists h', cut_layers 2 (hd 0 (shp err)) (set "EXTNAME" (HS "ERR") (chosen_hdr gh eh)) h').
Proof using.
  intros track pri ext data err dq eh dh gh gd l names d f. split.
  - intros (x & H). apply finish_iff in H. destruct H as (h' & [([K|K] & _)|(_ & n & t & S & _ & _ & _ & C)] & _); [tauto|tauto|]. rewrite S. right. right. exists h'. exact C.
  - intros H. assert (K : exists err' h', kept track err (set "EXTNAME" (HS "ERR") (chosen_hdr gh eh)) err' h').
    { destruct H as [H|[H|(h' & C)]]; [exists err, (set "EXTNAME" (HS "ERR") (chosen_hdr gh eh)); left; auto|exists err, (set "EXTNAME" (HS "ERR") (chosen_hdr gh eh)); left; auto|].
      destruct track; [exists err, (set "EXTNAME" (HS "ERR") (chosen_hdr gh eh)); left; auto|]. destruct (le_lt_dec (hd 0 (shp err)) 1) as [Q|Q]; [exists err, (set "EXTNAME" (HS "ERR") (chosen_hdr gh eh)); left; auto|]. destruct (shp err) as [|n t] eqn:S; [cbn in Q; lia|]. cbn [hd] in *. exists (mka (1 :: t) (firstn (fold_right Nat.mul 1 t) (vals err))), h'. right. split; [reflexivity|]. exists n, t. rewrite S. auto 8. }
    destruct K as (err' & h' & K). exists (mkim (set "ORIGIN" (HS "DRP") pri) (stamped ext) data err' (set "TRK_ERRS" (HB track) h') dq (set "EXTNAME" (HS "DQ") (chosen_hdr gd dh)) l names d f). apply finish_iff. exists h'. split; [exact K|]. repeat split; reflexivity.
Qed.
Theorem new_raises : forall track v now data pri ext err dq gh gd input e, new_image zero track v now data pri ext err dq gh gd input = Raise e <->
  e = ValueError /\ (pri = None \/ ext = None \/ (exists a, err = Some a /\ forall r, ~ err_for data a r) \/ exists a, dq = Some a /\ shp a <> shp data)
  \/ e = KeyError /\ pri <> None /\ ext <> None /\ (exists a, err = Some a /\ exists r, err_for data a r /\ track = false /\ 2 <= hd 0 (shp r) /\ forall h', ~ cut_layers 2 (hd 0 (shp r)) (set "EXTNAME" (HS "ERR") (chosen_hdr gh None)) h') /\ (forall a, dq = Some a -> shp a = shp data).
Proof using.
  intros track v now data pri ext err dq gh gd input e. unfold new_image. destruct pri as [p|]; [|split; [intros H; injection H as <-; left; auto|intros [(-> & _)|(_ & H & _)]; [reflexivity|congruence]]]. destruct ext as [x|]; [|split; [intros H; injection H as <-; left; auto|intros [(-> & _)|(_ & _ & H & _)]; [reflexivity|congruence]]].
  assert (KE : forall a, (exists r, take_err data a = Ok r /\ err_for data a r /\ forall r2, err_for data a r2 -> r2 = r) \/ take_err data a = Raise ValueError /\ forall r, ~ err_for data a r).
  { intros a. pose proof (take_err_iff data a) as T. pose proof (take_err_raises data a) as TR. destruct (take_err data a) as [r|x1]; [left; exists r; split; [reflexivity|]; split; [apply T; reflexivity|intros r2 H; apply T in H; congruence]|right; split; [rewrite (TR _ eq_refl); reflexivity|intros r H; apply T in H; discriminate]]. }
  assert (KD : forall a, shp a = shp data /\ take_dq data a = Ok a \/ shp a <> shp data /\ take_dq data a = Raise ValueError).
  { intros a. unfold take_dq. destruct (list_eqb (shp data) (shp a)) eqn:Q; [left; apply list_eqb_iff in Q; auto|right; split; [intros S; assert (list_eqb (shp data) (shp a) = true) by (apply list_eqb_iff; auto); congruence|reflexivity]]. }
  assert (FN : forall er d names l, (finish track p (set "DRPCTIME" (HS now) (set "DRPVERSN" (HS v) x)) data er d None None gh gd l names "." EmptyString = Raise e <-> e = KeyError /\ track = false /\ 2 <= hd 0 (shp er) /\ forall h', ~ cut_layers 2 (hd 0 (shp er)) (set "EXTNAME" (HS "ERR") (chosen_hdr gh None)) h')).
  { intros er d names l. pose proof (finish_can track p (set "DRPCTIME" (HS now) (set "DRPVERSN" (HS v) x)) data er d None None gh gd l names "." EmptyString) as FC. pose proof (finish_raises track p (set "DRPCTIME" (HS now) (set "DRPVERSN" (HS v) x)) data er d None None gh gd l names "." EmptyString) as FR. destruct (finish track p _ data er d None None gh gd l names "." EmptyString) as [y|e1].
    - split; [discriminate|]. intros (_ & -> & L & C). destruct (proj1 FC (ex_intro _ y eq_refl)) as [H|[H|(h' & H)]]; [discriminate|lia|exfalso; exact (C h' H)].
    - split.
      + intros H. injection H as <-. split; [exact (FR _ eq_refl)|]. assert (NO : ~ (track = true \/ hd 0 (shp er) <= 1 \/ exists h', cut_layers 2 (hd 0 (shp er)) (set "EXTNAME" (HS "ERR") (chosen_hdr gh None)) h')) by (intros H; apply FC in H; destruct H as (y & H); discriminate). split; [destruct track; [exfalso; tauto|reflexivity]|]. split; [destruct (le_lt_dec (hd 0 (shp er)) 1); [exfalso; tauto|lia]|]. intros h' C. apply NO. right. right. exists h'. exact C.
      + intros (-> & _). rewrite (FR _ eq_refl). reflexivity. }
  destruct err as [a|].
  - destruct (KE a) as [(r & T & F & U)|(T & F)]; rewrite T; cbn [bind].
    + destruct dq as [b|].
      * destruct (KD b) as [(S & D)|(S & D)]; rewrite D; cbn [bind].
        -- rewrite FN. split.
           ++ intros (-> & H). right. split; [reflexivity|]. split; [discriminate|]. split; [discriminate|]. split; [exists a; split; [reflexivity|]; exists r; split; [exact F|exact H]|]. intros c Q. injection Q as <-. exact S.
           ++ intros [(_ & [H|[H|[(c & Q & H)|(c & Q & H)]]])|(-> & _ & _ & (c & Q & r2 & F2 & H) & _)]; [discriminate|discriminate|injection Q as <-; exfalso; exact (H r F)|injection Q as <-; contradiction|]. injection Q as <-. apply U in F2. subst r2. split; [reflexivity|exact H].
        -- split; [intros H; injection H as <-; left; split; [reflexivity|]; right; right; right; exists b; auto|]. intros [(-> & _)|(_ & _ & _ & _ & H)]; [reflexivity|]. exfalso. exact (S (H b eq_refl)).
      * cbn [bind]. rewrite FN. split.
        -- intros (-> & H). right. split; [reflexivity|]. split; [discriminate|]. split; [discriminate|]. split; [exists a; split; [reflexivity|]; exists r; split; [exact F|exact H]|]. intros c Q. discriminate.
        -- intros [(_ & [H|[H|[(c & Q & H)|(c & Q & H)]]])|(-> & _ & _ & (c & Q & r2 & F2 & H) & _)]; [discriminate|discriminate|injection Q as <-; exfalso; exact (H r F)|discriminate|]. injection Q as <-. apply U in F2. subst r2. split; [reflexivity|exact H].
    + split; [intros H; injection H as <-; left; split; [reflexivity|]; right; right; left; exists a; auto|]. intros [(-> & _)|(_ & _ & _ & (c & Q & r2 & F2 & _) & _)]; [reflexivity|]. injection Q as <-. exfalso. exact (F r2 F2).
  - cbn [bind]. destruct dq as [b|].
    + destruct (KD b) as [(S & D)|(S & D)]; rewrite D; cbn [bind].
      * rewrite FN. cbn [shp zeros hd]. split; [intros (_ & _ & H & _); lia|]. intros [(_ & [H|[H|[(c & Q & H)|(c & Q & H)]]])|(_ & _ & _ & (c & Q & _) & _)]; try discriminate. injection Q as <-. contradiction.
      * split; [intros H; injection H as <-; left; split; [reflexivity|]; right; right; right; exists b; auto|]. intros [(-> & _)|(_ & _ & _ & _ & H)]; [reflexivity|]. exfalso. exact (S (H b eq_refl)).
    + cbn [bind]. rewrite FN. cbn [shp zeros hd]. split; [intros (_ & _ & H & _); lia|]. intros [(_ & [H|[H|[(c & Q & H)|(c & Q & H)]]])|(_ & _ & _ & (c & Q & _) & _)]; discriminate.
Qed.
(** A file is read unless it has no image, or its layers must go and have no cards *)
Theorem load_plain : forall track p (f : file), ((exists x, load_image zero track p f None None None None None = Ok x) <->
  exists h l er eh l1, f_hdus f = h :: l /\ file_err zero (h_data h) None (map h_name l) l er eh l1 /\ (track = true \/ hd 0 (shp er) <= 1 \/ exists h', cut_layers 2 (hd 0 (shp er)) (set "EXTNAME" (HS "ERR") (chosen_hdr None eh)) h'))
  /\ forall e, load_image zero track p f None None None None None = Raise e -> e = if (match f_hdus f with [] => true | _ => false end) then IndexError else KeyError.
Proof using.
  intros track p f. unfold load_image. destruct (f_hdus f) as [|h l]; [split; [split; [intros (x & H); discriminate|intros (h & l & er & eh & l1 & H & _); discriminate]|intros e H; congruence]|]. cbv zeta.
  pose proof (file_err_iff zero (h_data h) None l (map h_name l)) as KE. set (X := if existsb (String.eqb "ERR") (map h_name l) then _ else _) in KE |- *.
  assert (XO : exists r, X = Ok r). { unfold X. destruct (existsb (String.eqb "ERR") (map h_name l)) eqn:Q; [|eexists; reflexivity]. destruct (pop_name "ERR" l) as [[y r]|] eqn:P; [eexists; reflexivity|]. exfalso. apply in_names in Q. apply in_map_iff in Q. destruct Q as (z & N & I). pose proof (proj1 (pop_none "ERR" l) P z I) as W. rewrite N in W. apply W. reflexivity. }
  destruct XO as ([[er eh] l1] & XO). pose proof (proj1 (KE _) XO) as FE. cbn [fst snd] in FE. rewrite XO. cbn [bind fst snd].
  pose proof (file_dq_iff zero (h_data h) None l1 (map h_name l)) as KD. set (Y := if existsb (String.eqb "DQ") (map h_name l) then _ else _) in KD |- *.
  assert (YO : exists r, Y = Ok r). { unfold Y. destruct (existsb (String.eqb "DQ") (map h_name l)) eqn:Q; [|eexists; reflexivity]. destruct (pop_name "DQ" l1) as [[y r]|] eqn:P; [eexists; reflexivity|]. exfalso. apply in_names in Q. apply in_map_iff in Q. destruct Q as (z & N & I). assert (I1 : In z l1).
    { destruct FE as [(_ & _ & _ & ->)|(_ & _ & y & (a & b & LE & -> & KN & _) & _)]; [exact I|]. rewrite LE in I. apply in_app_iff in I. apply in_app_iff. destruct I as [I|[<-|I]]; [left; exact I| |right; exact I]. rewrite N in KN. discriminate. }
    pose proof (proj1 (pop_none "DQ" l1) P z I1) as W. rewrite N in W. apply W. reflexivity. }
  destruct YO as ([[d dh] l2] & YO). rewrite YO. cbn [bind fst snd]. split; [|intros e H; exact (finish_raises _ _ _ _ _ _ _ _ _ _ _ _ _ _ _ H)]. rewrite finish_can. split.
  - intros H. exists h, l, er, eh, l1. auto.
  - intros (h2 & l0 & er2 & eh2 & l12 & Q & FE2 & H). injection Q as <- <-. pose proof (proj2 (KE (er2, eh2, l12)) FE2) as Q. rewrite XO in Q. injection Q as <- <- <-. exact H.
Qed.

(** ** Extensions *)
Theorem extend_iff : forall name data header (x y : image), add_extension name data header x = Ok y <->
  ~ In name (i_names x) /\ i_pri y = i_pri x /\ i_ext y = i_ext x /\ i_data y = i_data x /\ i_err y = i_err x /\ i_errh y = i_errh x /\ i_dq y = i_dq x /\ i_dqh y = i_dqh x /\ i_dir y = i_dir x /\ i_file y = i_file x
  /\ i_names y = i_names x ++ [name] /\ exists h, i_list y = i_list x ++ [mkhdu h data] /\ get "EXTNAME" h = Some (HS (up name)) /\ h = set "EXTNAME" (HS (up name)) (match header with Some g => g | None => blank end).
Proof using.
  intros name data header x y. unfold add_extension. pose proof (in_names name (i_names x)) as K. destruct (existsb (String.eqb name) (i_names x)).
  - split; [discriminate|]. intros (H & _). exfalso. apply H. apply K. reflexivity.
  - split.
    + intros H. injection H as <-. split; [intros I; apply K in I; discriminate|]. cbn. do 9 (split; [reflexivity|]). split; [reflexivity|]. eexists. split; [reflexivity|]. split; [rewrite get_set, String.eqb_refl; reflexivity|reflexivity].
    + intros (_ & A1 & A2 & A3 & A4 & A5 & A6 & A7 & A8 & A9 & A10 & h & A11 & _ & ->). destruct y. cbn in *. subst. reflexivity.
Qed.
Theorem extend_raises : forall name data header (x : image) e, add_extension name data header x = Raise e <-> In name (i_names x) /\ e = ValueError.
Proof using.
  intros name data header x e. unfold add_extension. pose proof (in_names name (i_names x)) as K. destruct (existsb (String.eqb name) (i_names x)); split; try discriminate.
  - intros H. injection H as <-. split; [apply K; reflexivity|reflexivity].
  - intros (_ & ->). reflexivity.
  - intros (H & _). apply K in H. discriminate.
Qed.
Theorem extend_ready : forall track name data header (x y : image), ready track x -> add_extension name data header x = Ok y -> ready track y.
Proof using.
  intros track name data header x y [R1 R2 R3 R4 R5 R6 R7] H. apply extend_iff in H. destruct H as (_ & A1 & A2 & A3 & A4 & A5 & A6 & A7 & _). constructor; rewrite ?A1, ?A2, ?A3, ?A4, ?A5, ?A6, ?A7; assumption.
Qed.
(** An extension survives, under its upper-case name *)
Theorem extend_round : forall track name data header (x y y2 : image) dir fname p f, ready track x -> add_extension name data header x = Ok y -> save_image dir fname y = (y2, Ok (p, f)) ->
  exists z h, load_image zero track p f None None None None None = Ok z /\ i_list z = i_list x ++ [h] /\ h_data h = data /\ h_name h = up name /\ i_names z = "ERR" :: "DQ" :: map h_name (i_list x) ++ [up name]
  /\ forall other d hd, up other = up name -> (other = up name -> add_extension other d hd z = Raise ValueError) /\ (other <> up name -> (forall h0, In h0 (i_list x) -> h_name h0 <> other) -> other <> "ERR" -> other <> "DQ" -> exists z2, add_extension other d hd z = Ok z2).
Proof using.
  intros track name data header x y y2 dir fname p f R A S. pose proof (extend_ready _ _ _ _ _ _ R A) as RY. apply extend_iff in A. destruct A as (_ & _ & _ & _ & _ & _ & _ & _ & _ & _ & _ & h & LE & EX & _). destruct (round_trip _ _ _ _ _ _ _ RY S) as (z & LZ & (_ & _ & _ & _ & _ & _ & _ & LS) & NM & _). assert (HN : h_name (mkhdu h data) = up name) by (unfold h_name; cbn [h_hdr]; rewrite EX; reflexivity).
  assert (NZ : i_names z = "ERR" :: "DQ" :: map h_name (i_list x) ++ [up name]) by (rewrite NM, LE, map_app; cbn [map]; rewrite HN; reflexivity).
  exists z, (mkhdu h data). split; [exact LZ|]. split; [rewrite LS; exact LE|]. split; [reflexivity|]. split; [exact HN|]. split; [exact NZ|].
  intros other d hd Q. split; [intros ->; apply extend_raises; split; [|reflexivity]; rewrite NZ; right; right; apply in_app_iff; right; left; reflexivity|].
  intros N NI N1 N2. destruct (add_extension other d hd z) as [z2|e] eqn:AZ; [exists z2; reflexivity|]. exfalso. apply extend_raises in AZ. destruct AZ as (I & _). rewrite NZ in I. destruct I as [I|[I|I]]; [congruence|congruence|]. apply in_app_iff in I. destruct I as [I|[I|[]]]; [|congruence]. apply in_map_iff in I. destruct I as (h0 & H0 & I). exact (NI h0 I H0).
Qed.
End Laws.
