(** Frames and FITS files meet their specification. *)
From Coq Require Import List Arith Bool String Ascii ZArith QArith Lia.
From Verif Require Import Base DiskModel DiskSpec.
Import ListNotations.
Local Open Scope nat_scope.
Local Open Scope string_scope.
Local Open Scope list_scope.

(** ** Headers *)
Lemma get_set : forall k v h j, get j (set k v h) = if String.eqb k j then Some v else get j h.
Proof.
  intros k v [l hi co] j. unfold get, set. cbn [cards]. induction l as [|[a w] l IH]; cbn [put_card find_card].
  - reflexivity.
  - destruct (String.eqb a k) eqn:A.
    + apply String.eqb_eq in A. subst a. cbn [find_card]. destruct (String.eqb k j); reflexivity.
    + cbn [find_card]. rewrite IH. destruct (String.eqb a j) eqn:B; [|reflexivity]. apply String.eqb_eq in B. subst a. rewrite String.eqb_sym, A. reflexivity.
Qed.
Lemma set_hist : forall k v h, hist (set k v h) = hist h /\ comm (set k v h) = comm h.
Proof. intros. split; reflexivity. Qed.
Lemma set_same : forall k v h, get k h = Some v -> set k v h = h.
Proof.
  intros k v [l hi co] H. unfold set, get in *. cbn [cards hist comm] in *. f_equal. induction l as [|[a w] l IH]; cbn [put_card find_card] in *; [discriminate|]. destruct (String.eqb a k); [congruence|]. rewrite (IH H). reflexivity.
Qed.
Lemma set_keys : forall k v h, NoDup (map fst (cards h)) -> NoDup (map fst (cards (set k v h))) .
Proof.
  intros k v [l hi co] N. unfold set. cbn [cards] in *. assert (K : forall j, In j (map fst (put_card k v l)) -> j = k \/ In j (map fst l)).
  { clear N. induction l as [|[a w] l IH]; intros j; cbn [put_card map fst In]; [intros [<-|[]]; left; reflexivity|]. destruct (String.eqb a k); cbn [map fst In]; [tauto|]. intros [<-|I]; [tauto|]. destruct (IH _ I); tauto. }
  induction l as [|[a w] l IH]; cbn [put_card map fst]; [constructor; [intros []|constructor]|]. cbn [map fst] in N. inversion N as [|? ? Na Nl]; subst. destruct (String.eqb a k) eqn:A; cbn [map fst]; [exact N|]. constructor; [|apply IH; [exact Nl|]].
  - intros I. assert (KK : a = k \/ In a (map fst l)). { clear - I. induction l as [|[b w] l IH]; cbn [put_card map fst In] in I |- *; [destruct I as [<-|[]]; tauto|]. destruct (String.eqb b k); cbn [map fst In] in I; [tauto|]. destruct I as [<-|I]; [tauto|]. destruct (IH I); tauto. } destruct KK as [->|I2]; [rewrite String.eqb_refl in A; discriminate|exact (Na I2)].
  - intros j. clear. induction l as [|[b w] l IH]; cbn [put_card map fst In]; [intros [<-|[]]; left; reflexivity|]. destruct (String.eqb b k); cbn [map fst In]; [tauto|]. intros [<-|I]; [tauto|]. destruct (IH I); tauto.
Qed.
Lemma find_in : forall k l, find_card k l = None <-> ~ In k (map fst l).
Proof.
  intros k. induction l as [|[a w] l IH]; cbn [find_card map fst In]; [split; [intros _ []|reflexivity]|]. destruct (String.eqb a k) eqn:A; [apply String.eqb_eq in A; subst; split; [discriminate|intros H; exfalso; apply H; left; reflexivity]|]. rewrite IH. split; [intros H [->|I]; [rewrite String.eqb_refl in A; discriminate|exact (H I)]|tauto].
Qed.
Lemma del_ok : forall k h h1, del k h = Ok h1 -> get k h <> None /\ hist h1 = hist h /\ comm h1 = comm h.
Proof. intros k h h1. unfold del, has. destruct (get k h) eqn:G; [|discriminate]. intros H. injection H as <-. split; [discriminate|]. split; reflexivity. Qed.
Lemma del_iff : forall k h, (exists h1, del k h = Ok h1) <-> get k h <> None.
Proof. intros k h. unfold del, has. destruct (get k h); split; [discriminate|eexists; reflexivity|intros (h1 & H); discriminate|intros H; exfalso; apply H; reflexivity]. Qed.
Lemma del_raises : forall k h e, del k h = Raise e <-> get k h = None /\ e = KeyError.
Proof. intros k h e. unfold del, has. destruct (get k h); split; [discriminate|intros (H & _); discriminate|intros H; injection H as <-; split; reflexivity|intros (_ & ->); reflexivity]. Qed.
Lemma drop_in : forall k l j, In j (map fst (drop_card k l)) -> In j (map fst l).
Proof. intros k. induction l as [|[a w] l IH]; intros j; cbn [drop_card map fst In]; [tauto|]. destruct (String.eqb a k); cbn [map fst In]; [tauto|]. intros [<-|I]; [tauto|right; exact (IH _ I)]. Qed.
Lemma del_get : forall k h h1, NoDup (map fst (cards h)) -> del k h = Ok h1 -> NoDup (map fst (cards h1)) /\ forall j, get j h1 = if String.eqb k j then None else get j h.
Proof.
  intros k [l hi co] h1 N. unfold del, has, get. cbn [cards] in *. destruct (find_card k l) eqn:G; [|discriminate]. intros H. injection H as <-. cbn [cards]. clear G. split.
  - induction l as [|[a w] l IH]; cbn [drop_card map fst]; [constructor|]. cbn [map fst] in N. inversion N; subst. destruct (String.eqb a k); [assumption|]. cbn [map fst]. constructor; [intros I; apply drop_in in I; contradiction|apply IH; assumption].
  - intros j. induction l as [|[a w] l IH]; cbn [drop_card find_card]; [destruct (String.eqb k j); reflexivity|]. cbn [map fst] in N. inversion N as [|? ? Na Nl]; subst. destruct (String.eqb a k) eqn:A.
    + apply String.eqb_eq in A. subst a. destruct (String.eqb k j) eqn:B; [|reflexivity]. apply String.eqb_eq in B. subst j. apply find_in. exact Na.
    + cbn [find_card]. rewrite (IH Nl). destruct (String.eqb a j) eqn:B; [|reflexivity]. apply String.eqb_eq in B. subst j. rewrite String.eqb_sym, A. reflexivity.
Qed.
Lemma set_new_get : forall k v h j, get j (set_new k v h) = if String.eqb k j then match get k h with Some w => Some w | None => Some v end else get j h.
Proof.
  intros k v h j. unfold set_new, has. destruct (get k h) as [w|] eqn:G; [|apply get_set]. destruct (String.eqb k j) eqn:B; [|reflexivity]. apply String.eqb_eq in B. subst j. exact G.
Qed.
Lemma set_new_same : forall k v h, get k h <> None -> set_new k v h = h.
Proof. intros k v h H. unfold set_new, has. destruct (get k h); [reflexivity|contradiction]. Qed.
Lemma stamped_get : forall ext j, get j (stamped ext) = match get j ext with Some v => Some v | None => if existsb (String.eqb j) ["DESMEAR"; "CTI_CORR"; "IS_BAD"] then Some (HB false) else None end.
Proof.
  intros ext j. unfold stamped. rewrite !set_new_get. change (existsb (String.eqb j) ["DESMEAR"; "CTI_CORR"; "IS_BAD"]) with (String.eqb j "DESMEAR" || (String.eqb j "CTI_CORR" || (String.eqb j "IS_BAD" || false))). rewrite !(String.eqb_sym j).
  destruct (String.eqb "IS_BAD" j) eqn:A; [apply String.eqb_eq in A; subst j; cbn; destruct (get "IS_BAD" ext); reflexivity|]. destruct (String.eqb "CTI_CORR" j) eqn:B; [apply String.eqb_eq in B; subst j; cbn; destruct (get "CTI_CORR" ext); reflexivity|].
  destruct (String.eqb "DESMEAR" j) eqn:C0; [apply String.eqb_eq in C0; subst j; cbn; destruct (get "DESMEAR" ext); reflexivity|]. cbn [orb]. destruct (get j ext); reflexivity.
Qed.
Lemma stamped_same : forall ext, get "DESMEAR" ext <> None -> get "CTI_CORR" ext <> None -> get "IS_BAD" ext <> None -> stamped ext = ext.
Proof. intros ext A B C0. unfold stamped. rewrite (set_new_same "DESMEAR") by exact A. rewrite (set_new_same "CTI_CORR") by exact B. apply set_new_same. exact C0. Qed.

(** ** Paths *)
Lemma app_str_assoc : forall a b c : string, ((a ++ b) ++ c)%string = (a ++ (b ++ c))%string.
Proof. induction a as [|x a IH]; intros b c; [reflexivity|]. cbn. rewrite IH. reflexivity. Qed.
Lemma no_slash_cons : forall c s, no_slash (String c s) <-> c <> "/"%char /\ no_slash s.
Proof.
  intros c s. split.
  - intros H. split; [intros ->; exact (H EmptyString s eq_refl)|]. intros a b E. apply (H (String c a) b). rewrite E. reflexivity.
  - intros (A & B) [|x a] b E; cbn in E; injection E as E1 E2; [contradiction|]. exact (B a b E2).
Qed.
Lemma no_slash_nil : no_slash EmptyString.
Proof. intros [|x a] b H; discriminate. Qed.
Lemma split_flat : forall s, no_slash s -> split_slash s = [s].
Proof.
  induction s as [|c s IH]; intros H; [reflexivity|]. apply no_slash_cons in H. destruct H as (A & B). cbn [split_slash]. destruct (Ascii.eqb c "/") eqn:Q; [apply Ascii.eqb_eq in Q; contradiction|]. rewrite (IH B). reflexivity.
Qed.
Lemma split_some : forall s, exists a r, split_slash s = a :: r.
Proof. induction s as [|c s (a & r & E)]; [exists EmptyString, []; reflexivity|]. cbn [split_slash]. destruct (Ascii.eqb c "/"); [eexists; eexists; reflexivity|]. rewrite E. eexists; eexists; reflexivity. Qed.
Lemma split_app_slash : forall d f, split_slash (d ++ "/" ++ f)%string = split_slash d ++ split_slash f.
Proof.
  induction d as [|c d IH]; intros f; [reflexivity|]. cbn [append split_slash app]. destruct (Ascii.eqb c "/"); [cbn [app]; rewrite <- IH; reflexivity|]. cbn [append] in IH. rewrite IH. destruct (split_some d) as (a & r & ->). reflexivity.
Qed.
Lemma join_cons : forall a b r, join_slash (a :: b :: r) = (a ++ "/" ++ join_slash (b :: r))%string.
Proof. reflexivity. Qed.
Lemma join_split : forall s, join_slash (split_slash s) = s.
Proof.
  induction s as [|c s IH]; [reflexivity|]. cbn [split_slash]. destruct (split_some s) as (a & r & E). destruct (Ascii.eqb c "/") eqn:Q.
  - apply Ascii.eqb_eq in Q. subst c. rewrite E in *. rewrite join_cons, IH. reflexivity.
  - rewrite E in *. destruct r as [|b r]; [cbn [join_slash] in *; rewrite IH; reflexivity|]. rewrite join_cons in *. change (String c a ++ "/" ++ join_slash (b :: r))%string with (String c (a ++ "/" ++ join_slash (b :: r))). rewrite IH. reflexivity.
Qed.
Lemma last_flat : forall s, no_slash (last (split_slash s) EmptyString).
Proof.
  induction s as [|c s IH]; [exact no_slash_nil|]. cbn [split_slash]. destruct (split_some s) as (a & r & E). rewrite E in *. destruct (Ascii.eqb c "/") eqn:Q; [exact IH|].
  destruct r as [|b r]; [|exact IH]. cbn [last] in *. apply no_slash_cons. split; [|exact IH]. intros ->. rewrite Ascii.eqb_refl in Q. discriminate.
Qed.
Lemma removelast_join : forall r a b, join_slash (a :: b :: r) = (join_slash (removelast (a :: b :: r)) ++ "/" ++ last (a :: b :: r) EmptyString)%string.
Proof.
  induction r as [|c r IH]; intros a b; [reflexivity|].
  rewrite join_cons, IH. change (removelast (a :: b :: c :: r)) with (a :: removelast (b :: c :: r)). change (last (a :: b :: c :: r) EmptyString) with (last (b :: c :: r) EmptyString).
  change (removelast (b :: c :: r)) with (b :: removelast (c :: r)). rewrite join_cons, !app_str_assoc. reflexivity.
Qed.
Lemma removelast_split : forall s a b r, split_slash s = a :: b :: r -> s = (join_slash (removelast (split_slash s)) ++ "/" ++ last (split_slash s) EmptyString)%string.
Proof. intros s a b r E. rewrite <- (join_split s) at 1. rewrite E. apply removelast_join. Qed.
Lemma split_single : forall s a, split_slash s = [a] -> no_slash s /\ a = s.
Proof.
  intros s a H. assert (a = s) by (rewrite <- (join_split s), H; reflexivity). subst a. split; [|reflexivity]. pose proof (last_flat s) as L. rewrite H in L. exact L.
Qed.
Lemma dir_name_iff : forall p d f, dir_name p = (d, f) <-> splits p d f.
Proof.
  intros p d f. unfold dir_name, splits. destruct (split_some p) as (a & r & E). destruct r as [|b r].
  - rewrite E. destruct (split_single p a E) as (N & ->). split; [intros H; injection H as <- <-; left; auto|]. intros [(_ & -> & ->)|(-> & _)]; [reflexivity|]. exfalso. exact (N d f eq_refl).
  - rewrite E, <- E. pose proof (removelast_split p a b r E) as R. pose proof (last_flat p) as L. split.
    + intros H. injection H as <- <-. right. split; [exact R|exact L].
    + intros [(N & _)|(-> & N)]; [rewrite (split_flat p N) in E; discriminate|]. rewrite split_app_slash, (split_flat f N). rewrite removelast_last, last_last, join_split. reflexivity.
Qed.
Lemma path_join_flat : forall d f, no_slash f -> path_join d f = if orb (String.eqb d "") (ends_slash d) then (d ++ f)%string else (d ++ "/" ++ f)%string.
Proof.
  intros d f N. unfold path_join. destruct (String.prefix "/" f) eqn:P; [|reflexivity]. destruct f as [|c f]; [discriminate|]. exfalso. change (String.prefix "/" (String c f)) with (if ascii_dec "/" c then String.prefix EmptyString f else false) in P. destruct (ascii_dec "/" c) as [<-|]; [|discriminate]. exact (N EmptyString f eq_refl).
Qed.
Lemma ends_iff : forall d, ends_slash d = true <-> exists a, d = (a ++ "/")%string.
Proof.
  induction d as [|c d IH]; [split; [discriminate|intros ([|x a] & H); discriminate]|]. cbn [ends_slash]. destruct d as [|c2 d].
  - rewrite Ascii.eqb_eq. split; [intros ->; exists EmptyString; reflexivity|intros ([|x [|y a]] & H); cbn in H; injection H; congruence].
  - rewrite IH. split; [intros (a & ->); exists (String c a); reflexivity|]. intros ([|x a] & H); cbn in H; injection H as H1 H2; [discriminate|]. exists a. exact H2.
Qed.
(** The place of a frame, written and read *)
Lemma path_back : forall d f d' f', no_slash f -> (splits (path_join d f) d' f' <->
  f' = f /\ (d = EmptyString /\ d' = "." \/ d <> EmptyString /\ (d = (d' ++ "/")%string \/ (forall a, d <> (a ++ "/")%string) /\ d' = d))).
Proof.
  intros d f d' f' N. rewrite <- dir_name_iff, path_join_flat by exact N. destruct (String.eqb d "") eqn:Z.
  - apply String.eqb_eq in Z. subst d. cbn [orb append]. unfold dir_name. rewrite (split_flat f N). split; [intros H; injection H as <- <-; split; [reflexivity|left; split; reflexivity]|]. intros (-> & [(_ & ->)|(H & _)]); [reflexivity|contradiction].
  - assert (NZ : d <> EmptyString) by (intros ->; discriminate). cbn [orb]. destruct (ends_slash d) eqn:S.
    + apply ends_iff in S. destruct S as (a & ->). rewrite app_str_assoc, dir_name_iff. split.
      * intros H. assert (D : splits (a ++ "/" ++ f)%string a f) by (right; split; [reflexivity|exact N]). apply dir_name_iff in H. apply dir_name_iff in D. rewrite D in H. injection H as <- <-. split; [reflexivity|]. right. split; [exact NZ|left; reflexivity].
      * intros (-> & [(H & _)|(_ & [H|(H & _)])]); [contradiction| |exfalso; exact (H a eq_refl)]. right. split; [|exact N]. assert (a = d'). { clear - H. revert d' H. induction a as [|c a IH]; intros [|c' d'] H; cbn in H; [reflexivity|injection H as _ H; destruct d'; discriminate|injection H as _ H; destruct a; discriminate|injection H as -> H; f_equal; exact (IH _ H)]. } subst. reflexivity.
    + assert (NS : forall a, d <> (a ++ "/")%string) by (intros a ->; assert (ends_slash (a ++ "/") = true) by (apply ends_iff; exists a; reflexivity); congruence). rewrite dir_name_iff. split.
      * intros H. assert (D : splits (d ++ "/" ++ f)%string d f) by (right; split; [reflexivity|exact N]). apply dir_name_iff in H. apply dir_name_iff in D. rewrite D in H. injection H as <- <-. split; [reflexivity|]. right. split; [exact NZ|right; split; [exact NS|reflexivity]].
      * intros (-> & [(H & _)|(_ & [H|(_ & ->)])]); [contradiction|exfalso; exact (NS _ H)|]. right. split; [reflexivity|exact N].
Qed.

Section Frames.
Context {E : Type}.
Variable zero : E.
Notation arr := (arr E).
Notation hdu := (hdu E).
Notation image := (image E).
Notation file := (file E).

(** ** Arrays *)
Lemma arr_eq : forall a b : arr, shp a = shp b -> vals a = vals b -> a = b.
Proof using. intros [s v] [t w] A B. cbn in *. subst. reflexivity. Qed.
Lemma list_eqb_iff : forall a b, list_eqb a b = true <-> a = b.
Proof using. intros a b. unfold list_eqb. destruct (list_eq_dec Nat.eq_dec a b); split; congruence. Qed.
Lemma lastn_iff : forall {X} (a b : list X), lastn (List.length a) b = a <-> exists pre, b = pre ++ a /\ (a = [] -> pre = []).
Proof using.
  intros X a b. unfold lastn. destruct a as [|x a].
  - cbn. split; [intros ->; exists []; split; reflexivity|intros (pre & -> & H); rewrite (H eq_refl); reflexivity].
  - cbn [List.length]. set (n := S (List.length a)). split.
    + intros H. exists (firstn (List.length b - n) b). split; [rewrite <- H; symmetry; apply firstn_skipn|discriminate].
    + intros (pre & -> & _). rewrite app_length. cbn [List.length]. fold n. replace (List.length pre + n - n) with (List.length pre) by lia. rewrite skipn_app, skipn_all, Nat.sub_diag. reflexivity.
Qed.
Lemma take_err_iff : forall data err e : arr, take_err data err = Ok e <-> err_for data err e.
Proof using.
  intros data err e. unfold take_err, err_for, ndim. destruct (list_eqb (shp data) (lastn (List.length (shp data)) (shp err))) eqn:L.
  - apply list_eqb_iff in L. symmetry in L. apply lastn_iff in L. destruct L as (pre & S & Z). rewrite S, app_length. assert (U : forall p, pre ++ shp data = p ++ shp data -> p = pre) by (intros p H; apply app_inv_tail in H; congruence). split.
    + intros H. injection H as <-. exists pre. split; [reflexivity|]. split; [exact Z|]. destruct (Nat.eqb (List.length pre + List.length (shp data)) (List.length (shp data) + 1)) eqn:Q; [left; apply Nat.eqb_eq in Q; split; [lia|reflexivity]|right; apply Nat.eqb_neq in Q; split; [lia|]; cbn; rewrite S; split; reflexivity].
    + intros (p & S2 & _ & C0). apply U in S2. subst p. destruct C0 as [(L1 & ->)|(L1 & S1 & V1)].
      * replace (Nat.eqb (List.length pre + List.length (shp data)) (List.length (shp data) + 1)) with true by (symmetry; apply Nat.eqb_eq; lia). reflexivity.
      * replace (Nat.eqb (List.length pre + List.length (shp data)) (List.length (shp data) + 1)) with false by (symmetry; apply Nat.eqb_neq; lia). f_equal. apply arr_eq; [cbn; rewrite S1, S; reflexivity|cbn; symmetry; exact V1].
  - split; [discriminate|]. intros (pre & S & Z & _). exfalso. assert (X : list_eqb (shp data) (lastn (List.length (shp data)) (shp err)) = true); [|congruence]. apply list_eqb_iff. symmetry. apply lastn_iff. exists pre. split; [exact S|exact Z].
Qed.
Lemma take_err_raises : forall (data err : arr) x, take_err data err = Raise x -> x = ValueError.
Proof using. intros data err x. unfold take_err. destruct (list_eqb _ _); [discriminate|congruence]. Qed.
Lemma zeros_iff : forall s a, a = zeros E zero s <-> all_zero zero s a.
Proof using.
  intros s a. unfold all_zero, zeros. split.
  - intros ->. cbn [shp vals]. split; [reflexivity|]. split; [|apply repeat_length]. apply Forall_forall. intros x I. symmetry. exact (repeat_spec _ _ _ I).
  - intros (S & F & L). apply arr_eq; [exact S|]. cbn [vals]. change (fold_right Nat.mul 1 s) with (size s) in L. rewrite <- L. clear S L. induction F as [|x l <- _ IH]; [reflexivity|]. cbn. rewrite <- IH. reflexivity.
Qed.
Lemma pop_iff : forall k (l : list hdu) y r, pop_name k l = Some (y, r) <-> first_named k l y r.
Proof using.
  intros k. induction l as [|x l IH]; intros y r; cbn [pop_name].
  - split; [discriminate|intros ([|? ?] & b & H & _); discriminate].
  - destruct (String.eqb (up (h_name x)) k) eqn:Q.
    + apply String.eqb_eq in Q. split; [intros H; injection H as <- <-; exists [], l; split; [reflexivity|]; split; [reflexivity|]; split; [exact Q|intros ? []]|].
      intros ([|z a] & b & H & -> & K & N); cbn [app] in H; [injection H as <- <-; reflexivity|]. injection H as <- _. exfalso. exact (N x (or_introl eq_refl) Q).
    + apply String.eqb_neq in Q. split.
      * destruct (pop_name k l) as [[y' r']|] eqn:P0; [|discriminate]. intros H. injection H as -> <-. pose proof (proj1 (IH _ _) eq_refl) as P. clear P0. destruct P as (a & b & -> & -> & K & N). exists (x :: a), b. split; [reflexivity|]. split; [reflexivity|]. split; [exact K|]. intros z [<-|I]; [exact Q|exact (N z I)].
      * intros ([|z a] & b & H & -> & K & N); cbn [app] in H; [injection H as <- _; contradiction|]. injection H as <- ->. assert (P : pop_name k (a ++ y :: b) = Some (y, a ++ b)) by (apply IH; exists a, b; split; [reflexivity|]; split; [reflexivity|]; split; [exact K|intros z I; exact (N z (or_intror I))]). rewrite P. reflexivity.
Qed.
Lemma pop_none : forall k (l : list hdu), pop_name k l = None <-> forall x, In x l -> up (h_name x) <> k.
Proof using.
  intros k. induction l as [|x l IH]; cbn [pop_name]; [split; [intros _ x []|reflexivity]|]. destruct (String.eqb (up (h_name x)) k) eqn:Q; [apply String.eqb_eq in Q; split; [discriminate|intros H; exfalso; exact (H x (or_introl eq_refl) Q)]|]. apply String.eqb_neq in Q.
  destruct (pop_name k l) as [[y r]|]; split; try discriminate.
  - intros H. exfalso. assert (N : Some (y, r) = None) by (apply IH; intros z I; exact (H z (or_intror I))). discriminate.
  - intros _ z [<-|I]; [exact Q|]. apply IH; [reflexivity|exact I].
  - reflexivity.
Qed.

(** ** Error layers *)
Lemma layers_iff : forall n i h h1, del_layers i n h = Ok h1 <-> cut_layers (i + 2) (i + n + 1) h h1.
Proof using.
  induction n as [|n IH]; intros i h h1; cbn [del_layers].
  - split; [intros H; injection H as <-; replace (i + 2) with (S (i + 0 + 1)) by lia; constructor|]. intros H. inversion H; subst; [reflexivity|lia].
  - unfold bind. destruct (del ("LAYER_" ++ decimal (i + 2))%string h) as [h2|e] eqn:D.
    + rewrite IH. replace (i + 1 + 2) with (S (i + 2)) by lia. replace (i + 1 + n + 1) with (i + S n + 1) by lia. split.
      * intros H. apply (cl_one _ _ _ h2); [lia|exact D|exact H].
      * intros H. inversion H; subst; [lia|]. unfold layer in *. rewrite D in *. match goal with A : Ok _ = Ok _ |- _ => injection A as -> end. assumption.
    + split; [discriminate|]. intros H. inversion H; subst; [lia|]. unfold layer in *. congruence.
Qed.
Lemma kept_iff : forall track (err : arr) h err' h',
  (if andb (negb track) (Nat.ltb 1 (hd 0 (shp err))) then do h1 <- del_layers 0 (hd 0 (shp err) - 1) h; Ok (h1, first_plane err) else Ok (h, err)) = Ok (h', err') <-> kept track err h err' h'.
Proof using.
  intros track err h err' h'. unfold kept. destruct track; cbn [negb andb].
  - split; [intros H; injection H as <- <-; left; auto|]. intros [(_ & -> & ->)|(H & _)]; [reflexivity|discriminate].
  - destruct (Nat.ltb 1 (hd 0 (shp err))) eqn:L.
    + apply Nat.ltb_lt in L. destruct (shp err) as [|n t] eqn:S; [cbn in L; lia|]. cbn [hd] in *.
      assert (FP : first_plane err = mka (1 :: t) (firstn (fold_right Nat.mul 1 t) (vals err))). { unfold first_plane. rewrite S. replace (Nat.min 1 n) with 1 by lia. rewrite Nat.mul_1_l. reflexivity. } rewrite FP. unfold bind. split.
      * destruct (del_layers 0 (n - 1) h) as [h1|e] eqn:D; [|discriminate]. intros H. injection H as <- <-. right. split; [reflexivity|]. exists n, t. split; [reflexivity|]. split; [lia|]. split; [reflexivity|]. split; [reflexivity|]. apply layers_iff in D. replace (0 + (n - 1) + 1) with n in D by lia. exact D.
      * intros [([H|H] & _)|(_ & n' & t' & S' & L' & S1 & V1 & C0)]; [discriminate|lia|]. injection S' as <- <-. assert (D : del_layers 0 (n - 1) h = Ok h') by (apply layers_iff; replace (0 + (n - 1) + 1) with n by lia; exact C0). rewrite D. f_equal. f_equal. apply arr_eq; symmetry; assumption.
    + apply Nat.ltb_ge in L. split; [intros H; injection H as <- <-; left; auto|]. intros [(_ & -> & ->)|(_ & n & t & S & L' & _)]; [reflexivity|]. rewrite S in L. cbn in L. lia.
Qed.
Lemma finish_iff : forall track pri ext (data err dq : arr) eh dh gh gd l names d f x,
  finish track pri ext data err dq eh dh gh gd l names d f = Ok x <-> assembled track pri ext data err dq (chosen_hdr gh eh) (chosen_hdr gd dh) l names d f x.
Proof using.
  intros track pri ext data err dq eh dh gh gd l names d f x. unfold finish, assembled. fold (stamped ext).
  cbv zeta. fold (chosen_hdr gh eh). fold (chosen_hdr gd dh). set (h0 := set "EXTNAME" (HS "ERR") (chosen_hdr gh eh)). pose proof (kept_iff track err h0) as K. set (X := if negb track && Nat.ltb 1 (hd 0 (shp err)) then _ else _) in K |- *. unfold bind. destruct X as [[h' err']|e]; cbn [fst snd].
  - split.
    + intros H. injection H as <-. exists h'. split; [apply K; reflexivity|]. cbn. auto 12.
    + intros (h1 & KP & A1 & A2 & A3 & A4 & A5 & A6 & A7 & A8 & A9 & A10). apply K in KP. injection KP as -> KE. destruct x. cbn in *. subst. reflexivity.
  - split; [discriminate|]. intros (h1 & KP & _). apply K in KP. discriminate.
Qed.

(** ** Frames *)
Theorem new_iff : forall track v now data pri ext err dq gh gd input (x : image), new_image zero track v now data pri ext err dq gh gd input = Ok x <->
  exists p e er d, pri = Some p /\ ext = Some e /\ plain_err zero data err er /\ plain_dq zero data dq d
  /\ assembled track p (set "DRPCTIME" (HS now) (set "DRPVERSN" (HS v) e)) data er d (chosen_hdr gh None) (chosen_hdr gd None)
       (match input with Some i => i | None => [] end) ("ERR" :: "DQ" :: map h_name (match input with Some i => i | None => [] end)) "." EmptyString x.
Proof using.
  intros track v now data pri ext err dq gh gd input x. unfold new_image. destruct pri as [p|]; [|split; [discriminate|intros (? & ? & ? & ? & H & _); discriminate]]. destruct ext as [e|]; [|split; [discriminate|intros (? & ? & ? & ? & _ & H & _); discriminate]].
  assert (KE : forall er, match err with Some e => take_err data e | None => Ok (zeros E zero (1 :: shp data)) end = Ok er <-> plain_err zero data err er).
  { intros er. destruct err as [e0|]; cbn [plain_err]; [apply take_err_iff|]. split; [intros H; injection H as <-; apply zeros_iff; reflexivity|]. intros H. apply zeros_iff in H. subst. reflexivity. }
  assert (KD : forall d, match dq with Some d => take_dq data d | None => Ok (zeros E zero (shp data)) end = Ok d <-> plain_dq zero data dq d).
  { intros d. destruct dq as [d0|]; cbn [plain_dq]; [unfold take_dq; destruct (list_eqb (shp data) (shp d0)) eqn:L|].
    - apply list_eqb_iff in L. split; [intros H; injection H as <-; split; [symmetry; exact L|reflexivity]|intros (_ & ->); reflexivity].
    - split; [discriminate|]. intros (S & _). assert (list_eqb (shp data) (shp d0) = true) by (apply list_eqb_iff; symmetry; exact S). congruence.
    - split; [intros H; injection H as <-; apply zeros_iff; reflexivity|]. intros H. apply zeros_iff in H. subst. reflexivity. }
  destruct (match err with Some e0 => take_err data e0 | None => Ok (zeros E zero (1 :: shp data)) end) as [er|x1]; cbn [bind].
  - destruct (match dq with Some d => take_dq data d | None => Ok (zeros E zero (shp data)) end) as [d|x2]; cbn [bind].
    + rewrite finish_iff. split.
      * intros A. exists p, e, er, d. split; [reflexivity|]. split; [reflexivity|]. split; [apply KE; reflexivity|]. split; [apply KD; reflexivity|exact A].
      * intros (p' & e' & er' & d' & P & X & PE & PD & A). injection P as <-. injection X as <-. apply KE in PE. apply KD in PD. injection PE as <-. injection PD as <-. exact A.
    + split; [discriminate|]. intros (p' & e' & er' & d' & _ & _ & _ & PD & _). apply KD in PD. discriminate.
  - split; [discriminate|]. intros (p' & e' & er' & d' & _ & _ & PE & _). apply KE in PE. discriminate.
Qed.
Lemma in_names : forall k (names : list string), existsb (String.eqb k) names = true <-> In k names.
Proof using. intros k names. rewrite existsb_exists. split; [intros (x & I & Q); apply String.eqb_eq in Q; subst; exact I|intros I; exists k; split; [exact I|apply String.eqb_refl]]. Qed.
Lemma file_err_iff : forall data err (l : list hdu) names r,
  (match err with
   | Some e => do e1 <- take_err data e; Ok (e1, None, l)
   | None => if existsb (String.eqb "ERR") names
             then match pop_name "ERR" l with None => Raise KeyError | Some (y, r) => Ok (if Nat.eqb (ndim (h_data y)) (ndim data) then one_more (h_data y) else h_data y, Some (h_hdr y), r) end
             else Ok (zeros E zero (1 :: shp data), None, l)
   end) = Ok r <-> file_err zero data err names l (fst (fst r)) (snd (fst r)) (snd r).
Proof using.
  intros data err l names [[e h] r]. cbn [fst snd]. unfold file_err. destruct err as [e0|].
  - cbn [plain_err]. destruct (take_err data e0) as [e1|x] eqn:T; cbn [bind].
    + split; [intros H; injection H as <- <- <-; left; split; [left; discriminate|]; split; [apply take_err_iff; exact T|split; reflexivity]|]. intros [(_ & H & -> & ->)|(H & _)]; [|discriminate]. apply take_err_iff in H. congruence.
    + split; [discriminate|]. intros [(_ & H & _)|(H & _)]; [|discriminate]. apply take_err_iff in H. congruence.
  - cbn [plain_err]. destruct (existsb (String.eqb "ERR") names) eqn:X.
    + apply in_names in X. pose proof (fun y r => pop_iff "ERR" l y r) as P. destruct (pop_name "ERR" l) as [[y r']|].
      * assert (FN : first_named "ERR" l y r') by (apply P; reflexivity). unfold ndim. split.
        -- intros H. injection H as <- <- <-. right. split; [reflexivity|]. split; [exact X|]. exists y. split; [exact FN|]. split; [reflexivity|]. destruct (Nat.eqb (List.length (shp (h_data y))) (List.length (shp data))) eqn:Q; [left; apply Nat.eqb_eq in Q; auto|right; apply Nat.eqb_neq in Q; auto].
        -- intros [([H|H] & _)|(_ & _ & y' & F & -> & C0)]; [congruence|contradiction|]. apply P in F. injection F as <- <-. f_equal. f_equal. f_equal. destruct C0 as [(Q & S & V)|(Q & ->)]; [apply Nat.eqb_eq in Q; rewrite Q; apply arr_eq; symmetry; assumption|apply Nat.eqb_neq in Q; rewrite Q; reflexivity].
      * split; [discriminate|]. intros [([H|H] & _)|(_ & _ & y' & F & _)]; [congruence|contradiction|]. apply P in F. discriminate.
    + assert (NI : ~ In "ERR" names) by (intros I; apply in_names in I; congruence). split.
      * intros H. injection H as <- <- <-. left. split; [right; exact NI|]. split; [apply zeros_iff; reflexivity|split; reflexivity].
      * intros [(_ & H & -> & ->)|(_ & H & _)]; [|contradiction]. apply zeros_iff in H. subst. reflexivity.
Qed.
Lemma file_dq_iff : forall data dq (l : list hdu) names r,
  (match dq with
   | Some d => do d1 <- take_dq data d; Ok (d1, None, l)
   | None => if existsb (String.eqb "DQ") names
             then match pop_name "DQ" l with None => Raise KeyError | Some (y, r) => Ok (h_data y, Some (h_hdr y), r) end
             else Ok (zeros E zero (shp data), None, l)
   end) = Ok r <-> file_dq zero data dq names l (fst (fst r)) (snd (fst r)) (snd r).
Proof using.
  intros data dq l names [[e h] r]. cbn [fst snd]. unfold file_dq. destruct dq as [d0|].
  - cbn [plain_dq]. unfold take_dq. destruct (list_eqb (shp data) (shp d0)) eqn:T; cbn [bind].
    + apply list_eqb_iff in T. split; [intros H; injection H as <- <- <-; left; split; [left; discriminate|]; auto|]. intros [(_ & (_ & ->) & -> & ->)|(H & _)]; [reflexivity|discriminate].
    + split; [discriminate|]. intros [(_ & (S & _) & _)|(H & _)]; [|discriminate]. assert (list_eqb (shp data) (shp d0) = true) by (apply list_eqb_iff; symmetry; exact S). congruence.
  - cbn [plain_dq]. destruct (existsb (String.eqb "DQ") names) eqn:X.
    + apply in_names in X. pose proof (fun y r => pop_iff "DQ" l y r) as P. destruct (pop_name "DQ" l) as [[y r']|].
      * assert (FN : first_named "DQ" l y r') by (apply P; reflexivity). split.
        -- intros H. injection H as <- <- <-. right. split; [reflexivity|]. split; [exact X|]. exists y. auto.
        -- intros [([H|H] & _)|(_ & _ & y' & F & -> & ->)]; [congruence|contradiction|]. apply P in F. injection F as <- <-. reflexivity.
      * split; [discriminate|]. intros [([H|H] & _)|(_ & _ & y' & F & _)]; [congruence|contradiction|]. apply P in F. discriminate.
    + assert (NI : ~ In "DQ" names) by (intros I; apply in_names in I; congruence). split.
      * intros H. injection H as <- <- <-. left. split; [right; exact NI|]. split; [apply zeros_iff; reflexivity|split; reflexivity].
      * intros [(_ & H & -> & ->)|(_ & H & _)]; [|contradiction]. apply zeros_iff in H. subst. reflexivity.
Qed.
Theorem load_iff : forall track p (f : file) err dq gh gd input (x : image), load_image zero track p f err dq gh gd input = Ok x <->
  exists h l er eh l1 d dh l2 dir name, f_hdus f = h :: l /\ file_err zero (h_data h) err (map h_name l) l er eh l1 /\ file_dq zero (h_data h) dq (map h_name l) l1 d dh l2
  /\ splits p dir name /\ assembled track (f_pri f) (h_hdr h) (h_data h) er d (chosen_hdr gh eh) (chosen_hdr gd dh) (match input with Some i => i | None => l2 end) (map h_name l) dir name x.
Proof using.
  intros track p f err dq gh gd input x. unfold load_image. destruct (f_hdus f) as [|h l]; [split; [discriminate|intros (? & ? & ? & ? & ? & ? & ? & ? & ? & ? & H & _); discriminate]|]. cbv zeta.
  pose proof (file_err_iff (h_data h) err l (map h_name l)) as KE. set (X := match err with Some e => _ | None => _ end) in KE |- *. destruct X as [[[er eh] l1]|e]; cbn [bind].
  - assert (FE : file_err zero (h_data h) err (map h_name l) l er eh l1) by (apply (KE (er, eh, l1)); reflexivity). cbn [fst snd]. pose proof (file_dq_iff (h_data h) dq l1 (map h_name l)) as KD. set (Y := match dq with Some d => _ | None => _ end) in KD |- *. destruct Y as [[[d dh] l2]|e]; cbn [bind].
    + assert (FD : file_dq zero (h_data h) dq (map h_name l) l1 d dh l2) by (apply (KD (d, dh, l2)); reflexivity). cbn [fst snd]. rewrite finish_iff. destruct (dir_name p) as [dir name] eqn:DN. cbn [fst snd]. pose proof (proj1 (dir_name_iff p dir name) DN) as SP. split.
      * intros A. exists h, l, er, eh, l1, d, dh, l2, dir, name. auto.
      * intros (h' & l' & er' & eh' & l1' & d' & dh' & l2' & dir' & name' & H & FE' & FD' & SP' & A). injection H as <- <-. pose proof (proj2 (KE (er', eh', l1')) FE') as Q1. injection Q1 as <- <- <-. pose proof (proj2 (KD (d', dh', l2')) FD') as Q2. injection Q2 as <- <- <-. apply dir_name_iff in SP'. rewrite DN in SP'. injection SP' as <- <-. exact A.
    + split; [discriminate|]. intros (h' & l' & er' & eh' & l1' & d' & dh' & l2' & dir' & name' & H & FE' & FD' & _). injection H as <- <-. pose proof (proj2 (KE (er', eh', l1')) FE') as Q1. injection Q1 as <- <- <-. pose proof (proj2 (KD (d', dh', l2')) FD') as Q2. discriminate.
  - split; [discriminate|]. intros (h' & l' & er' & eh' & l1' & d' & dh' & l2' & dir' & name' & H & FE' & _). injection H as <- <-. pose proof (proj2 (KE (er', eh', l1')) FE') as Q1. discriminate.
Qed.
End Frames.
