(** Names of the integrations, cards of the files used, and what is not asked of references. *)
From Coq Require Import List Arith Bool QArith ZArith Lia String Ascii Reals DecimalString DecimalNat Sorted.
From Verif Require Import Base LevelModel CardModel CardProofs KlipModel KlipSpec KlipProofs KlipTopProofs SplitProps.
Import ListNotations.
Local Open Scope string_scope.

Lemma last_cut : forall (u : ascii) l m x y, ~ In u x -> ~ In u y -> (l ++ u :: x = m ++ u :: y)%list -> l = m /\ x = y.
Proof.
  induction l as [|a l IH]; intros m x y X Y E; destruct m as [|b m]; cbn [app] in E.
  - injection E as E. auto.
  - injection E as E1 E2. exfalso. apply X. rewrite E2. apply in_elt.
  - injection E as E1 E2. exfalso. apply Y. rewrite <- E2. apply in_elt.
  - injection E as <- E2. destruct (IH m x y X Y E2) as (-> & ->). auto.
Qed.
Lemma list_app : forall a b, list_ascii_of_string (a ++ b) = (list_ascii_of_string a ++ list_ascii_of_string b)%list.
Proof. induction a as [|c a IH]; intros b; cbn; [reflexivity|]. rewrite IH. reflexivity. Qed.
Lemma list_inj : forall a b, list_ascii_of_string a = list_ascii_of_string b -> a = b.
Proof. intros a b H. rewrite <- (string_of_list_ascii_of_string a), H. apply string_of_list_ascii_of_string. Qed.
Lemma every_list : forall p s, every p s = true -> forall c, In c (list_ascii_of_string s) -> p c = true.
Proof. induction s as [|a s IH]; intros H c I; [destruct I|]. cbn in H. apply andb_true_iff in H. destruct H as (H1 & H2). destruct I as [<-|I]; [exact H1|exact (IH H2 c I)]. Qed.
Definition nm (b : string) (n : nat) : string := b ++ "_INT" ++ NilEmpty.string_of_uint (Nat.to_uint n).
Lemma no_bar : forall n, ~ In "_"%char (list_ascii_of_string ("INT" ++ digits n)).
Proof. intros n H. rewrite list_app in H. apply in_app_or in H. destruct H as [H|H]; [cbn in H; repeat destruct H as [H|H]; try discriminate H; destruct H|]. apply (every_list _ _ (digits_digit n)) in H. discriminate H. Qed.
Lemma nm_inj : forall b n c m, nm b n = nm c m -> b = c /\ n = m.
Proof.
  intros b n c m H. unfold nm in H. change (NilEmpty.string_of_uint (Nat.to_uint n)) with (digits n) in H. change (NilEmpty.string_of_uint (Nat.to_uint m)) with (digits m) in H.
  apply (f_equal list_ascii_of_string) in H. change ("_INT" ++ digits n) with (String "_" ("INT" ++ digits n)) in H. change ("_INT" ++ digits m) with (String "_" ("INT" ++ digits m)) in H. rewrite !list_app in H. cbn [list_ascii_of_string] in H.
  apply last_cut in H; [|apply no_bar|apply no_bar]. destruct H as (H1 & H2). split; [exact (list_inj _ _ H1)|]. apply list_inj in H2. injection H2 as H2.
  assert (E : NilEmpty.uint_of_string (digits n) = NilEmpty.uint_of_string (digits m)) by (rewrite H2; reflexivity). rewrite !digits_read in E. injection E as E. rewrite <- (digits_value n), E. apply digits_value.
Qed.
Section Names.
Variables (img wcs : Type).
Notation frame := (frame img wcs).
Notation base f := (basename (f_name img wcs f)).
Definition count (f : frame) : nat := List.length (images _ (f_data _ _ f)).
Lemma of_frame_names : forall f : frame, map (name_of img wcs) (of_frame _ _ f) = map (nm (base f)) (seq 1 (count f)).
Proof.
  intros f. unfold of_frame, count. generalize 1%nat as k. generalize (images _ (f_data _ _ f)) as l. induction l as [|i l IH]; intros k; cbn [List.length seq combine map]; [reflexivity|]. f_equal. apply IH.
Qed.
Lemma all_names : forall l : list frame, map (name_of img wcs) (integrations _ _ l) = flat_map (fun f => map (nm (base f)) (seq 1 (count f))) l.
Proof. induction l as [|f l IH]; [reflexivity|]. rewrite integrations_cons, map_app, of_frame_names, IH. reflexivity. Qed.
Lemma in_names : forall (l : list frame) b n, In (nm b n) (flat_map (fun f => map (nm (base f)) (seq 1 (count f))) l) <-> exists f, In f l /\ base f = b /\ (1 <= n <= count f)%nat.
Proof.
  intros l b n. rewrite in_flat_map. split.
  - intros (f & F & H). apply in_map_iff in H. destruct H as (m & E & M). apply nm_inj in E. destruct E as (E & ->). apply in_seq in M. exists f. repeat split; [exact F|exact E|lia|lia].
  - intros (f & F & <- & N). exists f. split; [exact F|]. apply in_map, in_seq. lia.
Qed.
Lemma count_filled : forall (l : list frame) f, In f (filled l) <-> In f l /\ (1 <= count f)%nat.
Proof. intros l f. unfold filled, count. rewrite filter_In. destruct (images _ (f_data _ _ f)); cbn [List.length]; split; intros (A & B); split; auto; try lia; discriminate. Qed.
Lemma nodup_app_iff : forall {A} (l m : list A), NoDup (l ++ m) <-> NoDup l /\ NoDup m /\ forall x, In x l -> ~ In x m.
Proof.
  induction l as [|a l IH]; intros m; cbn [app].
  - split; [intros H; split; [constructor|split; [exact H|intros x []]]|intros (_ & H & _); exact H].
  - split.
    + intros H. inversion H as [|? ? N D]; subst. apply IH in D. destruct D as (D1 & D2 & D3). split; [constructor; [intros I; apply N, in_or_app; left; exact I|exact D1]|]. split; [exact D2|]. intros x [<-|X] M; [apply N, in_or_app; right; exact M|exact (D3 x X M)].
    + intros (H1 & H2 & H3). inversion H1 as [|? ? N D]; subst. constructor; [intros I; apply in_app_or in I; destruct I as [I|I]; [exact (N I)|exact (H3 a (or_introl eq_refl) I)]|]. apply IH. split; [exact D|]. split; [exact H2|]. intros x X. apply H3. right. exact X.
Qed.
Lemma nm_nodup : forall b k n, NoDup (map (nm b) (seq k n)).
Proof. intros b k n. apply FinFun.Injective_map_NoDup; [intros x y H; exact (proj2 (nm_inj _ _ _ _ H))|apply seq_NoDup]. Qed.
Lemma names_distinct : forall l : list frame, NoDup (map (name_of img wcs) (integrations _ _ l)) <-> NoDup (map (fun f => base f) (filled l)).
Proof.
  intros l. rewrite all_names. induction l as [|f l IH]; [split; constructor|]. cbn [flat_map]. rewrite nodup_app_iff, IH. unfold filled at 2. cbn [filter]. fold (filled l).
  destruct (images _ (f_data _ _ f)) as [|i t] eqn:E.
  - assert (Z : count f = 0%nat) by (unfold count; rewrite E; reflexivity). rewrite Z. cbn [seq map]. split; [tauto|intros H; split; [constructor|split; [exact H|intros x []]]].
  - assert (Z : (1 <= count f)%nat) by (unfold count; rewrite E; cbn; lia). cbn [map]. split.
    + intros (_ & H2 & H3). constructor; [|exact H2]. intros I. apply in_map_iff in I. destruct I as (g & G & I). apply count_filled in I. destruct I as (I1 & I2). apply (H3 (nm (base f) 1)); [apply in_map, in_seq; lia|]. apply in_names. exists g. repeat split; try assumption; lia.
    + intros H. inversion H as [|? ? N D]; subst. split; [apply nm_nodup|]. split; [exact D|]. intros x X Y. apply in_map_iff in X. destruct X as (n & <- & _). apply in_names in Y. destruct Y as (g & G & B & L). apply N. rewrite <- B. apply (in_map (fun f => base f)). apply count_filled. split; [exact G|lia].
Qed.
Lemma f2_map : forall {A B} (h : A -> B) l m, Forall2 (fun q s => s = h q) l m <-> m = map h l.
Proof. intros A B h l m. split; [intros H; induction H; cbn [map]; congruence|intros ->; induction l; cbn [map]; constructor; auto]. Qed.
Lemma product_names : forall align (l : list frame) p, read_science img align wcs l = Got p -> (NoDup (o_names _ _ p) <-> NoDup (map (fun f => base f) (filled l))).
Proof. intros align l p H. apply science_got in H. destruct H as (_ & D). rewrite (proj1 (f2_map _ _ _) (ds_names _ _ _ _ _ D)). apply names_distinct. Qed.

(** ** References *)
Lemma ref_same : forall a (f g : frame), ref_alike f g -> add_ref _ _ a f = add_ref _ _ a g.
Proof.
  intros ((inp, cs), names) f g (D & SC & X & Y & N). unfold add_ref, int_name. rewrite D, X, Y, N. destruct (cube _ (f_data _ _ g)); [|reflexivity]. cbn [rbind]. destruct (f_scale _ _ f), (f_scale _ _ g); cbn [key rbind]; try reflexivity; exfalso; [destruct SC as (_ & K)|destruct SC as (K & _)]; discriminate (K eq_refl).
Qed.
Lemma refs_same : forall (r s : list frame), Forall2 ref_alike r s -> forall a, add_refs _ _ a r = add_refs _ _ a s.
Proof. intros r s F. induction F as [|f g r s A F IH]; intros a; cbn [add_refs]; [reflexivity|]. rewrite (ref_same a f g A). destruct (add_ref _ _ a g); cbn [rbind]; auto. Qed.
Lemma refs_unchecked : forall align (l r s : list frame), Forall2 ref_alike r s -> readdata img align wcs l (Some r) = readdata img align wcs l (Some s).
Proof. intros align l r s F. unfold readdata, read_refs. rewrite (refs_same r s F). reflexivity. Qed.
Lemma whole : forall align (l : list frame) r p b, (forall x, r = Some x -> x <> []) -> readdata img align wcs l r = Got (p, b) ->
  readable _ _ l /\ describes _ align _ l p /\ match r, b with None, None => True | Some x, Some lib => Forall (ref_good _ _) x /\ one_shape _ _ (l ++ x) /\ library_of _ align _ l x p lib | _, _ => False end.
Proof.
  intros align l r p b NR H. apply readdata_got in H; [|exact NR]. destruct H as (P & H). destruct (science_got _ _ _ _ _ P) as (RD & D). split; [exact RD|]. split; [exact D|]. destruct r as [x|], b as [lib|]; try exact H. destruct RD as (NL & _ & OS & _). exact (library_got _ _ _ _ _ _ _ NL OS H).
Qed.
Lemma whole_fails : forall align (l : list frame) r e, (forall x, r = Some x -> x <> []) -> (readdata img align wcs l r = Fails e <->
  science_fault _ _ l e \/ readable _ _ l /\ exists x, r = Some x /\ refs_fault _ _ l x e).
Proof.
  intros align l r e NR. unfold readdata. rewrite rbind_fails, science_fails. split.
  - intros [H|(p & P & H)]; [left; exact H|right]. destruct (science_got _ _ _ _ _ P) as (RD & D). split; [exact RD|]. destruct r as [x|]; [|discriminate H]. exists x. split; [reflexivity|]. apply rbind_fails in H. destruct H as [H|(b & B & H)]; [|discriminate H]. destruct RD as (NL & _ & OS & _). exact (proj1 (library_fails _ _ _ _ _ p e NL (NR x eq_refl) OS) H).
  - intros [H|(RD & x & -> & F)]; [left; exact H|right]. destruct (science_total _ align _ l RD) as (p & P). exists p. split; [exact P|]. apply rbind_fails. left. destruct RD as (NL & _ & OS & _). apply (proj2 (library_fails _ align _ _ _ p e NL (NR x eq_refl) OS)). exact F.
Qed.
End Names.

(** ** Cards of the files used *)
Definition below (a b : string) : Prop := String.leb a b = true /\ a <> b.
Lemma below_trans : forall a b c, below a b -> below b c -> below a c.
Proof.
  intros a b c (H1 & N1) (H2 & N2). destruct string_leb_total_order as (_ & AS & TR). split; [exact (TR a b c H1 H2)|]. intros ->. apply N1. exact (AS c b H1 H2) || (symmetry; exact (AS b c H2 H1)).
Qed.
Lemma insert_in : forall x l y, In y (insert_s x l) <-> y = x \/ In y l.
Proof.
  induction l as [|z l IH]; intros y; cbn [insert_s].
  - cbn [In]. intuition auto.
  - destruct (String.eqb x z) eqn:E; [apply String.eqb_eq in E; subst z; cbn [In]; intuition auto|]. destruct (String.leb x z); cbn [In]; [intuition auto|]. rewrite IH. intuition auto.
Qed.
Lemma insert_asc : forall x l, ascending l -> ascending (insert_s x l).
Proof.
  intros x l H. induction H as [|z l H IH F]; cbn [insert_s]; [repeat constructor|]. destruct (String.eqb x z) eqn:E; [constructor; assumption|]. apply String.eqb_neq in E. destruct (String.leb x z) eqn:L.
  - constructor; [constructor; assumption|]. constructor; [split; assumption|]. rewrite Forall_forall in *. intros y Y. exact (below_trans x z y (conj L E) (F y Y)).
  - constructor; [exact IH|]. rewrite Forall_forall in *. intros y Y. apply insert_in in Y. destruct Y as [->|Y]; [|exact (F y Y)]. destruct (String.leb_total x z) as [K|K]; [congruence|]. split; [exact K|congruence].
Qed.
Lemma unique_asc : forall l, ascending (unique_s l).
Proof. induction l as [|x l IH]; cbn; [constructor|]. apply insert_asc, IH. Qed.
Lemma unique_in : forall l y, In y (unique_s l) <-> In y l.
Proof. induction l as [|x l IH]; intros y; cbn [unique_s fold_right In]; [tauto|]. fold (unique_s l). rewrite insert_in, IH. intuition auto. Qed.
Lemma ascending_one : forall l m, ascending l -> ascending m -> (forall x, In x l <-> In x m) -> l = m.
Proof.
  destruct string_leb_total_order as (_ & AS & _).
  induction l as [|a l IH]; intros m L M E.
  - destruct m as [|b m]; [reflexivity|]. destruct (proj2 (E b) (or_introl eq_refl)).
  - destruct m as [|b m]; [destruct (proj1 (E a) (or_introl eq_refl))|]. inversion L as [|? ? L1 L2]; inversion M as [|? ? M1 M2]; subst. rewrite Forall_forall in L2, M2.
    assert (a = b) as ->. { destruct (proj1 (E a) (or_introl eq_refl)) as [H|H]; [congruence|]. destruct (proj2 (E b) (or_introl eq_refl)) as [K|K]; [congruence|]. destruct (L2 b K) as (P1 & P2). destruct (M2 a H) as (Q1 & Q2). exact (AS a b P1 Q1). }
    f_equal. apply IH; [exact L1|exact M1|]. intros x. split; intros H.
    + destruct (proj1 (E x) (or_intror H)) as [K|K]; [subst x; destruct (L2 b H) as (_ & N); congruence|exact K].
    + destruct (proj2 (E x) (or_intror H)) as [K|K]; [subst x; destruct (M2 b H) as (_ & N); congruence|exact K].
Qed.
Lemma combine_seq_in : forall {A} (l : list A) k n i a, In (i, a) (combine (seq k n) l) <-> (k <= i < k + n)%nat /\ nth_error l (i - k) = Some a.
Proof.
  induction l as [|x l IH]; intros k n i a.
  - destruct n; cbn [seq combine]; split; try (intros []; fail); intros (_ & H); destruct (i - k)%nat; discriminate H.
  - destruct n as [|n]; cbn [seq combine]; [split; [intros []|lia]|]. cbn [In]. rewrite IH. split.
    + intros [H|(H1 & H2)]; [injection H as -> ->; rewrite Nat.sub_diag; split; [lia|reflexivity]|]. split; [lia|]. replace (i - k)%nat with (S (i - S k)) by lia. exact H2.
    + intros (H1 & H2). destruct (Nat.eq_dec i k) as [->|N]; [left; rewrite Nat.sub_diag in H2; cbn in H2; congruence|right]. split; [lia|]. replace (i - k)%nat with (S (i - S k)) in H2 by lia. exact H2.
Qed.
Lemma file_cards_iff : forall names u, ascending u -> (forall s, In s u <-> In s names) ->
  fst (file_cards names) = List.length u /\ forall i v, In (i, v) (snd (file_cards names)) <-> (Z.of_nat i < 1000)%Z /\ exists s, nth_error u i = Some s /\ v = s ++ ".fits".
Proof.
  intros names u A H. assert (E : unique_s names = u) by (apply ascending_one; [apply unique_asc|exact A|intros x; rewrite unique_in, H; tauto]). unfold file_cards. rewrite E. cbn [fst snd]. split; [reflexivity|]. intros i v. rewrite combine_seq_in, Nat.sub_0_r, nth_error_map. split.
  - intros (L & K). split; [lia|]. destruct (nth_error u i) as [s|]; [|discriminate K]. injection K as <-. exists s. auto.
  - intros (L & s & -> & ->). split; [lia|reflexivity].
Qed.
Lemma some_cards : forall names, exists u, ascending u /\ forall s, In s u <-> In s names.
Proof. intros names. exists (unique_s names). split; [apply unique_asc|apply unique_in]. Qed.

(** ** Examples *)
Definition demo_frame (b : bool) (n : string) (x y : num) : frame nat unit := mkframe nat unit (Some "ROMAN") (Some "CGI") (Some "1F") (if b then D3 _ (4, 6)%nat [1; 2]%nat else D2 _ (4, 6)%nat 3%nat) (Some (NFloat (1 # 50))) (Some x) (Some y) (Some (NInt 10)) n tt.
Definition demo : list (frame nat unit) := [demo_frame true "a/x.fits" (NInt 2) (NInt 1); demo_frame false "b/y.fits" (NFloat (5 # 2)) (NInt 1)].
Definition demo_ints : list (frame nat unit) := [demo_frame true "a/x.fits" (NInt 2) (NInt 1)].
Lemma demo_good : forall b n x y, good _ _ (demo_frame b n x y).
Proof. intros b n x y. split; [intros t H; cbn in H; congruence|]. split; [reflexivity|]. split; [reflexivity|]. split; [exists 4%nat, 6%nat; destruct b; reflexivity|]. repeat split; discriminate. Qed.
Lemma demo_readable : readable _ _ demo.
Proof.
  split; [discriminate|]. split; [|split; [|split; [|discriminate]]].
  - rewrite Forall_forall. intros f F. cbn in F. repeat destruct F as [<-|F]; try destruct F; apply demo_good.
  - exists 4%nat, 6%nat. intros f [<-|[<-|[]]]; reflexivity.
  - intros f g x y [<-|[<-|[]]] [<-|[<-|[]]] X Y; cbn in X, Y; injection X as <-; injection Y as <-; reflexivity.
Qed.
Lemma ints_readable : readable _ _ demo_ints.
Proof.
  split; [discriminate|]. split; [|split; [|split; [|discriminate]]].
  - rewrite Forall_forall. intros f F. cbn in F. repeat destruct F as [<-|F]; try destruct F; apply demo_good.
  - exists 4%nat, 6%nat. intros f [<-|[]]; reflexivity.
  - intros f g x y [<-|[]] [<-|[]] X Y; cbn in X, Y; injection X as <-; injection Y as <-; reflexivity.
Qed.
Lemma centre_truncated : exists p c, read_science nat (fun i _ _ => i) unit demo_ints = Got p /\ In c (o_centers _ _ p) /\ ~ (fst c == fst (centre_of 4 6))%Q.
Proof.
  destruct (science_total nat (fun i _ _ => i) unit _ ints_readable) as (p & P). destruct (science_got _ _ _ _ _ P) as (_ & D). destruct (ds_images _ _ _ _ _ D) as (h & w & S & _ & C & _). assert (E : h = 4%nat /\ w = 6%nat) by (pose proof (S _ (or_introl eq_refl)) as K; cbn in K; injection K as <- <-; auto). destruct E as (-> & ->).
  inversion C as [|q c l m (C1 & _) C' E1 E2]; subst. exists p, c. split; [exact P|]. split; [rewrite <- E2; left; reflexivity|]. destruct C1 as (K & _); [constructor; [|constructor]; split; [discriminate|]; split; eexists; reflexivity|]. rewrite K. cbn. unfold Qeq. cbn. discriminate.
Qed.
Lemma demo_ref : let r := [demo_frame false "c/z.fits" (NInt 3) (NInt 3)] in Forall (ref_good _ _) r /\ one_shape _ _ (demo ++ r).
Proof. split; [constructor; [|constructor]; split; [exists 4%nat, 6%nat; reflexivity|repeat split; discriminate]|]. exists 4%nat, 6%nat. intros f [<-|[<-|[<-|[]]]]; reflexivity. Qed.
Lemma accepted : forall img align wcs (l : list (frame img wcs)), readable _ _ l -> exists p, readdata img align wcs l None = Got (p, None).
Proof. intros img align wcs l R. destruct (science_total _ align _ l R) as (p & P). exists p. apply readdata_got; [discriminate|auto]. Qed.
Lemma accepted_refs : forall img align wcs (l r : list (frame img wcs)), readable _ _ l -> r <> [] -> Forall (ref_good _ _) r -> one_shape _ _ (l ++ r) ->
  exists p b, readdata img align wcs l (Some r) = Got (p, Some b).
Proof.
  intros img align wcs l r R N G S. destruct (science_total _ align _ l R) as (p & P). destruct R as (NL & _). destruct (library_total _ align _ l r p NL N G S) as (b & B). exists p, b. apply readdata_got; [intros x E; congruence|auto].
Qed.
Lemma names_of_product : forall img align wcs (l : list (frame img wcs)) p, readdata img align wcs l None = Got (p, None) ->
  (NoDup (o_names _ _ p) <-> NoDup (map (fun f => basename (f_name _ _ f)) (filled l))).
Proof. intros img align wcs l p H. apply readdata_got in H; [|discriminate]. exact (product_names _ _ _ _ _ (proj1 H)). Qed.
Lemma truncated : exists p c, readdata nat (fun i _ _ => i) unit demo_ints None = Got (p, None) /\ In c (o_centers _ _ p) /\ ~ (fst c == fst (centre_of 4 6))%Q.
Proof. destruct centre_truncated as (p & c & P & H). exists p, c. split; [|exact H]. apply readdata_got; [discriminate|auto]. Qed.
