From Coq Require Import List Arith ZArith String Bool Lia.
From Verif Require Import Base BaseProofs DqModel DqProofs GeomModel GeomSpec.
Import ListNotations.
Local Open Scope nat_scope.

Lemma nth_error_firstn' : forall A n k (l : list A), k < n -> nth_error (firstn n l) k = nth_error l k.
Proof.
  induction n as [|n IH]; intros k l H; [lia|]. destruct l as [|x l]; [destruct k; reflexivity|].
  destruct k as [|k]; [reflexivity|]. cbn [firstn nth_error]. apply IH. lia.
Qed.
Lemma nth_error_skipn' : forall A n k (l : list A), nth_error (skipn n l) k = nth_error l (n + k).
Proof.
  induction n as [|n IH]; intros k l; [reflexivity|]. destruct l as [|x l]; [destruct k; reflexivity|].
  cbn [skipn plus nth_error]. apply IH.
Qed.

Lemma norm_in : forall n i, (0 <= i <= n)%Z -> norm_ix n i = i.
Proof. intros n i H. unfold norm_ix. destruct (Z.ltb_spec i 0); lia. Qed.

Lemma pyslice_len : forall A (l : list A) lo hi, (0 <= lo)%Z -> (lo <= hi)%Z -> (hi <= zlen l)%Z ->
  List.length (pyslice lo hi l) = Z.to_nat (hi - lo).
Proof.
  intros A l lo hi H0 H1 H2. unfold pyslice. rewrite !norm_in by lia.
  rewrite firstn_length, skipn_length. unfold zlen in H2. lia.
Qed.
Lemma pyslice_nth : forall A (l : list A) lo hi k, (0 <= lo)%Z -> (lo <= hi)%Z -> (hi <= zlen l)%Z ->
  k < Z.to_nat (hi - lo) -> nth_error (pyslice lo hi l) k = nth_error l (Z.to_nat lo + k).
Proof.
  intros A l lo hi k H0 H1 H2 Hk. unfold pyslice. rewrite !norm_in by lia.
  rewrite nth_error_firstn' by exact Hk. apply nth_error_skipn'.
Qed.
Lemma pyslice_empty : forall A (l : list A) lo hi, (norm_ix (zlen l) hi <= norm_ix (zlen l) lo)%Z -> pyslice lo hi l = [].
Proof.
  intros A l lo hi H. unfold pyslice. replace (Z.to_nat _) with 0 by lia. reflexivity.
Qed.

Lemma rect_row : forall A (f : list (list A)) nr nc r row, rect f nr nc -> nth_error f r = Some row -> List.length row = nc.
Proof. intros A f nr nc r row [_ F] E. apply (proj1 (Forall_forall _ _) F). exact (nth_error_In _ _ E). Qed.

Lemma rect_at2 : forall A (f : list (list A)) nr nc r c, rect f nr nc -> r < nr -> c < nc -> exists v, at2 f r c = Some v.
Proof.
  intros A f nr nc r c R Hr Hc. unfold at2. destruct (nth_error f r) as [row|] eqn:E.
  - assert (L := rect_row _ _ _ _ _ _ R E). destruct (nth_error row c) as [v|] eqn:E2; [exists v; reflexivity|].
    apply nth_error_None in E2. lia.
  - apply nth_error_None in E. destruct R. lia.
Qed.
Lemma at2_none : forall A (f : list (list A)) nr nc r c, rect f nr nc -> ~ (r < nr /\ c < nc) -> at2 f r c = None.
Proof.
  intros A f nr nc r c R H. unfold at2. destruct (nth_error f r) as [row|] eqn:E; [|reflexivity].
  apply nth_error_None. rewrite (rect_row _ _ _ _ _ _ R E).
  assert (r < nr) by (destruct R as [L _]; rewrite <- L; apply nth_error_Some; rewrite E; discriminate). lia.
Qed.

Lemma list_ext : forall A (l m : list A), (forall i, nth_error l i = nth_error m i) -> l = m.
Proof.
  induction l as [|x l IH]; intros [|y m] H; [reflexivity|assert (T := H 0); discriminate|assert (T := H 0); discriminate|].
  f_equal; [assert (T := H 0); injection T as T; exact T|]. apply IH. intros i. exact (H (S i)).
Qed.

Lemma rect_ext : forall A (f g : list (list A)) nr nc, rect f nr nc -> rect g nr nc ->
  (forall r c, r < nr -> c < nc -> at2 f r c = at2 g r c) -> f = g.
Proof.
  intros A f g nr nc R1 R2 H. apply list_ext. intros r.
  destruct (nth_error f r) as [row|] eqn:E1; destruct (nth_error g r) as [row'|] eqn:E2.
  - f_equal. apply list_ext. intros c.
    assert (Hr : r < nr) by (destruct R1 as [L _]; rewrite <- L; apply nth_error_Some; rewrite E1; discriminate).
    destruct (Nat.lt_ge_cases c nc) as [Hc|Hc].
    + assert (T := H r c Hr Hc). unfold at2 in T. rewrite E1, E2 in T. exact T.
    + transitivity (@None A); [|symmetry]; apply nth_error_None;
        [rewrite (rect_row _ _ _ _ _ _ R1 E1)|rewrite (rect_row _ _ _ _ _ _ R2 E2)]; exact Hc.
  - apply nth_error_None in E2. assert (r < List.length f) by (apply nth_error_Some; rewrite E1; discriminate). destruct R1, R2. lia.
  - apply nth_error_None in E1. assert (r < List.length g) by (apply nth_error_Some; rewrite E2; discriminate). destruct R1, R2. lia.
  - reflexivity.
Qed.

Lemma slice2_part : forall A (f : list (list A)) nr nc r0 rows c0 cols, rect f nr nc ->
  (0 <= r0)%Z -> (0 <= c0)%Z -> (0 <= rows)%Z -> (0 <= cols)%Z -> (r0 + rows <= Z.of_nat nr)%Z -> (c0 + cols <= Z.of_nat nc)%Z ->
  part_of f r0 c0 rows cols (slice2 r0 rows c0 cols f).
Proof.
  intros A f nr nc r0 rows c0 cols R H1 H2 H3 H4 H5 H6.
  assert (L : zlen f = Z.of_nat nr) by (unfold zlen; destruct R as [L _]; rewrite L; reflexivity).
  assert (LR : forall i row, nth_error f i = Some row -> zlen row = Z.of_nat nc) by (intros i row E; unfold zlen; rewrite (rect_row _ _ _ _ _ _ R E); reflexivity).
  assert (Len : List.length (pyslice r0 (r0 + rows) f) = Z.to_nat rows) by (rewrite pyslice_len by lia; f_equal; lia).
  split; [split|].
  - unfold slice2. rewrite map_length. exact Len.
  - apply Forall_forall. intros row I. unfold slice2 in I. apply in_map_iff in I. destruct I as (row0 & <- & I).
    apply In_nth_error in I. destruct I as [i E].
    assert (Hi : i < Z.to_nat rows) by (rewrite <- Len; apply nth_error_Some; rewrite E; discriminate).
    rewrite pyslice_nth in E by (try lia; replace (r0 + rows - r0)%Z with rows by lia; exact Hi).
    rewrite pyslice_len; [f_equal; lia|lia|lia|rewrite (LR _ _ E); lia].
  - intros r c Hr Hc. unfold at2, slice2. rewrite nth_error_map.
    rewrite pyslice_nth by (try lia; replace (r0 + rows - r0)%Z with rows by lia; exact Hr).
    destruct (nth_error f (Z.to_nat r0 + r)) as [row|] eqn:E; cbn [option_map]; [|reflexivity].
    apply pyslice_nth; [lia|lia|rewrite (LR _ _ E); lia|]. replace (c0 + cols - c0)%Z with cols by lia. exact Hc.
Qed.

Lemma size0_false : forall A (f : list (list A)) nr nc, rect f nr nc -> 0 < nr -> 0 < nc -> size0 f = false.
Proof.
  intros A [|row f] nr nc [L F] H1 H2; cbn [List.length] in L; [lia|].
  unfold size0. cbn [forallb]. inversion F as [|? ? Lr _]; subst. destruct row; [cbn [List.length] in H2; lia|reflexivity].
Qed.

Section S.
Variable rg : regions.
Variable arr key : string.
Variable a : area.
Variable s : section.
Hypothesis RO : region_of rg arr key a s.
Hypothesis FT : fits a s.

Lemma unpack_ok : unpack_geom rg arr key = Ok s.
Proof. destruct RO as [E1 E2]. unfold unpack_geom, get_area. rewrite E1. cbn [getkey bind]. rewrite E2. reflexivity. Qed.
Lemma area_ok : get_area rg arr = Ok a.
Proof. destruct RO as [E1 _]. unfold get_area. rewrite E1. reflexivity. Qed.

Lemma slice_section_spec : forall A (f : list (list A)), full_frame a f ->
  exists out, slice_section rg arr key f = Ok out /\ part_of f (s_r0 s) (s_c0 s) (s_rows s) (s_cols s) out.
Proof.
  intros A f R. unfold slice_section. rewrite unpack_ok. cbn [bind].
  destruct FT as (F1 & F2 & F3 & F4 & F5 & F6).
  assert (P : part_of f (s_r0 s) (s_c0 s) (s_rows s) (s_cols s) (slice2 (s_r0 s) (s_rows s) (s_c0 s) (s_cols s) f)).
  { apply (slice2_part _ _ _ _ _ _ _ _ R); lia. }
  rewrite (size0_false _ _ _ _ (proj1 P)) by lia. eexists. split; [reflexivity|exact P].
Qed.

(** *** embed *)
Lemma set_slice_nth : forall A lo (new l : list A) i, lo + List.length new <= List.length l ->
  nth_error (set_slice lo new l) i = if (lo <=? i) && (i <? lo + List.length new) then nth_error new (i - lo) else nth_error l i.
Proof.
  intros A lo new l i H. unfold set_slice.
  assert (Lf : List.length (firstn lo l) = lo) by (rewrite firstn_length; lia).
  destruct (Nat.leb_spec lo i) as [H1|H1]; cbn [andb].
  - rewrite nth_error_app2 by lia. rewrite Lf.
    destruct (Nat.ltb_spec i (lo + List.length new)) as [H2|H2].
    + apply nth_error_app1. lia.
    + rewrite nth_error_app2 by lia. rewrite nth_error_skipn'. f_equal. lia.
  - rewrite nth_error_app1 by lia. apply nth_error_firstn'. exact H1.
Qed.
Lemma set_slice_len : forall A lo (new l : list A), lo + List.length new <= List.length l -> List.length (set_slice lo new l) = List.length l.
Proof. intros A lo new l H. unfold set_slice. rewrite !app_length, firstn_length, skipn_length. lia. Qed.

Lemma option_all_len : forall A B (f : A -> option B) l r, option_all f l = Some r -> List.length r = List.length l.
Proof.
  induction l as [|x l IH]; intros r; cbn [option_all]; [intros E; injection E as <-; reflexivity|].
  destruct (f x); [|discriminate]. destruct (option_all f l) as [r'|]; [|discriminate]. intros E. injection E as <-.
  cbn [List.length]. rewrite (IH r' eq_refl). reflexivity.
Qed.
Lemma option_all_nth : forall A B (f : A -> option B) l r i y, option_all f l = Some r -> nth_error r i = Some y ->
  exists x, nth_error l i = Some x /\ f x = Some y.
Proof.
  induction l as [|x l IH]; intros r i y; cbn [option_all].
  - intros E. injection E as <-. destruct i; discriminate.
  - destruct (f x) as [y0|] eqn:Ef; [|discriminate]. destruct (option_all f l) as [r'|]; [|discriminate]. intros E. injection E as <-.
    destruct i as [|i]; cbn [nth_error]; intros E.
    + injection E as <-. exists x. split; [reflexivity|exact Ef].
    + exact (IH r' i y eq_refl E).
Qed.
Lemma option_all_none : forall A B (f : A -> option B) l, option_all f l = None <-> exists x, In x l /\ f x = None.
Proof.
  induction l as [|x l IH]; cbn [option_all]; [split; [discriminate|intros (x & [] & _)]|].
  destruct (f x) as [y|] eqn:E.
  - destruct (option_all f l) as [r|].
    + split; [discriminate|]. intros (z & [->|I] & F); [congruence|]. assert (T : Some r = None) by (apply IH; exists z; auto). discriminate.
    + split; [|reflexivity]. intros _. destruct (proj1 IH eq_refl) as (z & I & F). exists z. split; [right; exact I|exact F].
  - split; [|reflexivity]. intros _. exists x. split; [left; reflexivity|exact E].
Qed.

Lemma bcast_len : forall A n (l r : list A), bcast n l = Some r -> List.length r = n.
Proof.
  intros A n l r. unfold bcast. destruct (Nat.eqb_spec (List.length l) n) as [E|E]; [intros F; injection F as <-; exact E|].
  destruct l as [|x [|y l]]; try discriminate. intros F. injection F as <-. apply repeat_length.
Qed.
(** Broadcasting: element [i] is element [i], or the only element. *)
Lemma bcast_nth : forall A n (l r : list A) i, bcast n l = Some r -> i < n ->
  nth_error r i = nth_error l (if List.length l =? n then i else 0).
Proof.
  intros A n l r i. unfold bcast. destruct (Nat.eqb_spec (List.length l) n) as [E|E]; [intros F H; injection F as <-; reflexivity|].
  destruct l as [|x [|y l]]; try discriminate. intros F H. injection F as <-. cbn [nth_error]. apply nth_error_repeat. exact H.
Qed.
Lemma bcast_none : forall A n (l : list A), bcast n l = None <-> List.length l <> n /\ List.length l <> 1.
Proof.
  intros A n l. unfold bcast. destruct (Nat.eqb_spec (List.length l) n) as [E|E]; [split; [discriminate|intros [F _]; contradiction]|].
  destruct l as [|x [|y l]]; cbn [List.length]; split; try discriminate; try reflexivity; intros; try lia; split; try exact E; try lia.
Qed.

Lemma embed_geom : forall A (pad : A),
  let ff := repeat (repeat pad (Z.to_nat (a_cols a))) (Z.to_nat (a_rows a)) in
  let row0 := repeat pad (Z.to_nat (a_cols a)) in
  List.length (pyslice (s_r0 s) (s_r0 s + s_rows s) ff) = Z.to_nat (s_rows s)
  /\ Z.to_nat (norm_ix (zlen ff) (s_r0 s)) = Z.to_nat (s_r0 s)
  /\ List.length (pyslice (s_c0 s) (s_c0 s + s_cols s) row0) = Z.to_nat (s_cols s)
  /\ Z.to_nat (norm_ix (zlen row0) (s_c0 s)) = Z.to_nat (s_c0 s).
Proof.
  intros A pad ff row0. destruct FT as (F1 & F2 & F3 & F4 & F5 & F6).
  assert (L1 : zlen ff = a_rows a) by (unfold zlen, ff; rewrite repeat_length; lia).
  assert (L2 : zlen row0 = a_cols a) by (unfold zlen, row0; rewrite repeat_length; lia).
  split; [rewrite pyslice_len by lia; f_equal; lia|]. split; [rewrite norm_in by lia; reflexivity|].
  split; [rewrite pyslice_len by lia; f_equal; lia|]. rewrite norm_in by lia. reflexivity.
Qed.

Definition fit_ix (have want i : nat) : nat := if have =? want then i else 0.

(** What embed does with any data array of at least one row. *)
Lemma embed_gen : forall A (pad : A) d dr dc, rect d dr dc -> 0 < dr ->
  ((dr = Z.to_nat (s_rows s) \/ dr = 1) /\ (dc = Z.to_nat (s_cols s) \/ dc = 1) ->
    exists ff, embed rg arr key pad d = Ok ff /\ full_frame a ff
      /\ (forall r c, r < Z.to_nat (a_rows a) -> c < Z.to_nat (a_cols a) -> ~ inside s r c -> at2 ff r c = Some pad)
      /\ (forall r c, r < Z.to_nat (s_rows s) -> c < Z.to_nat (s_cols s) ->
            at2 ff (Z.to_nat (s_r0 s) + r) (Z.to_nat (s_c0 s) + c)
            = at2 d (fit_ix dr (Z.to_nat (s_rows s)) r) (fit_ix dc (Z.to_nat (s_cols s)) c)))
  /\ (~ ((dr = Z.to_nat (s_rows s) \/ dr = 1) /\ (dc = Z.to_nat (s_cols s) \/ dc = 1)) -> embed rg arr key pad d = Raise PyException).
Proof.
  intros A pad d dr dc R Hdr. destruct (embed_geom A pad) as (G1 & G2 & G3 & G4).
  assert (FT' := FT). destruct FT' as (F1 & F2 & F3 & F4 & F5 & F6).
  unfold embed. rewrite area_ok. cbn [bind]. rewrite unpack_ok. cbn [bind].
  rewrite G1, G2, G3, G4.
  set (nr := Z.to_nat (s_rows s)) in *. set (nc := Z.to_nat (s_cols s)) in *.
  set (row0 := repeat pad (Z.to_nat (a_cols a))) in *.
  set (ff0 := repeat row0 (Z.to_nat (a_rows a))) in *.
  assert (Lrow0 : List.length row0 = Z.to_nat (a_cols a)) by apply repeat_length.
  assert (Lff0 : List.length ff0 = Z.to_nat (a_rows a)) by apply repeat_length.
  assert (Ld : List.length d = dr) by (destruct R; assumption).
  assert (Lrows : forall row, In row d -> List.length row = dc) by (destruct R as [_ F]; apply Forall_forall; exact F).
  split.
  - intros [C1 C2].
    destruct (option_all (bcast nc) d) as [d1|] eqn:E1.
    2:{ exfalso. apply option_all_none in E1. destruct E1 as (x & I & N). apply bcast_none in N. rewrite (Lrows x I) in N. lia. }
    assert (L1 := option_all_len _ _ _ _ _ E1).
    destruct (bcast nr d1) as [d2|] eqn:E2.
    2:{ exfalso. apply bcast_none in E2. lia. }
    assert (L2 := bcast_len _ _ _ _ E2).
    assert (Ld2 : forall row, In row d2 -> List.length row = nc).
    { intros row I. apply In_nth_error in I. destruct I as [i E].
      assert (Hi : i < nr) by (rewrite <- L2; apply nth_error_Some; rewrite E; discriminate).
      rewrite (bcast_nth _ _ _ _ _ E2 Hi) in E. destruct (option_all_nth _ _ _ _ _ _ _ E1 E) as (x & _ & B).
      exact (bcast_len _ _ _ _ B). }
    set (new := map (fun nw => set_slice (Z.to_nat (s_c0 s)) nw row0) d2).
    assert (Lnew : List.length new = nr) by (unfold new; rewrite map_length; exact L2).
    assert (Fit1 : Z.to_nat (s_r0 s) + List.length new <= List.length ff0) by (rewrite Lnew, Lff0; unfold nr; lia).
    assert (Fit2 : forall row, In row d2 -> Z.to_nat (s_c0 s) + List.length row <= List.length row0)
      by (intros row I; rewrite (Ld2 row I), Lrow0; unfold nc; lia).
    exists (set_slice (Z.to_nat (s_r0 s)) new ff0). split; [reflexivity|].
    assert (RowAt : forall r, nth_error (set_slice (Z.to_nat (s_r0 s)) new ff0) r
        = if (Z.to_nat (s_r0 s) <=? r) && (r <? Z.to_nat (s_r0 s) + nr)
          then option_map (fun nw => set_slice (Z.to_nat (s_c0 s)) nw row0) (nth_error d2 (r - Z.to_nat (s_r0 s)))
          else nth_error ff0 r).
    { intros r. rewrite set_slice_nth by exact Fit1. rewrite Lnew. unfold new. rewrite nth_error_map. reflexivity. }
    split; [split|split].
    + rewrite set_slice_len by exact Fit1. exact Lff0.
    + apply Forall_forall. intros row I. apply In_nth_error in I. destruct I as [r E]. rewrite RowAt in E.
      destruct ((Z.to_nat (s_r0 s) <=? r) && (r <? Z.to_nat (s_r0 s) + nr)).
      * destruct (nth_error d2 (r - Z.to_nat (s_r0 s))) as [nw|] eqn:En; cbn [option_map] in E; [|discriminate]. injection E as <-.
        rewrite set_slice_len by (apply Fit2; exact (nth_error_In _ _ En)). exact Lrow0.
      * apply nth_error_In in E. apply repeat_spec in E. rewrite E. exact Lrow0.
    + intros r c Hr Hc N. unfold at2. rewrite RowAt.
      destruct (Nat.leb_spec (Z.to_nat (s_r0 s)) r) as [H1|H1]; cbn [andb].
      * destruct (Nat.ltb_spec r (Z.to_nat (s_r0 s) + nr)) as [H2|H2].
        -- destruct (nth_error d2 (r - Z.to_nat (s_r0 s))) as [nw|] eqn:En; cbn [option_map].
           2:{ apply nth_error_None in En. lia. }
           rewrite set_slice_nth by (apply Fit2; exact (nth_error_In _ _ En)).
           rewrite (Ld2 nw (nth_error_In _ _ En)).
           destruct (Nat.leb_spec (Z.to_nat (s_c0 s)) c) as [H3|H3]; cbn [andb]; [|apply nth_error_repeat; exact Hc].
           destruct (Nat.ltb_spec c (Z.to_nat (s_c0 s) + nc)) as [H4|H4]; [|apply nth_error_repeat; exact Hc].
           exfalso. apply N. unfold inside, nr, nc in *. lia.
        -- unfold ff0. rewrite nth_error_repeat by exact Hr. apply nth_error_repeat. exact Hc.
      * unfold ff0. rewrite nth_error_repeat by exact Hr. apply nth_error_repeat. exact Hc.
    + intros r c Hr Hc. unfold at2 at 1. rewrite RowAt.
      rewrite (proj2 (Nat.leb_le _ _)) by lia. rewrite (proj2 (Nat.ltb_lt _ _)) by lia. cbn [andb].
      replace (Z.to_nat (s_r0 s) + r - Z.to_nat (s_r0 s)) with r by lia.
      destruct (nth_error d2 r) as [nw|] eqn:En; cbn [option_map].
      2:{ apply nth_error_None in En. lia. }
      rewrite set_slice_nth by (apply Fit2; exact (nth_error_In _ _ En)).
      rewrite (Ld2 nw (nth_error_In _ _ En)).
      rewrite (proj2 (Nat.leb_le _ _)) by lia. rewrite (proj2 (Nat.ltb_lt _ _)) by lia. cbn [andb].
      replace (Z.to_nat (s_c0 s) + c - Z.to_nat (s_c0 s)) with c by lia.
      assert (En' := En). rewrite (bcast_nth _ _ _ _ _ E2 Hr) in En'. rewrite L1, Ld in En'.
      destruct (option_all_nth _ _ _ _ _ _ _ E1 En') as (x & Ex & B).
      rewrite (bcast_nth _ _ _ _ _ B Hc). rewrite (Lrows x (nth_error_In _ _ Ex)).
      unfold at2, fit_ix. rewrite Ex. reflexivity.
  - intros N.
    destruct (option_all (bcast nc) d) as [d1|] eqn:E1; [|reflexivity].
    assert (L1 := option_all_len _ _ _ _ _ E1).
    destruct (bcast nr d1) as [d2|] eqn:E2; [|reflexivity].
    exfalso. apply N. split.
    + destruct (Nat.eq_dec dr nr) as [|Ne1]; [left; assumption|]. right.
      destruct (Nat.eq_dec dr 1) as [|Ne2]; [assumption|]. exfalso.
      assert (T : bcast nr d1 = None) by (apply bcast_none; lia). congruence.
    + destruct d as [|x d]; [cbn [List.length] in Ld; lia|].
      assert (Lx := Lrows x (or_introl eq_refl)).
      destruct (Nat.eq_dec dc nc) as [|Ne1]; [left; assumption|]. right.
      destruct (Nat.eq_dec dc 1) as [|Ne2]; [assumption|]. exfalso.
      assert (T : option_all (bcast nc) (x :: d) = None).
      { apply option_all_none. exists x. split; [left; reflexivity|]. apply bcast_none. lia. }
      congruence.
Qed.

Lemma embed_spec : forall A (pad : A) d, sub_frame s d ->
  exists ff, embed rg arr key pad d = Ok ff /\ full_frame a ff
    /\ (forall r c, r < Z.to_nat (a_rows a) -> c < Z.to_nat (a_cols a) -> ~ inside s r c -> at2 ff r c = Some pad)
    /\ (forall r c, r < Z.to_nat (s_rows s) -> c < Z.to_nat (s_cols s) ->
          at2 ff (Z.to_nat (s_r0 s) + r) (Z.to_nat (s_c0 s) + c) = at2 d r c).
Proof.
  intros A pad d R. assert (FT' := FT). destruct FT' as (F1 & F2 & F3 & F4 & F5 & F6).
  destruct (embed_gen A pad d _ _ R) as [H _]; [lia|].
  destruct H as (ff & E & Fu & P1 & P2); [split; left; reflexivity|].
  exists ff. split; [exact E|]. split; [exact Fu|]. split; [exact P1|]. intros r c Hr Hc. rewrite (P2 r c Hr Hc).
  unfold fit_ix. rewrite !Nat.eqb_refl. reflexivity.
Qed.

Lemma slice_embed : forall A (pad : A) d ff, sub_frame s d -> embed rg arr key pad d = Ok ff -> slice_section rg arr key ff = Ok d.
Proof.
  intros A pad d ff R E. destruct (embed_spec A pad d R) as (ff' & E' & Fu & _ & P). rewrite E in E'. injection E' as <-.
  destruct (slice_section_spec A ff Fu) as (out & Es & Ro & Q). rewrite Es. f_equal.
  apply (rect_ext _ out d _ _ Ro R). intros r c Hr Hc. rewrite Q by assumption. apply P; assumption.
Qed.

Lemma embed_slice : forall A (pad : A) f d ff, full_frame a f -> slice_section rg arr key f = Ok d -> embed rg arr key pad d = Ok ff ->
  full_frame a ff /\ forall r c, inside s r c -> at2 ff r c = at2 f r c.
Proof.
  intros A pad f d ff R Es E. destruct (slice_section_spec A f R) as (d' & Es' & Rd & Q). rewrite Es in Es'. injection Es' as <-.
  destruct (embed_spec A pad d Rd) as (ff' & E' & Fu & _ & P). rewrite E in E'. injection E' as <-.
  split; [exact Fu|]. intros r c [I1 I2]. destruct FT as (F1 & F2 & F3 & F4 & F5 & F6).
  assert (P' := P (r - Z.to_nat (s_r0 s)) (c - Z.to_nat (s_c0 s))). assert (Q' := Q (r - Z.to_nat (s_r0 s)) (c - Z.to_nat (s_c0 s))).
  replace (Z.to_nat (s_r0 s) + (r - Z.to_nat (s_r0 s))) with r in * by lia.
  replace (Z.to_nat (s_c0 s) + (c - Z.to_nat (s_c0 s))) with c in * by lia.
  rewrite P' by lia. apply Q'; lia.
Qed.
End S.

(** The shipped table. *)
Definition fitsb (a : area) (s : section) : bool :=
  ((0 <=? s_r0 s) && (0 <=? s_c0 s) && (0 <? s_rows s) && (0 <? s_cols s) && (s_r0 s + s_rows s <=? a_rows a) && (s_c0 s + s_cols s <=? a_cols a))%Z.
Lemma fitsb_fits : forall a s, fitsb a s = true -> fits a s.
Proof. intros a s H. unfold fitsb in H. rewrite !andb_true_iff, !Z.leb_le, !Z.ltb_lt in H. unfold fits. lia. Qed.
Lemma lookup_in : forall A k (l : list (string * A)) v, lookup k l = Some v -> In (k, v) l.
Proof.
  induction l as [|[k' v'] l IH]; intros v; cbn [lookup]; [discriminate|].
  destruct (String.eqb_spec k k') as [->|N]; [intros E; injection E as <-; left; reflexivity|]. intros E. right. apply IH. exact E.
Qed.
Lemma areas_fit : forall arr key a s, region_of detector_areas arr key a s -> fits a s.
Proof.
  intros arr key a s [E1 E2]. apply lookup_in in E1, E2. apply fitsb_fits.
  assert (T : forallb (fun ka => forallb (fun ks => fitsb (snd ka) (snd ks)) (a_secs (snd ka))) detector_areas = true) by (vm_compute; reflexivity).
  rewrite forallb_forall in T. assert (T1 := T _ E1). cbn [snd] in T1. rewrite forallb_forall in T1. exact (T1 _ E2).
Qed.

(** An out-of-frame region raises. *)
Lemma slice_outside : forall rg arr key a s A (f : list (list A)) nr nc, region_of rg arr key a s -> rect f nr nc ->
  (Z.of_nat nr <= s_r0 s \/ Z.of_nat nc <= s_c0 s)%Z -> (0 <= s_r0 s /\ 0 <= s_c0 s /\ 0 <= s_rows s /\ 0 <= s_cols s)%Z ->
  slice_section rg arr key f = Raise PyException.
Proof.
  intros rg arr key a s A f nr nc RO R H P. unfold slice_section. rewrite (unpack_ok _ _ _ _ _ RO). cbn [bind].
  assert (Z0 : size0 (slice2 (s_r0 s) (s_rows s) (s_c0 s) (s_cols s) f) = true); [|rewrite Z0; reflexivity].
  assert (L : zlen f = Z.of_nat nr) by (unfold zlen; destruct R as [L _]; rewrite L; reflexivity).
  unfold slice2. destruct H as [H|H].
  - rewrite pyslice_empty; [reflexivity|]. rewrite L. unfold norm_ix.
    destruct (Z.ltb_spec (s_r0 s) 0), (Z.ltb_spec (s_r0 s + s_rows s) 0); lia.
  - unfold size0. apply forallb_forall. intros row I. apply in_map_iff in I. destruct I as (row0 & <- & I).
    assert (Lr : zlen row0 = Z.of_nat nc).
    { unfold pyslice in I. assert (I' : In row0 f).
      { apply In_nth_error in I. destruct I as [i E].
        assert (E' : nth_error (skipn (Z.to_nat (norm_ix (zlen f) (s_r0 s))) f) i = Some row0).
        { rewrite <- E. symmetry. apply nth_error_firstn'.
          assert (T : i < List.length (firstn (Z.to_nat (norm_ix (zlen f) (s_r0 s + s_rows s) - norm_ix (zlen f) (s_r0 s))) (skipn (Z.to_nat (norm_ix (zlen f) (s_r0 s))) f)))
            by (apply nth_error_Some; rewrite E; discriminate).
          rewrite firstn_length in T. lia. }
        rewrite nth_error_skipn' in E'. exact (nth_error_In _ _ E'). }
      unfold zlen. destruct R as [_ F]. rewrite (proj1 (Forall_forall _ _) F _ I'). reflexivity. }
    rewrite pyslice_empty; [reflexivity|]. rewrite Lr. unfold norm_ix.
    destruct (Z.ltb_spec (s_c0 s) 0), (Z.ltb_spec (s_c0 s + s_cols s) 0); lia.
Qed.
