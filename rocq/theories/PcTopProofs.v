From Coq Require Import List Arith Bool QArith ZArith String Reals Qreals Lqa Lra Lia.
From Verif Require Import Base DqModel DarkModel PcModel PcSpec PcMathProofs PcProofs PcBinProofs PcRunProofs.
Import ListNotations.

Lemma bins_count : forall b l cs, (0 < b)%nat -> bins b l cs -> List.length cs = Nat.div (List.length l) b /\ List.concat cs = firstn (List.length cs * b) l.
Proof.
  intros b l cs B H. induction H as [l L|c rest cs L H [IH1 IH2]].
  - rewrite Nat.div_small by exact L. split; reflexivity.
  - cbn [List.length List.concat]. rewrite app_length, L. replace (b + List.length rest)%nat with (List.length rest + 1 * b)%nat by lia. rewrite Nat.div_add by lia. split; [lia|]. cbn [Nat.mul]. rewrite firstn_app, L.
    replace (b + List.length cs * b - b)%nat with (List.length cs * b)%nat by lia. rewrite <- IH2. f_equal. symmetry. apply firstn_all2. lia.
Qed.
Lemma bins_len : forall b l cs c, bins b l cs -> In c cs -> List.length c = b.
Proof. intros b l cs c H I. induction H as [|c' rest cs L H IH]; [destruct I|]. destruct I as [<-|I]; [exact L|apply IH; exact I]. Qed.
Lemma bins_exist : forall b, (0 < b)%nat -> forall n l, (List.length l <= n)%nat -> exists cs, bins b l cs.
Proof.
  intros b B. induction n as [|n IH]; intros l L.
  - destruct l; [|cbn in L; lia]. exists []. constructor. exact B.
  - destruct (lt_dec (List.length l) b) as [LT|GE]; [exists []; constructor; exact LT|]. destruct (IH (skipn b l)) as (cs & H); [rewrite skipn_length; lia|].
    exists (firstn b l :: cs). rewrite <- (firstn_skipn b l) at 1. constructor; [apply firstn_length_le; lia|exact H].
Qed.
Lemma bins_unique : forall b l cs cs', bins b l cs -> bins b l cs' -> cs = cs'.
Proof.
  intros b l cs cs' H. revert cs'. induction H as [l L|c rest cs L H IH]; intros cs' H2.
  - inversion H2 as [l2 L2 E|c2 r2 cs2 L2 H3 E]; [reflexivity|]. subst l. rewrite app_length in L. lia.
  - inversion H2 as [l2 L2 E|c2 r2 cs2 L2 H3 E]; subst.
    + rewrite app_length in L2. lia.
    + assert (c2 = c). { assert (X : firstn (List.length c) (c2 ++ r2) = firstn (List.length c) (c ++ rest)) by congruence. rewrite !firstn_app, L2, Nat.sub_diag in X. cbn [firstn] in X. rewrite !app_nil_r in X. rewrite firstn_all, <- L2, firstn_all in X. congruence. }
      subst c2. apply app_inv_head in E. subst r2. f_equal. apply IH. exact H3.
Qed.

Section T.
Variables (niter : nat) (safemode : bool) (mode : string) (mask : option (list bool)) (dark : option pdark) (tf mx : Q).
Notation pcb := (pc_bins niter safemode mode mask dark tf mx).
Notation bsp := (bin_spec niter safemode mode mask dark tf mx).

Lemma bins_forward : forall b l cs, (0 < b)%nat -> bins b l cs -> forall i r, pcb (List.length cs) i b l = Ok r ->
  map snd r = cs /\ forall j v o c, nth_error r j = Some (v, o, c) -> bsp (i + j)%nat c o /\ exists f0, hd_error c = Some f0 /\ pf_vis f0 = Some v.
Proof.
  intros b l cs B H. induction H as [l L|c rest cs L H IH]; intros i r E.
  - cbn in E. injection E as <-. split; [reflexivity|]. intros [|j] v o c X; discriminate X.
  - cbn [List.length pc_bins] in E. rewrite firstn_app, L, Nat.sub_diag in E. cbn [firstn] in E. rewrite app_nil_r, <- L, firstn_all, skipn_app, skipn_all, Nat.sub_diag in E. cbn [skipn app] in E.
    destruct c as [|f0 fs]; [cbn in L; lia|]. bnd E o Eb. destruct o as [v o]. bnd E r' E2. injection E as <-. rewrite L in E2. destruct (IH _ _ E2) as [M N]. cbn [map snd fst]. split; [f_equal; exact M|].
    intros [|j] v' o' c' X; cbn in X.
    + injection X as <- <- <-. rewrite Nat.add_0_r. apply bin_iff in Eb. destruct Eb as [Eb V]. split; [exact Eb|]. exists f0. auto.
    + replace (i + Datatypes.S j)%nat with (Datatypes.S i + j)%nat by lia. exact (N j v' o' c' X).
Qed.
Lemma bins_backward : forall b l cs, (0 < b)%nat -> bins b l cs -> forall i os, List.length os = List.length cs ->
  (forall j c o, nth_error cs j = Some c -> nth_error os j = Some o -> bsp (i + j)%nat c o) ->
  exists r, pcb (List.length cs) i b l = Ok r /\ map (fun x => snd (fst x)) r = os.
Proof.
  intros b l cs B H. induction H as [l L|c rest cs L H IH]; intros i os LO SP.
  - destruct os; [|discriminate LO]. exists []. split; reflexivity.
  - destruct os as [|o os]; [discriminate LO|]. destruct (IH (Datatypes.S i) os) as (r & E & M); [cbn in LO; lia|intros j c' o' X Y; replace (Datatypes.S i + j)%nat with (i + Datatypes.S j)%nat by lia; exact (SP (Datatypes.S j) c' o' X Y)|].
    cbn [List.length pc_bins]. rewrite firstn_app, L, Nat.sub_diag. cbn [firstn]. rewrite app_nil_r, <- L, firstn_all, skipn_app, skipn_all, Nat.sub_diag. cbn [skipn app]. destruct c as [|f0 fs]; [cbn in L; lia|].
    assert (S0 := SP 0%nat (f0 :: fs) o eq_refl eq_refl). rewrite Nat.add_0_r in S0. assert (V : exists v, pf_vis f0 = Some v) by (destruct S0 as (g0 & npix & e & cg & kg & rn & vis & g & bb & be & bq & H0 & _ & FV & _); exists vis; exact (Forall_inv FV)).
    destruct V as [v V]. rewrite (proj2 (bin_iff niter safemode mode mask dark tf mx i f0 fs v o) (conj S0 V)). cbn [bind]. rewrite L, E. cbn [bind]. eexists. split; [reflexivity|]. cbn [map fst snd]. f_equal. exact M.
Qed.
Lemma last_map_some : forall A (l : list A) x, last (map Some l) None = Some x <-> exists pre, l = pre ++ [x].
Proof.
  intros A l. induction l as [|a l IH]; intros x.
  - cbn. split; [discriminate|]. intros ([|p pre] & E); discriminate E.
  - destruct l as [|b l].
    + cbn. split; [intros E; injection E as <-; exists []; reflexivity|]. intros ([|p pre] & E); [injection E as <-; reflexivity|]. injection E as _ E. destruct pre; discriminate E.
    + change (last (map Some (a :: b :: l)) None) with (last (map Some (b :: l)) None). rewrite IH. split.
      * intros (pre & E). exists (a :: pre). rewrite E. reflexivity.
      * intros ([|p pre] & E); [discriminate E|]. injection E as -> E. exists pre. exact E.
Qed.
Lemma combine_map2 : forall A B C (f : A -> B) (g : A -> C) l, combine (map f l) (map g l) = map (fun x => (f x, g x)) l.
Proof. intros A B C f g l. induction l as [|a l IH]; [reflexivity|]. cbn. f_equal. exact IH. Qed.

Lemma run_iff : forall bin_size fs out, get_pc_mean niter safemode mode mask dark tf mx bin_size fs = Ok out <-> run_spec niter safemode mode mask dark tf mx bin_size fs out.
Proof.
  intros bin_size fs out. unfold get_pc_mean. split.
  - intros E. destruct (Nat.eqb_spec niter 0) as [N0|N0]; [discriminate E|]. cbv zeta in E. set (b := match bin_size with None => Z.of_nat (List.length fs) | Some b => b end) in *.
    destruct (Z.leb_spec b 0) as [B0|B0]; [discriminate E|]. destruct (Z.ltb_spec (Z.of_nat (List.length fs)) b) as [BL|BL]; [discriminate E|].
    assert (BP : (0 < Z.to_nat b)%nat) by lia. destruct (bins_exist (Z.to_nat b) BP (List.length fs) fs (Nat.le_refl _)) as (cs & BI). assert (BC := bins_count _ _ _ BP BI). destruct BC as [BC _]. rewrite <- BC in E.
    bnd E l L. destruct (bins_forward _ _ _ BP BI _ _ L) as [M N]. destruct (last (map Some l) None) as [[[v o] sub]|] eqn:LA; [|discriminate E].
    apply last_map_some in LA. destruct LA as (pre & ->).
    assert (NL : nth_error (pre ++ [(v, o, sub)]) (List.length pre) = Some (v, o, sub)) by (rewrite nth_error_app2, Nat.sub_diag by lia; reflexivity). destruct (N _ _ _ _ NL) as ((f0 & npix & e & cg & kg & rn & vis & g & bb & be & bq & H0 & FS & FV & AC & _) & (f0' & H0' & V)).
    assert (VV : vis = v). { rewrite H0 in H0'. injection H0' as <-. destruct sub as [|f sub]; [discriminate H0|]. injection H0 as ->. assert (X := Forall_inv FV). cbn in X. congruence. } subst vis.
    exists (Z.to_nat b), cs, (map (fun x => snd (fst x)) (pre ++ [(v, o, sub)])). split; [lia|]. split; [unfold b; destruct bin_size as [z|]; [left; f_equal; lia|right; split; [reflexivity|lia]]|]. split; [lia|]. split; [exact BI|]. split; [rewrite <- M, !map_length; reflexivity|]. split.
    + intros i c oo X Y. rewrite <- M in X. destruct (nth_error (pre ++ [(v, o, sub)]) i) as [[[v' o'] c']|] eqn:Z0.
      * rewrite (map_nth_error snd _ _ Z0) in X. injection X as <-. rewrite (map_nth_error (fun x : string * pout * list pframe => snd (fst x)) _ _ Z0) in Y. injection Y as <-. apply (N _ _ _ _ Z0).
      * apply nth_error_None in Z0. assert (Q0 : nth_error (map snd (pre ++ [(v, o, sub)])) i = None) by (apply nth_error_None; rewrite map_length; lia). congruence.
    + destruct (String.eqb_spec v "DARK") as [VD|VD]; cbn [negb] in E; injection E as <-; destruct AC as [(A1 & A2 & A3)|(A1 & A2)]; try congruence.
      * right. split; [exact A2|]. exists (map (fun x => snd (fst x)) pre), o. split; [rewrite map_app; reflexivity|]. f_equal. clear N NL. 
        assert (LS : In sub cs) by (rewrite <- M, map_app; apply in_or_app; right; left; reflexivity). exact (bins_len _ _ _ _ BI LS).
      * left. split; [exact A2|]. f_equal. rewrite <- M. rewrite combine_map2. reflexivity.
  - intros (b & cs & os & N0 & BS & BL & BI & LO & SP & OUT). destruct (Nat.eqb_spec niter 0) as [N1|_]; [lia|]. cbv zeta.
    replace (match bin_size with Some b0 => b0 | None => Z.of_nat (List.length fs) end) with (Z.of_nat b) by (destruct BS as [->|[-> ->]]; reflexivity).
    destruct (Z.leb_spec (Z.of_nat b) 0) as [B0|B0]; [lia|]. destruct (Z.ltb_spec (Z.of_nat (List.length fs)) (Z.of_nat b)) as [B1|B1]; [lia|]. rewrite Nat2Z.id.
    destruct (bins_count _ _ _ (proj1 BL) BI) as [BC _]. rewrite <- BC. destruct (bins_backward _ _ _ (proj1 BL) BI 0%nat os LO SP) as (r & E & M). rewrite E. cbn [bind].
    destruct (bins_forward _ _ _ (proj1 BL) BI _ _ E) as [M2 N].
    assert (CN : (0 < List.length cs)%nat) by (rewrite BC; apply Nat.div_str_pos; lia). destruct (@exists_last _ r) as (pre & ([[v o] sub] & ER)); [intros ->; rewrite <- M2 in CN; cbn in CN; lia|].
    assert (LA : last (map Some r) None = Some (v, o, sub)) by (apply last_map_some; exists pre; exact ER). rewrite LA.
    assert (NL : nth_error r (List.length pre) = Some (v, o, sub)) by (rewrite ER, nth_error_app2, Nat.sub_diag by lia; reflexivity). destruct (N _ _ _ _ NL) as ((f0 & npix & e & cg & kg & rn & vis & g & bb & be & bq & H0 & FS & FV & AC & _) & (f0' & H0' & V)).
    assert (VV : vis = v). { rewrite H0 in H0'. injection H0' as <-. destruct sub as [|f sub]; [discriminate H0|]. injection H0 as ->. assert (X := Forall_inv FV). cbn in X. congruence. } subst vis.
    destruct (String.eqb_spec v "DARK") as [VD|VD]; cbn [negb]; destruct AC as [(A1 & A2 & A3)|(A1 & A2)]; try congruence; destruct OUT as [(O1 & ->)|(O1 & pre2 & o2 & O2 & ->)]; try congruence; f_equal.
    + assert (OO : o2 = o). { rewrite <- M, ER, map_app in O2. cbn in O2. apply app_inj_tail in O2. symmetry. apply O2. } subst o2. rewrite M. f_equal.
      assert (LS : In sub cs) by (rewrite <- M2, ER, map_app; apply in_or_app; right; left; reflexivity). exact (bins_len _ _ _ _ BI LS).
    + f_equal. rewrite <- M, <- M2, combine_map2. reflexivity.
Qed.
End T.

(** parents recorded for a dark: no fewer than the frames used; more exactly when the
    ignored remainder has as many frames as there are bins *)
Lemma parents_count : forall b (l : list pframe) cs, (0 < b <= List.length l)%nat -> bins b l cs ->
  let used := (List.length cs * b)%nat in let recorded := List.length (firstn (List.length cs * Nat.div (List.length l) (List.length cs)) l) in
  (used <= recorded)%nat /\ (used < recorded <-> (List.length cs <= List.length l - used)%nat)%nat.
Proof.
  intros b l cs B BI used recorded. destruct (bins_count _ _ _ (proj1 B) BI) as [BC _]. set (n := List.length cs) in *. set (len := List.length l) in *.
  assert (N0 : (0 < n)%nat) by (rewrite BC; apply Nat.div_str_pos; lia). assert (D1 := Nat.div_mod len b ltac:(lia)). assert (M1 := Nat.mod_upper_bound len b ltac:(lia)). rewrite <- BC in D1.
  assert (D2 := Nat.div_mod len n ltac:(lia)). assert (M2 := Nat.mod_upper_bound len n ltac:(lia)). set (q := Nat.div len n) in *. set (r2 := Nat.modulo len n) in *. set (r1 := Nat.modulo len b) in *.
  assert (RE : recorded = (n * q)%nat) by (unfold recorded; apply firstn_length_le; fold len; lia). rewrite RE. unfold used. clearbody q r1 r2 len n. clear RE recorded used BI BC.
  assert (BQ : (b <= q)%nat). { destruct (le_lt_dec b q) as [H|H]; [exact H|]. exfalso. assert (n * q + n <= n * b)%nat by nia. lia. }
  split; [nia|]. split; intros H; [|nia]. assert (b + 1 <= q)%nat by nia. assert (n * b + n <= n * q)%nat by nia. lia.
Qed.
