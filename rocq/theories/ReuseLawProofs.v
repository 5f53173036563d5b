(** Calibrations one after the other on headers that are shared. *)
From Coq Require Import List Arith Bool String ZArith Lia.
From Verif Require Import Base DiskModel DiskSpec DiskProofs ProdModel ProdSpec ProdNewProofs ReuseModel ReuseSpec ReuseProofs.
Import ListNotations.
Local Open Scope nat_scope.
Local Open Scope string_scope.
Local Open Scope list_scope.

Section Laws.
Variable order : list string -> list string.
Hypothesis ORDER : forall l, NoDup (order l) /\ forall s, In s (order l) <-> In s l.
Variable show : hv -> string.
Variable version : string.
Notation calibrate := (calibrate order show version).
Notation calls := (calls order show version).
Notation calls_ok := (calls_ok order show version).

(** ** One call *)
Lemma calibrate_ok c w w' m : calibrate c w = (w', Ok m) <->
  exists f t h, c_data c = f :: t /\ run (fr_at f) (steps order show version (c_tail c) (c_now c) (c_data c) (fr_at f)) (w_heap w) = (h, None)
  /\ m = mkmade (makes (c_tail c)) (product_name (c_tail c) (fr_name (last (c_data c) f))) (fr_at f) /\ w' = mkw h (w_made w ++ [m]).
Proof using.
  unfold ReuseModel.calibrate. destruct (c_data c) as [|f t] eqn:D; [split; [discriminate|intros (? & ? & ? & ? & _); discriminate]|]. destruct (run _ _ _) as [h [e|]] eqn:R.
  - split; [discriminate|]. intros (f' & t' & h' & F & R' & _). injection F as <- <-. rewrite R in R'. discriminate.
  - split.
    + intros H. injection H as <- <-. exists f, t, h. split; [reflexivity|]. split; [exact R|]. split; reflexivity.
    + intros (f' & t' & h' & F & R' & -> & ->). injection F as <- <-. rewrite R in R'. injection R' as <-. reflexivity.
Qed.
Lemma calibrate_heap c w : (exists a l, target c = Some a /\ l = steps order show version (c_tail c) (c_now c) (c_data c) a /\ exists o, run a l (w_heap w) = (w_heap (fst (calibrate c w)), o)) \/ fst (calibrate c w) = w.
Proof using.
  unfold ReuseModel.calibrate, target. destruct (c_data c) as [|f t]; [right; reflexivity|]. left. exists (fr_at f). eexists. split; [reflexivity|]. split; [reflexivity|]. destruct (run _ _ _) as [h [e|]]; eexists; reflexivity.
Qed.
Lemma one_other c w b : target c <> Some b -> w_heap (fst (calibrate c w)) b = w_heap w b.
Proof using.
  intros N. destruct (calibrate_heap c w) as [(a & l & T & _ & o & R)| ->]; [|reflexivity]. apply (run_other a l _ _ o b R). intros ->. contradiction.
Qed.
Lemma one_cards c w b k : ~ is_file k -> ~ In k (writes (c_tail c)) -> get k (w_heap (fst (calibrate c w)) b) = get k (w_heap w b).
Proof using ORDER.
  intros F N. destruct (calibrate_heap c w) as [(a & l & T & L & o & R)| ->]; [|reflexivity]. destruct (Nat.eq_dec a b) as [<-|B]; [|rewrite (run_other a l _ _ o b R B); reflexivity]. subst l. exact (run_safe a (others (c_tail c)) _ (steps_safe order ORDER show version _ _ _ _) _ _ _ R k (conj F N)).
Qed.
Lemma one_longer c w b : comm (w_heap (fst (calibrate c w)) b) = comm (w_heap w b) /\ exists t, hist (w_heap (fst (calibrate c w)) b) = hist (w_heap w b) ++ t.
Proof using ORDER.
  assert (Z : forall e : hdr, comm e = comm e /\ exists t, hist e = hist e ++ t) by (intros e; split; [reflexivity|]; exists []; rewrite app_nil_r; reflexivity).
  destruct (calibrate_heap c w) as [(a & l & T & L & o & R)| ->]; [|apply Z]. destruct (Nat.eq_dec a b) as [<-|B]; [|rewrite (run_other a l _ _ o b R B); apply Z]. subst l. exact (run_longer a _ (steps_longer order ORDER show version _ _ _ _) _ _ _ R).
Qed.
Lemma succeeds c w : (exists w' m, calibrate c w = (w', Ok m)) <->
  exists f t, c_data c = f :: t /\ (forall k, In k (needs (c_tail c)) -> get k (w_heap w (fr_at f)) <> None)
  /\ (records (c_tail c) (w_heap w (fr_at f)) -> Forall listed (parents (w_heap w) (c_data c))).
Proof using ORDER.
  split.
  - intros (w' & m & H). apply calibrate_ok in H. destruct H as (f & t & h & D & R & _). exists f, t. split; [exact D|]. destruct (proj1 (steps_can order ORDER show version _ _ _ _ _) (ex_intro _ h R)) as (A & B). rewrite Forall_forall in A. split; [exact A|exact B].
  - intros (f & t & D & A & B). rewrite <- Forall_forall in A. destruct (proj2 (steps_can order ORDER show version _ (c_now c) _ _ _) (conj A B)) as (h & R). eexists. eexists. apply calibrate_ok. exists f, t, h. split; [exact D|]. split; [exact R|]. split; reflexivity.
Qed.
Lemma one_product c w w' m : calibrate c w = (w', Ok m) -> target c = Some (m_at m) /\ m_cls m = makes (c_tail c) /\ w_made w' = w_made w ++ [m]
  /\ (forall k v, In (k, v) (puts version (c_tail c) (c_now c)) -> get k (w_heap w' (m_at m)) = Some v).
Proof using ORDER.
  intros H. apply calibrate_ok in H. destruct H as (f & t & h & D & R & -> & ->). cbn [m_at m_cls w_made w_heap]. unfold target. rewrite D. split; [reflexivity|]. split; [reflexivity|]. split; [reflexivity|]. intros k v I. rewrite D in R. exact (run_puts _ k v _ (steps_puts order ORDER show version _ _ _ _ k v I) _ _ R).
Qed.
Lemma one_parents c w w' m : calibrate c w = (w', Ok m) -> records (c_tail c) (w_heap w (m_at m)) ->
  parents_in (parents (w_heap w) (c_data c)) (w_heap w (m_at m)) (w_heap w' (m_at m)).
Proof using ORDER.
  intros H K. apply calibrate_ok in H. destruct H as (f & t & h & D & R & -> & ->). cbn [m_at w_heap] in *. rewrite steps_split in R.
  apply (run_parents order ORDER _ (c_data c) _ _ _ _ _ (pre_safe order show version _ _ _) (post_safe order show version _ _ _)) in R; [exact R|]. intros h1 S. exact (mid_records order _ _ _ _ _ K S).
Qed.
Lemma one_stale c w w' m : calibrate c w = (w', Ok m) -> ~ records (c_tail c) (w_heap w (m_at m)) -> forall k, is_file k -> get k (w_heap w' (m_at m)) = get k (w_heap w (m_at m)).
Proof using.
  intros H K. apply calibrate_ok in H. destruct H as (f & t & h & D & R & -> & ->). cbn [m_at w_heap] in *. exact (stale_files order show version _ _ _ _ _ _ K R).
Qed.

(** ** Calls one after the other *)
Lemma all_other l : forall w b, Forall (fun c => target c <> Some b) l -> w_heap (calls l w) b = w_heap w b.
Proof using. induction l as [|c l IH]; intros w b F; [reflexivity|]. inversion F as [|? ? N G]; subst. cbn [ReuseModel.calls]. rewrite (IH _ b G). apply one_other. exact N. Qed.
Lemma all_cards l : forall w b k, ~ is_file k -> Forall (fun c => ~ In k (writes (c_tail c))) l -> get k (w_heap (calls l w) b) = get k (w_heap w b).
Proof using ORDER. induction l as [|c l IH]; intros w b k K F; [reflexivity|]. inversion F as [|? ? N G]; subst. cbn [ReuseModel.calls]. rewrite (IH _ b k K G). apply one_cards; assumption. Qed.
Lemma all_longer l : forall w b, comm (w_heap (calls l w) b) = comm (w_heap w b) /\ exists t, hist (w_heap (calls l w) b) = hist (w_heap w b) ++ t.
Proof using ORDER.
  induction l as [|c l IH]; intros w b; [split; [reflexivity|]; exists []; rewrite app_nil_r; reflexivity|]. cbn [ReuseModel.calls]. destruct (IH (fst (calibrate c w)) b) as (A & t & B). destruct (one_longer c w b) as (C & u & D). split; [congruence|]. exists (u ++ t). rewrite B, D, app_assoc. reflexivity.
Qed.
Lemma calls_ok_calls l : forall w w', calls_ok l w = Ok w' -> calls l w = w'.
Proof using. induction l as [|c l IH]; intros w w' H; cbn [ReuseModel.calls_ok ReuseModel.calls] in *; [congruence|]. destruct (calibrate c w) as [w1 [m|e]]; [apply IH; exact H|discriminate]. Qed.
Lemma calls_ok_app l1 : forall l2 w w', calls_ok (l1 ++ l2) w = Ok w' <-> exists w1, calls_ok l1 w = Ok w1 /\ calls_ok l2 w1 = Ok w'.
Proof using.
  induction l1 as [|c l IH]; intros l2 w w'; cbn [app ReuseModel.calls_ok]; [split; [intros H; exists w; split; [reflexivity|exact H]|intros (w1 & A & B); injection A as ->; exact B]|]. destruct (calibrate c w) as [w1 [m|e]]; [apply IH|]. split; [discriminate|intros (? & ? & _); discriminate].
Qed.
Lemma label_put k now : In ("DATATYPE", HS (label (makes k))) (puts version k now).
Proof using. destruct k; (right; right; right; left; reflexivity). Qed.
(** the label under an address is that of the last call on it *)
Lemma last_label l w w' a k : calls_ok l w = Ok w' -> last_on a l k -> get "DATATYPE" (w_heap w' a) = Some (HS (label (makes k))).
Proof using ORDER.
  intros H (l1 & c & l2 & -> & T & K & F). apply calls_ok_app in H. destruct H as (w1 & _ & H). cbn [ReuseModel.calls_ok] in H. destruct (calibrate c w1) as [w2 [m|e]] eqn:C; [|discriminate]. apply calls_ok_calls in H. subst w'. rewrite (all_other l2 w2 a F). destruct (one_product c w1 w2 m C) as (T' & _ & _ & P). rewrite T in T'. injection T' as ->. subst k. apply P. apply label_put.
Qed.
Lemma last_exists a l : (exists c, In c l /\ target c = Some a) -> exists k, last_on a l k.
Proof using.
  induction l as [|c l IH]; intros (x & I & T); [destruct I|].
  assert (D : (exists y, In y l /\ target y = Some a) \/ Forall (fun y => target y <> Some a) l).
  { clear. induction l as [|y l IH]; [right; constructor|]. destruct IH as [(z & I & T)|F]; [left; exists z; split; [right; exact I|exact T]|]. destruct (target y) as [b|] eqn:T; [destruct (Nat.eq_dec b a) as [->|N]|]; [left; exists y; split; [left; reflexivity|exact T]|right; constructor; [rewrite T; congruence|exact F]|right; constructor; [rewrite T; discriminate|exact F]]. }
  destruct D as [D|F].
  - destruct (IH D) as (k & l1 & y & l2 & -> & A & B & C). exists k, (c :: l1), y, l2. split; [reflexivity|]. split; [exact A|]. split; [exact B|exact C].
  - destruct I as [->|I]; [|rewrite Forall_forall in F; exfalso; exact (F x I T)]. exists (c_tail x), [], x, l. split; [reflexivity|]. split; [exact T|]. split; [reflexivity|exact F].
Qed.
Lemma made_by l : forall w w', calls_ok l w = Ok w' -> exists ms, w_made w' = w_made w ++ ms /\ Forall2 (fun c m => target c = Some (m_at m) /\ m_cls m = makes (c_tail c)) l ms.
Proof using ORDER.
  induction l as [|c l IH]; intros w w' H; cbn [ReuseModel.calls_ok] in H; [injection H as ->; exists []; split; [rewrite app_nil_r; reflexivity|constructor]|]. destruct (calibrate c w) as [w1 [m|e]] eqn:C; [|discriminate]. destruct (IH _ _ H) as (ms & A & B). destruct (one_product c w w1 m C) as (T & M & W & _). exists (m :: ms). split; [rewrite A, W, <- app_assoc; reflexivity|]. constructor; [split; [exact T|exact M]|exact B].
Qed.
Lemma label_inj c d : label c = label d -> c = d.
Proof using. destruct c; destruct d; intros H; try reflexivity; discriminate H. Qed.
(** a product keeps its label exactly if the last call on its header makes the same *)
Lemma kept_label l w w' m : calls_ok l w = Ok w' -> In m (w_made w') -> ~ In m (w_made w) ->
  exists k, last_on (m_at m) l k /\ (labelled (w_heap w') m (m_cls m) <-> makes k = m_cls m).
Proof using ORDER.
  intros H I N. destruct (made_by l w w' H) as (ms & A & B). rewrite A in I. apply in_app_or in I. destruct I as [I|I]; [contradiction|].
  assert (X : exists c, In c l /\ target c = Some (m_at m)). { clear A H N. induction B as [|c x l ms (T & _) B IH]; [destruct I|]. destruct I as [->|I]; [exists c; split; [left; reflexivity|exact T]|]. destruct (IH I) as (y & Y & Z). exists y. split; [right; exact Y|exact Z]. }
  destruct (last_exists _ _ X) as (k & L). exists k. split; [exact L|]. unfold labelled. rewrite (last_label l w w' _ k H L). split; [intros E; injection E as E; exact (label_inj _ _ E)|intros ->; reflexivity].
Qed.
(** products with their own headers keep their labels *)
Lemma apart_labels l w w' : calls_ok l w = Ok w' -> NoDup (map target l) -> exists ms, w_made w' = w_made w ++ ms /\ Forall2 (fun c m => m_cls m = makes (c_tail c) /\ labelled (w_heap w') m (m_cls m)) l ms.
Proof using ORDER.
  intros H N. destruct (made_by l w w' H) as (ms & A & B). exists ms. split; [exact A|]. clear A.
  assert (G : forall l2 l1, l = l1 ++ l2 -> forall ms2, Forall2 (fun c m => target c = Some (m_at m) /\ m_cls m = makes (c_tail c)) l2 ms2 -> Forall2 (fun c m => m_cls m = makes (c_tail c) /\ labelled (w_heap w') m (m_cls m)) l2 ms2).
  { induction l2 as [|c l2 IH]; intros l1 E ms2 F; inversion F as [|? m ? ms3 (T & M) F2]; subst; constructor.
    - split; [exact M|]. unfold labelled. rewrite M. apply (last_label (l1 ++ c :: l2) w w' (m_at m) (c_tail c) H). exists l1, c, l2. split; [reflexivity|]. split; [exact T|]. split; [reflexivity|]. rewrite map_app in N. cbn [map] in N. apply NoDup_remove_2 in N. apply Forall_forall. intros y Y Q. apply N. apply in_or_app. right. rewrite T, <- Q. apply in_map. exact Y.
    - apply (IH (l1 ++ [c])); [rewrite <- app_assoc; reflexivity|exact F2]. }
  exact (G l [] eq_refl ms B).
Qed.
End Laws.
