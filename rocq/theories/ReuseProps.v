(** C83: calibrations write to the header of the first frame handed in, which is also that of the product. *)
From Coq Require Import List Arith Bool String ZArith Lia.
From Verif Require Import Base DiskModel ProdModel ProdSpec ReuseModel ReuseSpec ReuseProofs ReuseLawProofs.
Import ListNotations.
Local Open Scope nat_scope.
Local Open Scope string_scope.
Local Open Scope list_scope.
Definition enumerates (order : list string -> list string) : Prop := forall l, NoDup (order l) /\ forall s, In s (order l) <-> In s l.

(** Only headers of first frames change, whatever the calls and their outcome. *)
Theorem C83_others : forall order show version l w b, Forall (fun c => target c <> Some b) l -> w_heap (calls order show version l w) b = w_heap w b.
Proof. exact all_other. Qed.
Print Assumptions C83_others.
(** In these, only the cards of a fixed list and those of the parents change. *)
Theorem C83_cards : forall order, enumerates order -> forall show version l w b k, ~ is_file k -> Forall (fun c => ~ In k (writes (c_tail c))) l ->
  get k (w_heap (calls order show version l w) b) = get k (w_heap w b).
Proof. exact all_cards. Qed.
Print Assumptions C83_cards.
(** The history grows, the comments stay. *)
Theorem C83_history : forall order, enumerates order -> forall show version l w b,
  comm (w_heap (calls order show version l w) b) = comm (w_heap w b) /\ exists t, hist (w_heap (calls order show version l w) b) = hist (w_heap w b) ++ t.
Proof. exact all_longer. Qed.
Print Assumptions C83_history.
(** When a call succeeds. *)
Theorem C83_succeeds : forall order, enumerates order -> forall show version c w, (exists w' m, calibrate order show version c w = (w', Ok m)) <->
  exists f t, c_data c = f :: t /\ (forall k, In k (needs (c_tail c)) -> get k (w_heap w (fr_at f)) <> None)
  /\ (records (c_tail c) (w_heap w (fr_at f)) -> Forall listed (parents (w_heap w) (c_data c))).
Proof. exact succeeds. Qed.
Print Assumptions C83_succeeds.
(** The product is labelled, has the values measured, and its header is that of the first frame. *)
Theorem C83_product : forall order, enumerates order -> forall show version c w w' m, calibrate order show version c w = (w', Ok m) ->
  target c = Some (m_at m) /\ m_cls m = makes (c_tail c) /\ w_made w' = w_made w ++ [m]
  /\ (forall k v, In (k, v) (puts version (c_tail c) (c_now c)) -> get k (w_heap w' (m_at m)) = Some v).
Proof. exact one_product. Qed.
Print Assumptions C83_product.
(** The parents: all frames and their parents, each once. *)
Theorem C83_parents : forall order, enumerates order -> forall show version c w w' m, calibrate order show version c w = (w', Ok m) ->
  records (c_tail c) (w_heap w (m_at m)) -> parents_in (parents (w_heap w) (c_data c)) (w_heap w (m_at m)) (w_heap w' (m_at m)).
Proof. exact one_parents. Qed.
Print Assumptions C83_parents.
(** A dark whose first frame has parents keeps these as its own. *)
Theorem C83_stale : forall order show version c w w' m, calibrate order show version c w = (w', Ok m) ->
  ~ records (c_tail c) (w_heap w (m_at m)) -> forall k, is_file k -> get k (w_heap w' (m_at m)) = get k (w_heap w (m_at m)).
Proof. exact one_stale. Qed.
Print Assumptions C83_stale.
(** Every product made has, in the end, the label of the last calibration on its header. *)
Theorem C83_label : forall order, enumerates order -> forall show version l w w' m, calls_ok order show version l w = Ok w' -> In m (w_made w') -> ~ In m (w_made w) ->
  exists k, last_on (m_at m) l k /\ (labelled (w_heap w') m (m_cls m) <-> makes k = m_cls m).
Proof. exact kept_label. Qed.
Print Assumptions C83_label.
(** Calibrations whose first frames differ keep their labels. *)
Theorem C83_apart : forall order, enumerates order -> forall show version l w w', calls_ok order show version l w = Ok w' -> NoDup (map target l) ->
  exists ms, w_made w' = w_made w ++ ms /\ Forall2 (fun c m => m_cls m = makes (c_tail c) /\ labelled (w_heap w') m (m_cls m)) l ms.
Proof. exact apart_labels. Qed.
Print Assumptions C83_apart.

(** ** A dataset *)
Definition names (l : list string) : list string := nodup string_dec l.
Lemma names_enumerate : enumerates names.
Proof. intros l. split; [apply NoDup_nodup|]. intros s. apply nodup_In. Qed.
Definition told (v : hv) : string := match v with HS s => s | _ => "?" end.
Definition taken (gain : bool) : hdr := mkh ([("DATATYPE", HS "Image"); ("DATALVL", HS "L2a"); ("DATETIME", HS "2027-01-01"); ("EXPTIME", HZ 5); ("BUNIT", HS "DN")] ++ if gain then [("EMGAIN_C", HZ 1)] else []) ["taken"] [].
Definition sky : world := mkw (fun a => taken (negb (Nat.eqb a 3))) [].
Definition fa := mkfr "a_L2a.fits" 0.
Definition fb := mkfr "b_L2a.fits" 1.
Definition fc := mkfr "c_L2a.fits" 2.
Definition fd := mkfr "d_L2a.fits" 3.
Definition go := calibrate names told "3.0".
Definition kg (d : list frame) := mkcall (TKgain (HZ 100) (HZ 1)) "t" d.
Definition nl (d : list frame) := mkcall TNonlin "t" d.
Definition dk (d : list frame) := mkcall (TDark 4 3) "t" d.
Definition tp (d : list frame) := mkcall TTrap "t" d.
Definition after (l : list call) : world := calls names told "3.0" l sky.

Example C83_each : map (fun c => snd (go c sky)) [kg [fa; fb]; nl [fa; fb]; dk [fa; fb]; tp [fa; fb]; tp []; dk [fd]]
  = [Ok (mkmade CKGain "b_KRN_CAL.fits" 0); Ok (mkmade CNonLin "b_NLN_CAL.fits" 0); Ok (mkmade CDark "b_DRK_CAL.fits" 0); Ok (mkmade CTrap "b_TPU_CAL.fits" 0); Raise IndexError; Raise KeyError].
Proof. vm_compute. reflexivity. Qed.
Example C83_kept_cards : (get "EXPTIME" (w_heap (after [kg [fa; fb]; dk [fa; fc]]) 0), get "DATATYPE" (w_heap (after [kg [fa; fb]; dk [fa; fc]]) 1)) = (Some (HZ 5), Some (HS "Image")).
Proof. vm_compute. reflexivity. Qed.
Example C83_apart_case : is_ok (calls_ok names told "3.0" [kg [fa; fb]; nl [fb; fc]] sky) = true /\ NoDup (map target [kg [fa; fb]; nl [fb; fc]]).
Proof. split; [vm_compute; reflexivity|]. cbn. constructor; [intros [H|[]]; discriminate|]. constructor; [intros []|constructor]. Qed.

Lemma went c w r : snd (go c w) = r -> go c w = (fst (go c w), r).
Proof. intros <-. apply surjective_pairing. Qed.
Definition first_kg : world := fst (go (kg [fa; fb]) sky).
Definition made_kg := mkmade CKGain "b_KRN_CAL.fits" 0.
Definition made_nl := mkmade CNonLin "b_NLN_CAL.fits" 0.
Definition made_dk := mkmade CDark "c_DRK_CAL.fits" 0.
Lemma ran_kg : go (kg [fa; fb]) sky = (first_kg, Ok made_kg).
Proof. apply went. vm_compute. reflexivity. Qed.
Lemma ran_nl : go (nl [fa; fb]) first_kg = (fst (go (nl [fa; fb]) first_kg), Ok made_nl).
Proof. apply went. vm_compute. reflexivity. Qed.
Lemma ran_dk : go (dk [fa; fc]) first_kg = (fst (go (dk [fa; fc]) first_kg), Ok made_dk).
Proof. apply went. vm_compute. reflexivity. Qed.
Lemma ran_fail : go (dk [fd; fb]) sky = (fst (go (dk [fd; fb]) sky), Raise KeyError).
Proof. apply went. vm_compute. reflexivity. Qed.

(** A calibration leaves the type and level of the frames handed in: no, the first is labelled as the product. *)
Theorem C83_frame_refuted : ~ (forall c w w' m f, go c w = (w', Ok m) -> In f (c_data c) -> get "DATATYPE" (w_heap w' (fr_at f)) = get "DATATYPE" (w_heap w (fr_at f))).
Proof. intros H. specialize (H _ _ _ _ fa ran_kg (or_introl eq_refl)). vm_compute in H. discriminate. Qed.
Print Assumptions C83_frame_refuted.
(** A product keeps its label when further calibrations are made: no, one that starts with the same frame relabels it. *)
Theorem C83_relabel_refuted : ~ (forall c d w w1 w2 m n, go c w = (w1, Ok m) -> go d w1 = (w2, Ok n) -> labelled (w_heap w2) m (m_cls m)).
Proof. intros H. specialize (H _ _ _ _ _ _ _ ran_kg ran_nl). vm_compute in H. discriminate. Qed.
Print Assumptions C83_relabel_refuted.
(** A product names all the frames it was made from: no, a dark whose first frame was used before names those of then. *)
Theorem C83_parents_refuted : ~ (forall c d w w1 w2 m n f, go c w = (w1, Ok m) -> go d w1 = (w2, Ok n) -> In f (c_data d) ->
  exists k, is_file k /\ get k (w_heap w2 (m_at n)) = Some (HS (fr_name f))).
Proof.
  intros H. destruct (H _ _ _ _ _ _ _ fc ran_kg ran_dk (or_intror (or_introl eq_refl))) as (k & _ & G). clear H.
  assert (N : existsb (fun c => match snd c with HS s => String.eqb s "c_L2a.fits" | _ => false end) (cards (w_heap (fst (go (dk [fa; fc]) first_kg)) 0)) = false) by (vm_compute; reflexivity).
  unfold get in G. change (m_at made_dk) with 0 in G. change (fr_name fc) with "c_L2a.fits" in G. revert N G. generalize (cards (w_heap (fst (go (dk [fa; fc]) first_kg)) 0)). intros l.
  induction l as [|[j v] l IH]; cbn [existsb find_card snd]; [discriminate|]. intros N. apply orb_false_iff in N. destruct N as (N1 & N2). destruct (String.eqb j k); [|exact (IH N2)]. intros G. injection G as ->. rewrite String.eqb_refl in N1. discriminate.
Qed.
Print Assumptions C83_parents_refuted.
(** A calibration that fails leaves the frames as they were: no, a dark without a gain card has labelled its first frame before. *)
Theorem C83_failed_refuted : ~ (forall c w w' e a, go c w = (w', Raise e) -> get "DATATYPE" (w_heap w' a) = get "DATATYPE" (w_heap w a)).
Proof. intros H. specialize (H _ _ _ _ 3 ran_fail). vm_compute in H. discriminate. Qed.
Print Assumptions C83_failed_refuted.
