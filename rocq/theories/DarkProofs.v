(** Proofs about the master darks, part 1: arrays and mean_combine. *)
From Coq Require Import List Arith Bool QArith ZArith String Reals Qreals Lia Lqa Lra.
From Verif Require Import Base FloatModel CosmicModel DqModel GeomModel GeomSpec GeomProofs DarkModel DarkSpec.
Import ListNotations.
Local Open Scope list_scope.
Local Open Scope nat_scope.

Definition lift2 {A B C} (f : A -> B -> C) (a : option A) (b : option B) : option C :=
  match a, b with Some x, Some y => Some (f x y) | _, _ => None end.

Lemma at2_cons : forall A (row : list A) f r c, at2 (row :: f) r c = match r with O => nth_error row c | S r' => at2 f r' c end.
Proof. intros A row f [|r] c; reflexivity. Qed.

Lemma rect_cons : forall A (row : list A) f nr nc, rect (row :: f) nr nc <-> exists n, nr = S n /\ List.length row = nc /\ rect f n nc.
Proof.
  intros A row f nr nc. unfold rect. split.
  - intros [L F]. exists (List.length f). cbn in L. inversion F; subst. auto.
  - intros (n & -> & L & L2 & F). cbn. split; [lia|constructor; assumption].
Qed.

Lemma zipR_spec : forall A B C (f : A -> B -> C) l m, List.length l = List.length m ->
  exists out, zipR f l m = Ok out /\ List.length out = List.length l /\ forall i, nth_error out i = lift2 f (nth_error l i) (nth_error m i).
Proof.
  intros A B C f l. induction l as [|x t IH]; intros [|y u] L; try discriminate L.
  - exists []. split; [reflexivity|]. split; [reflexivity|]. intros [|i]; reflexivity.
  - injection L as L. destruct (IH u L) as (out & E & L2 & N). exists (f x y :: out). cbn. rewrite E. split; [reflexivity|].
    split; [lia|]. intros [|i]; [reflexivity|]. exact (N i).
Qed.

Lemma zipR_ok : forall A B C (f : A -> B -> C) l m out, zipR f l m = Ok out -> List.length l = List.length m /\ List.length out = List.length l.
Proof.
  intros A B C f l. induction l as [|x t IH]; intros [|y u] out E; try discriminate E.
  - injection E as <-. split; reflexivity.
  - cbn in E. destruct (zipR f t u) as [r|] eqn:Z; [|discriminate]. injection E as <-. destruct (IH u r Z). cbn. split; lia.
Qed.

Lemma zip2_spec : forall A B C (f : A -> B -> C) a b nr nc, rect a nr nc -> rect b nr nc ->
  exists out, zip2 f a b = Ok out /\ rect out nr nc /\ forall r c, at2 out r c = lift2 f (at2 a r c) (at2 b r c).
Proof.
  intros A B C f a. induction a as [|x t IH]; intros [|y u] nr nc RA RB.
  - exists []. split; [reflexivity|]. split; [destruct RA as [L _]; split; [exact L|constructor]|]. intros [|r] c; reflexivity.
  - destruct RA as [L1 _], RB as [L2 _]. cbn in L1, L2. lia.
  - destruct RA as [L1 _], RB as [L2 _]. cbn in L1, L2. lia.
  - apply rect_cons in RA. destruct RA as (n & -> & Lx & RA). apply rect_cons in RB. destruct RB as (n' & E' & Ly & RB).
    injection E' as <-.
    destruct (zipR_spec _ _ _ f x y) as (o & E & L & N); [lia|]. destruct (IH u n nc RA RB) as (out & E2 & R2 & N2).
    exists (o :: out). unfold zip2 in *. cbn. rewrite E. cbn. rewrite E2. split; [reflexivity|].
    split; [apply rect_cons; exists n; split; [reflexivity|split; [lia|exact R2]]|].
    intros r c. rewrite !at2_cons. destruct r as [|r]; [exact (N c)|exact (N2 r c)].
Qed.

Lemma at2_map2d : forall A B (f : A -> B) a r c, at2 (map2d f a) r c = option_map f (at2 a r c).
Proof.
  intros A B f a r c. unfold at2, map2d. rewrite nth_error_map. destruct (nth_error a r) as [row|]; [|reflexivity].
  cbn. apply nth_error_map.
Qed.
Lemma rect_map2d : forall A B (f : A -> B) a nr nc, rect a nr nc -> rect (map2d f a) nr nc.
Proof.
  intros A B f a nr nc [L F]. unfold map2d. split; [rewrite map_length; exact L|].
  apply Forall_forall. intros row I. apply in_map_iff in I. destruct I as (x & <- & I). rewrite map_length.
  exact (proj1 (Forall_forall _ _) F x I).
Qed.

Lemma at2_bound : forall A (f : list (list A)) nr nc r c v, rect f nr nc -> at2 f r c = Some v -> r < nr /\ c < nc.
Proof.
  intros A f nr nc r c v R E. destruct (lt_dec r nr); [destruct (lt_dec c nc); [auto|]|];
    rewrite (at2_none _ _ _ _ r c R) in E by lia; discriminate.
Qed.
Lemma at2_total : forall A B (f : list (list A)) (g : list (list B)) nr nc r c, rect f nr nc -> rect g nr nc ->
  (exists v, at2 f r c = Some v) -> exists w, at2 g r c = Some w.
Proof. intros A B f g nr nc r c R1 R2 [v E]. destruct (at2_bound _ _ _ _ _ _ _ R1 E). exact (rect_at2 _ _ _ _ _ _ R2 H H0). Qed.

Lemma has_shape_rect : forall A nr nc (f : list (list A)), (0 <= nr)%Z -> (0 <= nc)%Z ->
  has_shape nr nc f = true <-> rect f (Z.to_nat nr) (Z.to_nat nc).
Proof.
  intros A nr nc f Hr Hc. unfold has_shape, rect, zlen. rewrite andb_true_iff, Z.eqb_eq, forallb_forall, Forall_forall.
  split; intros [H1 H2]; (split; [lia|]); intros x I; specialize (H2 x I); [apply Z.eqb_eq in H2|apply Z.eqb_eq]; lia.
Qed.
Lemma shape_same : forall A B (f : list (list A)) (g : list (list B)) nr nc, rect f nr nc -> rect g nr nc ->
  has_shape (fst (shape_of f)) (snd (shape_of f)) g = true.
Proof.
  intros A B f g nr nc [L F] [L' F']. unfold has_shape, shape_of. cbn. unfold zlen. rewrite L, L', Z.eqb_refl. cbn.
  apply forallb_forall. intros row I. rewrite (proj1 (Forall_forall _ _) F' row I). destruct f as [|x t].
  - cbn in L. subst nr. destruct g; [destruct I|discriminate L'].
  - inversion F; subst. unfold zlen. apply Z.eqb_eq. reflexivity.
Qed.

Lemma any2_spec : forall A (p : A -> bool) f, any2 p f = true <-> exists r c v, at2 f r c = Some v /\ p v = true.
Proof.
  intros A p f. unfold any2. rewrite existsb_exists. split.
  - intros (row & I & H). apply existsb_exists in H. destruct H as (v & J & P).
    apply In_nth_error in I. destruct I as [r E]. apply In_nth_error in J. destruct J as [c E2].
    exists r, c, v. unfold at2. rewrite E. split; assumption.
  - intros (r & c & v & E & P). unfold at2 in E. destruct (nth_error f r) as [row|] eqn:Er; [|discriminate].
    exists row. split; [exact (nth_error_In _ _ Er)|]. apply existsb_exists. exists v. split; [exact (nth_error_In _ _ E)|exact P].
Qed.
Lemma any2_false : forall A (p : A -> bool) f, any2 p f = false <-> forall r c v, at2 f r c = Some v -> p v = false.
Proof.
  intros A p f. split.
  - intros E r c v H. destruct (p v) eqn:P; [|reflexivity]. assert (T : any2 p f = true) by (apply any2_spec; exists r, c, v; auto).
    rewrite E in T. discriminate.
  - intros H. destruct (any2 p f) eqn:E; [|reflexivity]. apply any2_spec in E. destruct E as (r & c & v & E & P).
    rewrite (H r c v E) in P. discriminate.
Qed.

(** * mean_combine *)
Section Mean.
Context {A : Type}.
Variable zero : A.
Variable add : A -> A -> A.
Variable divn : A -> nat -> A.
Variable pre post : A -> A.

Definition pstep (r c : nat) (s : A * nat) (fm : list (list A) * list (list N)) : A * nat :=
  match at2 (fst fm) r c, at2 (snd fm) r c with
  | Some v, Some m => if N.eqb m 0 then (add (fst s) (pre v), S (snd s)) else (add (fst s) (pre zero), snd s)
  | _, _ => s
  end.

Lemma accumulate_spec : forall nr nc l acc, rect acc nr nc ->
  Forall (fun fm => rect (fst fm) nr nc /\ rect (snd fm) nr nc) l ->
  exists out, accumulate zero add pre acc l = Ok out /\ rect out nr nc
    /\ forall r c s, at2 acc r c = Some s -> at2 out r c = Some (fold_left (pstep r c) l s).
Proof.
  intros nr nc l. induction l as [|[im bp] t IH]; intros acc R F.
  - exists acc. split; [reflexivity|]. split; [exact R|]. intros r c s E. exact E.
  - inversion F as [|fm' t' [R1 R2] F']; subst. cbn [fst snd] in *.
    destruct (zip2_spec _ _ _ (fun v m => (v, m)) im bp nr nc R1 R2) as (px & E1 & RP & N1).
    destruct (zip2_spec _ _ _ (fun s p => if N.eqb (snd p) 0 then (add (fst s) (pre (fst p)), S (snd s)) else (add (fst s) (pre zero), snd s)) acc px nr nc R RP)
      as (a & E2 & RA & N2).
    destruct (IH a RA F') as (out & E3 & RO & N3).
    exists out. cbn [accumulate]. unfold acc_frame. cbn [fst snd]. rewrite E1. cbn [bind]. rewrite E2. cbn [bind]. rewrite E3.
    split; [reflexivity|]. split; [exact RO|]. intros r c s E. cbn [fold_left]. apply N3. rewrite N2, E, N1. unfold pstep. cbn [fst snd].
    destruct (at2_total _ _ _ _ _ _ r c R R1 (ex_intro _ s E)) as [v Ev]. destruct (at2_total _ _ _ _ _ _ r c R R2 (ex_intro _ s E)) as [m Em].
    rewrite Ev, Em. reflexivity.
Qed.

Lemma mean_combine_spec : forall nr nc ims bps, ims <> [] -> List.length ims = List.length bps ->
  Forall (fun im => rect im nr nc) ims -> Forall (fun bp => rect bp nr nc /\ forall r c v, at2 bp r c = Some v -> v = 0%N \/ v = 1%N) bps ->
  exists o, mean_combine zero add divn pre post ims bps = Ok o
    /\ rect (m_im o) nr nc /\ rect (m_bp o) nr nc /\ rect (m_num o) nr nc
    /\ forall r c, r < nr -> c < nc -> let s := fold_left (pstep r c) (combine ims bps) (zero, 0) in
         at2 (m_im o) r c = Some (post (if Nat.eqb (snd s) 0 then zero else divn (fst s) (snd s)))
         /\ at2 (m_bp o) r c = Some (Nat.eqb (snd s) 0)
         /\ at2 (m_num o) r c = Some (snd s).
Proof.
  intros nr nc ims bps NE L FI FB. unfold mean_combine. rewrite L, Nat.eqb_refl. cbn [negb].
  destruct ims as [|im0 t]; [contradiction|]. assert (R0 : rect im0 nr nc) by (inversion FI; assumption).
  cbv zeta.
  replace (forallb _ (im0 :: t)) with true.
  2:{ symmetry. apply forallb_forall. intros x I. exact (shape_same _ _ _ _ _ _ R0 (proj1 (Forall_forall _ _) FI x I)). }
  replace (forallb _ bps) with true.
  2:{ symmetry. apply forallb_forall. intros x I. destruct (proj1 (Forall_forall _ _) FB x I) as [Rx Vx].
      rewrite (shape_same _ _ _ _ _ _ R0 Rx), andb_true_r. apply negb_true_iff. apply any2_false. intros r c v E.
      destruct (Vx r c v E) as [-> | ->]; reflexivity. }
  cbn [negb].
  assert (RZ : rect (map2d (fun _ : A => (zero, 0)) im0) nr nc) by (apply rect_map2d; exact R0).
  destruct (accumulate_spec nr nc (combine (im0 :: t) bps) _ RZ) as (acc & E & RA & NA).
  { apply Forall_forall. intros [im bp] I. cbn [fst snd]. split.
    - exact (proj1 (Forall_forall _ _) FI im (in_combine_l _ _ _ _ I)).
    - exact (proj1 (proj1 (Forall_forall _ _) FB bp (in_combine_r _ _ _ _ I))). }
  rewrite E. cbn [bind]. eexists. split; [reflexivity|]. cbn [m_im m_bp m_num].
  split; [apply rect_map2d; exact RA|]. split; [apply rect_map2d; exact RA|]. split; [apply rect_map2d; exact RA|].
  intros r c Hr Hc. cbv zeta. rewrite !at2_map2d.
  destruct (rect_at2 _ _ _ _ r c R0 Hr Hc) as [v0 E0].
  rewrite (NA r c (zero, 0)) by (rewrite at2_map2d, E0; reflexivity). cbn [option_map]. auto.
Qed.
End Mean.
