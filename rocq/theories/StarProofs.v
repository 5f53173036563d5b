(** Proofs on the tuning parameters. *)
From Coq Require Import List Arith Bool ZArith String Lia.
From Verif Require Import Base DqModel DqProofs SortGroupProofs ComboSpec ComboProofs StarModel StarSpec.
Import ListNotations.

(** ** Dictionaries *)
Section Dict.
  Context {A : Type}.
  Implicit Types d : list (string * A).
  Lemma find_iff : forall d k v, NoDup (map fst d) -> (find k d = Some v <-> In (k, v) d).
  Proof.
    induction d as [|(k0 & v0) d IH]; intros k v N; [split; [discriminate|intros []]|]. cbn [map fst] in N. inversion N as [|x l NI N']; subst. cbn [find]. destruct (String.eqb_spec k k0) as [->|NE].
    - split; [intros H; left; congruence|]. intros [H|H]; [congruence|]. destruct NI. change k0 with (fst (k0, v)). apply in_map. exact H.
    - rewrite (IH k v N'). split; [intros H; right; exact H|]. intros [H|H]; [congruence|exact H].
  Qed.
  Lemma find_none : forall d k, find k d = None <-> ~ In k (map fst d).
  Proof.
    induction d as [|(k0 & v0) d IH]; intros k; [split; auto|]. cbn [find map fst]. destruct (String.eqb_spec k k0) as [->|NE]; [split; [discriminate|intros H; destruct H; left; reflexivity]|]. rewrite IH. split; [intros H [E|I]; congruence|intros H I; apply H; right; exact I].
  Qed.
  Lemma in_key : forall d k, In k (map fst d) <-> exists v, In (k, v) d.
  Proof. intros d k. rewrite in_map_iff. split; [intros ((k' & v) & E & I); cbn in E; subst; eauto|intros (v & I); exists (k, v); auto]. Qed.
  Lemma put_keys : forall d k v, In k (map fst d) -> map fst (put d k v) = map fst d.
  Proof. induction d as [|(k0 & v0) d IH]; intros k v I; [destruct I|]. cbn [put]. destruct (String.eqb_spec k k0) as [->|NE]; [reflexivity|]. cbn. f_equal. apply IH. destruct I as [E|I]; [cbn in E; congruence|exact I]. Qed.
  Lemma put_in : forall d k v, NoDup (map fst d) -> In k (map fst d) -> forall k' v', In (k', v') (put d k v) <-> (k' = k /\ v' = v) \/ (k' <> k /\ In (k', v') d).
  Proof.
    induction d as [|(k0 & v0) d IH]; intros k v N I k' v'; [destruct I|]. cbn [map fst] in N. inversion N as [|x l NI N']; subst. cbn [put]. destruct (String.eqb_spec k k0) as [->|NE].
    - split.
      + intros [H|H]; [left; split; congruence|]. right. split; [intros ->; apply NI; apply in_key; eauto|right; exact H].
      + intros [(-> & ->)|(NE & [H|H])]; [left; reflexivity|congruence|right; exact H].
    - assert (I' : In k (map fst d)) by (destruct I as [E|I]; [cbn in E; congruence|exact I]). cbn [In]. rewrite (IH k v N' I'). split.
      + intros [H|[H|(H1 & H2)]]; [right; split; [congruence|auto]|auto|auto].
      + intros [H|(H1 & [H|H])]; auto.
  Qed.
  Lemma put_same : forall d k v, NoDup (map fst d) -> In (k, v) d -> put d k v = d.
  Proof. induction d as [|(k0 & v0) d IH]; intros k v N I; [destruct I|]. cbn [map fst] in N. inversion N as [|x l NI N']; subst. cbn [put]. destruct (String.eqb_spec k k0) as [->|NE]; [destruct I as [E|I]; [congruence|destruct NI; apply in_key; eauto]|]. f_equal. apply IH; [exact N'|]. destruct I as [E|I]; [congruence|exact I]. Qed.
  Lemma key_fun : forall d k v v', NoDup (map fst d) -> In (k, v) d -> In (k, v') d -> v = v'.
  Proof. intros d k v v' N I I'. apply (find_iff d k v N) in I. apply (find_iff d k v' N) in I'. congruence. Qed.
End Dict.

(** ** Parameters *)
Section Params.
  Context {V : Type}.
  Implicit Types p : params V.
  Notation step := (string * option (string * V))%type.
  Lemma assigned_app : forall (a b : list step) sec par v, assigned (a ++ b) sec par v <-> assigned b sec par v \/ (assigned a sec par v /\ forall w, ~ In (sec, Some (par, w)) b).
  Proof.
    intros a b sec par v. split.
    - intros (x & y & E & N). revert a E. induction x as [|h x IH]; intros a E.
      + destruct a as [|h a]; [left; exists [], y; split; [exact E|exact N]|]. cbn in E. injection E as -> <-. right. split; [exists [], a; split; [reflexivity|]|]; intros w I; apply (N w); apply in_or_app; auto.
      + destruct a as [|h' a]; [left; exists (h :: x), y; split; [exact E|exact N]|]. cbn in E. injection E as -> E. destruct (IH a E) as [H|((x' & y' & -> & N') & NB)]; [left; exact H|]. right. split; [exists (h :: x'), y'; auto|exact NB].
    - intros [(x & y & -> & N)|((x & y & -> & N) & NB)].
      + exists (a ++ x), y. rewrite <- app_assoc. auto.
      + exists x, (y ++ b). rewrite <- app_assoc. split; [reflexivity|]. intros w I. apply in_app_or in I. destruct I as [I|I]; [exact (N w I)|exact (NB w I)].
  Qed.
  Lemma overridden_refl : forall p, wf p -> overridden p [] p.
  Proof.
    intros p (W & _). split; [reflexivity|]. split; [intros sec s s' I I'; rewrite (key_fun _ _ _ _ W I I'); reflexivity|]. intros sec par v. split; [intros H; right; split; [exact H|intros w []]|]. intros [(a & b & E & _)|(H & _)]; [destruct a; discriminate E|exact H].
  Qed.
  Lemma overridden_section : forall p k, wf p -> overridden p [(k, None)] p.
  Proof.
    intros p k W. destruct (overridden_refl p W) as (A & B & _). split; [exact A|]. split; [exact B|]. intros sec par v. split; [intros H; right; split; [exact H|intros w [E|[]]; discriminate E]|]. intros [(a & b & E & _)|(H & _)]; [|exact H]. destruct a as [|x [|y a]]; discriminate E.
  Qed.
  Lemma overridden_wf : forall p l p', wf p -> overridden p l p' -> wf p'.
  Proof.
    intros p l p' (W & WS) (K & S0 & _). split; [rewrite K; exact W|]. intros sec s' I. assert (IK : In sec (map fst p)) by (rewrite <- K; apply in_key; eauto). apply in_key in IK. destruct IK as (s & I0). rewrite (S0 sec s s' I0 I). exact (WS sec s I0).
  Qed.
  Lemma overridden_trans : forall p l p1 l' p2, overridden p l p1 -> overridden p1 l' p2 -> overridden p (l ++ l') p2.
  Proof.
    intros p l p1 l' p2 (K & S0 & H) (K' & S1 & H'). split; [rewrite K'; exact K|]. split.
    - intros sec s s2 I I2. assert (IK : In sec (map fst p1)) by (rewrite K; apply in_key; eauto). apply in_key in IK. destruct IK as (s1 & I1). rewrite (S1 sec s1 s2 I1 I2). exact (S0 sec s s1 I I1).
    - intros sec par v. rewrite H', H, assigned_app. split.
      + intros [A|([A|(B & N)] & N')]; [auto|auto|]. right. split; [exact B|]. intros w I. apply in_app_or in I. destruct I as [I|I]; [exact (N w I)|exact (N' w I)].
      + intros [[A|(A & N)]|(A & N)]; [auto|right; auto|]. right. split; [right; split; [exact A|]|]; intros w I; apply (N w); apply in_or_app; auto.
  Qed.
  Lemma known_keys : forall p sec par, known p sec par <-> exists s, In (sec, s) p /\ In par (map fst s).
  Proof.
    intros p sec par. unfold known, has. split; [intros (v & s & I & J); exists s; split; [exact I|apply in_key; eauto]|]. intros (s & I & J). apply in_key in J. destruct J as (v & J). exists v, s. auto.
  Qed.
  Lemma overridden_good : forall p l p', overridden p l p' -> forall x, good p' x <-> good p x.
  Proof.
    intros p l p' (K & S0 & _) (sec & [(par & v)|]); unfold good; cbn [fst snd].
    - rewrite !known_keys. split.
      + intros (s' & I' & J). assert (IK : In sec (map fst p)) by (rewrite <- K; apply in_key; eauto). apply in_key in IK. destruct IK as (s & I). exists s. split; [exact I|]. rewrite <- (S0 sec s s' I I'). exact J.
      + intros (s & I & J). assert (IK : In sec (map fst p')) by (rewrite K; apply in_key; eauto). apply in_key in IK. destruct IK as (s' & I'). exists s'. split; [exact I'|]. rewrite (S0 sec s s' I I'). exact J.
    - unfold section. rewrite <- !in_key, K. reflexivity.
  Qed.
  Lemma overridden_set : forall p sec s par v, wf p -> find sec p = Some s -> In par (map fst s) -> overridden p [(sec, Some (par, v))] (put p sec (put s par v)).
  Proof.
    intros p sec s par v (W & WS) F J. apply (find_iff p sec s W) in F. pose proof (WS sec s F) as NS. assert (IK : In sec (map fst p)) by (apply in_key; eauto).
    split; [apply put_keys; exact IK|]. split.
    - intros k s1 s2 I1 I2. apply (put_in p sec _ W IK) in I2. destruct I2 as [(-> & ->)|(NE & I2)]; [rewrite (key_fun _ _ _ _ W F I1) in *; apply put_keys; exact J|rewrite (key_fun _ _ _ _ W I1 I2); reflexivity].
    - intros k q w. unfold has. split.
      + intros (s2 & I2 & J2). apply (put_in p sec _ W IK) in I2. destruct I2 as [(-> & ->)|(NE & I2)].
        * apply (put_in s par v NS J) in J2. destruct J2 as [(-> & ->)|(NE & J2)]; [left; exists [], []; split; [reflexivity|intros u []]|]. right. split; [eauto|]. intros u [E|[]]. congruence.
        * right. split; [eauto|]. intros u [E|[]]. congruence.
      + intros [(a & b & E & _)|((s2 & I2 & J2) & N)].
        * destruct a as [|x a]; [|destruct a; discriminate E]. cbn in E. assert (k = sec /\ q = par /\ w = v) as (-> & -> & ->) by (repeat split; congruence). exists (put s par v). split; [apply (put_in p sec _ W IK); left; auto|apply (put_in s par v NS J); left; auto].
        * destruct (String.eqb_spec k sec) as [->|NE].
          -- rewrite (key_fun _ _ _ _ W I2 F) in J2. exists (put s par v). split; [apply (put_in p sec _ W IK); left; auto|]. apply (put_in s par v NS J). right. split; [|exact J2]. intros ->. apply (N v). left. reflexivity.
          -- exists s2. split; [|exact J2]. apply (put_in p sec _ W IK). right. auto.
  Qed.
  (** steps one by one *)
  Fixpoint steps p (l : list step) : params V * result unit :=
    match l with
    | [] => (p, Ok tt)
    | (k, None) :: t => match find k p with None => (p, Raise KeyError) | Some _ => steps p t end
    | (k, Some (sk, v)) :: t => match find k p with None => (p, Raise KeyError) | Some s => match find sk s with None => (p, Raise KeyError) | Some _ => steps (put p k (put s sk v)) t end end
    end.
  Lemma steps_app : forall l l' p, steps p (l ++ l') = match steps p l with (p', Ok _) => steps p' l' | (p', Raise e) => (p', Raise e) end.
  Proof.
    induction l as [|(k & [(sk & v)|]) l IH]; intros l' p; cbn [app steps]; [reflexivity| |]; destruct (find k p) as [s|]; try reflexivity; [destruct (find sk s); [apply IH|reflexivity]|apply IH].
  Qed.
  Lemma steps_section : forall new k p, update_section p k new = steps p (map (fun y => (k, Some y)) new).
  Proof.
    induction new as [|(sk & v) new IH]; intros k p; cbn [update_section map steps]; [reflexivity|]. destruct (find k p) as [s|]; [|reflexivity]. destruct (find sk s); [apply IH|reflexivity].
  Qed.
  Lemma update_steps : forall new p, update_parameters p new = steps p (listing new).
  Proof.
    induction new as [|(k & s) new IH]; intros p; cbn [update_parameters]; [reflexivity|]. unfold listing. cbn [flat_map fst snd]. fold (listing new). cbn [app steps]. destruct (find k p); [|reflexivity]. rewrite steps_app, <- steps_section. destruct (update_section p k s) as (p' & [u|e]); [apply IH|reflexivity].
  Qed.
  Lemma good_find : forall p k, wf p -> (section p k <-> find k p <> None).
  Proof. intros p k W. rewrite find_none. unfold section. rewrite <- in_key. destruct (in_dec string_dec k (map fst p)); tauto. Qed.
  Lemma steps_spec : forall l p p' r, wf p -> steps p l = (p', r) -> exists pre post, l = pre ++ post /\ (forall x, In x pre -> good p x) /\ overridden p pre p' /\ ((r = Ok tt /\ post = []) \/ (r = Raise KeyError /\ exists x rest, post = x :: rest /\ ~ good p x)).
  Proof.
    induction l as [|(k & o) l IH]; intros p p' r W H.
    - cbn in H. injection H as <- <-. exists [], []. split; [reflexivity|]. split; [intros x []|]. split; [apply overridden_refl; exact W|auto].
    - assert (STEP : forall p1 x, x = (k, o) -> good p x -> overridden p [x] p1 -> steps p1 l = (p', r) -> exists pre post, x :: l = pre ++ post /\ (forall y, In y pre -> good p y) /\ overridden p pre p' /\ ((r = Ok tt /\ post = []) \/ (r = Raise KeyError /\ exists y rest, post = y :: rest /\ ~ good p y))).
      { intros p1 x -> GX O E. destruct (IH p1 p' r (overridden_wf _ _ _ W O) E) as (pre & post & -> & GP & O' & RS). exists ((k, o) :: pre), post. split; [reflexivity|]. split; [intros y [<-|I]; [exact GX|apply (overridden_good _ _ _ O); exact (GP y I)]|]. split; [exact (overridden_trans _ _ _ _ _ O O')|]. destruct RS as [R1|(R1 & y & rest & E1 & N1)]; [auto|]. right. split; [exact R1|]. exists y, rest. split; [exact E1|]. rewrite <- (overridden_good _ _ _ O). exact N1. }
      assert (BAD : p' = p -> r = Raise KeyError -> ~ good p (k, o) -> exists pre post, (k, o) :: l = pre ++ post /\ (forall y, In y pre -> good p y) /\ overridden p pre p' /\ ((r = Ok tt /\ post = []) \/ (r = Raise KeyError /\ exists y rest, post = y :: rest /\ ~ good p y))).
      { intros -> -> NG. exists [], ((k, o) :: l). split; [reflexivity|]. split; [intros x []|]. split; [apply overridden_refl; exact W|]. right. split; [reflexivity|]. eauto. }
      cbn [steps] in H. destruct o as [(sk & v)|].
      + destruct (find k p) as [s|] eqn:F.
        * destruct (find sk s) as [u|] eqn:F2.
          -- assert (J : In sk (map fst s)) by (destruct (in_dec string_dec sk (map fst s)) as [J|J]; [exact J|apply find_none in J; congruence]). apply (STEP (put p k (put s sk v)) (k, Some (sk, v)) eq_refl); [unfold good; cbn [fst snd]; apply known_keys; exists s; split; [apply find_iff; [exact (proj1 W)|exact F]|exact J]|apply overridden_set; assumption|exact H].
          -- injection H as <- <-. apply BAD; auto. unfold good. cbn [fst snd]. rewrite known_keys. intros (s1 & I1 & J1). apply (find_iff p k s1 (proj1 W)) in I1. rewrite F in I1. injection I1 as <-. apply find_none in F2. contradiction.
        * injection H as <- <-. apply BAD; auto. unfold good. cbn [fst snd]. rewrite known_keys. intros (s1 & I1 & J1). apply find_none in F. apply F. apply in_key. eauto.
      + destruct (find k p) as [s|] eqn:F.
        * apply (STEP p (k, None) eq_refl); [unfold good; cbn [fst snd]; apply good_find; [exact W|congruence]|apply overridden_section; exact W|exact H].
        * injection H as <- <-. apply BAD; auto. unfold good. cbn [fst snd]. rewrite (good_find p k W). congruence.
  Qed.
  Theorem update_spec : forall p new p' r, wf p -> update_parameters p new = (p', r) -> exists pre, applied p new pre (r = Ok tt) /\ overridden p pre p' /\ (r = Ok tt \/ r = Raise KeyError).
  Proof.
    intros p new p' r W H. rewrite update_steps in H. destruct (steps_spec _ _ _ _ W H) as (pre & post & E & GP & O & RS). exists pre. split; [|split; [exact O|tauto]]. exists post. split; [exact E|]. split; [exact GP|]. destruct RS as [RS|(-> & RS)]; [left; exact RS|right; split; [discriminate|exact RS]].
  Qed.
  Lemma applied_fun : forall p new a b (x y : Prop), applied p new a x -> applied p new b y -> a = b /\ (x <-> y).
  Proof.
    intros p new a b x y (pa & Ea & Ga & Ra) (pb & Eb & Gb & Rb). rewrite Ea in Eb. clear Ea.
    revert b Gb Eb. induction a as [|h a IH]; intros [|h' b] Gb Eb; cbn [app] in Eb.
    - split; [reflexivity|]. subst pb. destruct Ra as [(X & ->)|(X & z & rest & -> & N)], Rb as [(Y & EY)|(Y & z' & rest' & EY & N')]; try discriminate EY; tauto.
    - exfalso. destruct Ra as [(_ & ->)|(_ & z & rest & -> & N)]; [discriminate Eb|]. injection Eb as -> _. apply N. apply Gb. left. reflexivity.
    - exfalso. destruct Rb as [(_ & ->)|(_ & z & rest & -> & N)]; [discriminate Eb|]. injection Eb as -> _. apply N. apply Ga. left. reflexivity.
    - injection Eb as -> Eb. destruct (IH (fun q I => Ga q (or_intror I)) b (fun q I => Gb q (or_intror I)) Eb) as (-> & XY). auto.
  Qed.
  Lemma applied_ext : forall p p' new l (x : Prop), (forall y, good p' y <-> good p y) -> applied p' new l x -> applied p new l x.
  Proof.
    intros p p' new l x G (post & E & GP & R). exists post. split; [exact E|]. split; [intros y I; apply G; exact (GP y I)|]. destruct R as [R|(N & y & rest & EP & NG)]; [auto|]. right. split; [exact N|]. exists y, rest. split; [exact EP|]. rewrite <- G. exact NG.
  Qed.
End Params.
