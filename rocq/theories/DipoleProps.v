(** C42: the search for dipoles in trap-pumped frames. *)
From Coq Require Import List Arith Reals ZArith Lia Lra.
From Verif Require Import Base BpmSpec ComboSpec DipoleModel DipoleSpec DipoleProofs DipoleSumProofs DipoleTopProofs.
Import ListNotations.
Local Open Scope R_scope.

(** Three dictionaries without a common key: bright pixels with a dark one after, before, both. *)
Theorem C42_dictionaries : forall nr nc stack imin imax times f limit, usable nr nc stack imin imax times f limit -> exists A B D, trap_id stack imin imax times f limit = Ok (A, B, D)
    /\ (NoDup (map fst A) /\ NoDup (map fst B) /\ NoDup (map fst D))
    /\ (forall p, In p (map fst A) <-> qualifies_above f stack times limit p /\ ~ qualifies_below f stack times limit p)
    /\ (forall p, In p (map fst B) <-> qualifies_below f stack times limit p /\ ~ qualifies_above f stack times limit p)
    /\ (forall p, In p (map fst D) <-> qualifies_above f stack times limit p /\ qualifies_below f stack times limit p)
    /\ (forall p t, In (p, t) A \/ In (p, t) B -> trap_at stack imin imax p t) /\ (forall p t, In (p, t) D -> both_at f stack imin imax times p t).
Proof. exact trap_id_ok. Qed.
Print Assumptions C42_dictionaries.
Example C42_dictionaries_used : usable 3 1 halves flat flat half_times 1 2 /\ qualifies_above 1 halves half_times 1 (0, 0)%nat /\ ~ dipole_above 1 flat 0 0.
Proof. split; [exact halves_usable|]. split; [exact halves_found|exact (flat_dark 0)]. Qed.

(** A reported pixel has the dipole at as many phase times as asked for. *)
Theorem C42_at_least : forall D stack times limit, qualifies D stack times limit -> exists ts, NoDup ts /\ (limit <= Z.of_nat (List.length ts))%Z /\ forall t, In t ts -> exists fr, In (fr, t) (combine stack times) /\ D fr.
Proof. exact at_least. Qed.
Print Assumptions C42_at_least.
(** Enough, if the frames of a phase time agree. *)
Theorem C42_agreeing : forall D stack times limit ts, List.length times = List.length stack -> (forall fr, In fr stack -> D fr \/ ~ D fr) ->
  (forall fr fr' t, In (fr, t) (combine stack times) -> In (fr', t) (combine stack times) -> D fr -> D fr') ->
  NoDup ts -> (limit <= Z.of_nat (List.length ts))%Z -> (forall t, In t ts -> exists fr, In (fr, t) (combine stack times) /\ D fr) -> qualifies D stack times limit.
Proof. exact agreeing. Qed.
Print Assumptions C42_agreeing.
(** Phase times all different: the number of frames with the dipole decides. *)
Theorem C42_distinct_times : forall D stack times limit, List.length times = List.length stack -> NoDup times -> (forall fr, In fr stack -> D fr \/ ~ D fr) ->
  forall kept, sieve D stack kept -> (qualifies D stack times limit <-> (limit <= Z.of_nat (List.length kept))%Z).
Proof. exact distinct_times. Qed.
Print Assumptions C42_distinct_times.
Example C42_distinct_used : qualifies (fun fr => dipole_above 1 fr 0 0) [pumped; flat; pumped] [1; 2; 3] 2 /\ ~ qualifies (fun fr => dipole_above 1 fr 0 0) [pumped; flat; pumped] [1; 2; 3] 3.
Proof.
  assert (N : NoDup [1; 2; 3]) by (repeat constructor; cbn; intros H; repeat (destruct H as [H|H]; [lra|]); exact H).
  assert (DD : forall fr, In fr [pumped; flat; pumped] -> dipole_above 1 fr 0 0 \/ ~ dipole_above 1 fr 0 0) by (intros fr [<-|[<-|[<-|[]]]]; [left; exact pumped_dipole|right; exact (flat_dark 0)|left; exact pumped_dipole]).
  assert (SV : sieve (fun fr => dipole_above 1 fr 0 0) [pumped; flat; pumped] [pumped; pumped]) by (apply sieve_in; [exact pumped_dipole|]; apply sieve_out; [exact (flat_dark 0)|]; apply sieve_in; [exact pumped_dipole|apply sieve_nil]).
  split; [apply (distinct_times _ [pumped; flat; pumped] [1; 2; 3] 2 eq_refl N DD _ SV); cbn; lia|]. intros Q. apply (distinct_times _ [pumped; flat; pumped] [1; 2; 3] 3 eq_refl N DD _ SV) in Q. cbn in Q. lia.
Qed.
(** With several frames at a phase time it may not be reported. *)
Theorem C42_shared_times_refuted : usable 3 1 halves flat flat half_times 1 2
  /\ (forall t, In t [1; 2] -> exists fr, In (fr, t) (combine halves half_times) /\ dipole_above 1 fr 0 0)
  /\ forall A B D, trap_id halves flat flat half_times 1 2 = Ok (A, B, D) -> ~ In (0, 0)%nat (map fst A) /\ ~ In (0, 0)%nat (map fst D).
Proof. exact halves_missed. Qed.
Print Assumptions C42_shared_times_refuted.

(** Refusals. *)
Theorem C42_refuses : forall nr nc stack imin imax times f limit, stack <> [] -> (forall fr, In fr stack -> rect nr nc fr) -> (0 < nr)%nat ->
  (trap_id stack imin imax times f limit = Raise ValueError <-> ~ rect nr nc imin \/ ~ rect nr nc imax \/ List.length times <> List.length stack \/ (0 < f /\ (Z.of_nat (List.length stack) < limit)%Z))
  /\ (trap_id stack imin imax times f limit = Raise TypeError <-> rect nr nc imin /\ rect nr nc imax /\ List.length times = List.length stack /\ (f <= 0 \/ (limit <= 0)%Z))
  /\ ((exists out, trap_id stack imin imax times f limit = Ok out) <-> usable nr nc stack imin imax times f limit).
Proof. exact trap_id_refuses. Qed.
Print Assumptions C42_refuses.
Example C42_refuses_used : trap_id [pumped] flat flat [1] 1 2 = Raise ValueError.
Proof.
  apply (trap_id_refuses 3 1); [discriminate| |lia|right; right; right; split; [lra|cbn; lia]]. intros fr [<-|[]]. split; [reflexivity|intros row [<-|[<-|[<-|[]]]]; reflexivity].
Qed.
Theorem C42_no_shape : forall stack imin imax times f limit, ~ (exists nr nc fr, In fr stack /\ forall fr, In fr stack -> rect nr nc fr) -> trap_id stack imin imax times f limit = Raise TypeError.
Proof. exact trap_id_no_shape. Qed.
Print Assumptions C42_no_shape.
Example C42_no_shape_used : trap_id [pumped; [[1; 2]]] flat flat [1; 2] 1 1 = Raise TypeError.
Proof.
  apply trap_id_no_shape. intros (nr & nc & fr & _ & H). pose proof (H _ (or_introl eq_refl)) as (A & _). pose proof (H _ (or_intror (or_introl eq_refl))) as (B & _). cbn in A, B. lia.
Qed.
