(** Specification of the calibration stacks. *)
From Coq Require Import List Arith Bool QArith String Sorted.
From Verif Require Import Base CosmicModel CosmicSpec StackModel.
Import ListNotations.
Local Open Scope list_scope.
Local Open Scope nat_scope.

(** [ks]: the distinct values of a keyword in ascending order; [gs]: for each
    of them the frames having it, in their order in [fs]. *)
Definition grouped {F} (key : F -> option Q) (fs : list F) (ks : list Q) (gs : list (list F)) : Prop :=
  StronglySorted Qlt ks
  /\ (forall f, In f fs -> exists q, key f = Some q /\ exists k, In k ks /\ (k == q)%Q)
  /\ Forall2 (fun k g => g <> [] /\ g = filter (fun f => match key f with Some q => Qeq_bool q k | None => false end) fs) ks gs.

Section Spec.
Context {A : Type}.
Notation sframe := (sframe A).

Definition obs_is (names : list string) (f : sframe) : bool :=
  match sf_obs f with Some o => existsb (String.eqb o) names | None => false end.
Definition means := filter (obs_is ["MNFRAME"%string]).
Definition cals := filter (obs_is ["KGAIN"%string; "NONLIN"%string]).
(** K-gain: whatever is not a mean frame is a calibration frame. *)
Definition others := filter (fun f : sframe => negb (obs_is ["MNFRAME"%string] f)).

(** The gains taken from the calibration frames of one set: those of all
    leading frames with a measured gain, and the one of the first frame
    without. *)
Inductive recorded : list sframe -> list Q -> Prop :=
| rec_nil : recorded [] []
| rec_meas : forall f t g l, h_gm (sf_h f) = Some g -> recorded t l -> recorded (f :: t) (g :: l)
| rec_last : forall f t g, h_gm (sf_h f) = None -> gain_of (sf_h f) g -> recorded (f :: t) [g].

Definition has_time (f : sframe) (t : Q) : Prop := sf_t f = Some (true, t) /\ (0 < t)%Q.
Definition has_date (f : sframe) (d : string) : Prop := sf_dt f = Some (Some d).

(** nonlin_dataset_2_stack succeeds with [o]. *)
Definition nl_result (fs : list sframe) (o : nl_out A) : Prop :=
  exists ks gs, grouped (fun f => h_gc (sf_h f)) fs ks gs
  (** every frame is known *)
  /\ (forall f, In f fs -> In f (means fs) \/ In f (cals fs))
  (** mean frames: one exposure time, unit gain *)
  /\ (exists m, forall f, In f (means fs) -> (exists t, sf_time f = Some t /\ (t == m)%Q) /\ exists c, h_gc (sf_h f) = Some c /\ (c == 1)%Q)
  /\ means fs <> [] /\ o_mean o = map sf_px (List.concat (map means gs))
  (** calibration frames, aligned with times and dates *)
  /\ cals fs <> [] /\ o_cal o = map sf_px (List.concat (map cals gs))
  /\ Forall2 has_time (List.concat (map cals gs)) (o_times o)
  /\ Forall2 has_date (List.concat (map cals gs)) (o_dts o) /\ NoDup (o_dts o)
  /\ o_len o = map (@List.length _) (filter (fun g => negb (Nat.eqb (List.length g) 0)) (map cals gs))
  (** gains *)
  /\ Forall (fun k => (1 <= k)%Q) ks
  /\ exists gl, Forall2 recorded (map cals gs) gl /\ o_gains o = List.concat gl /\ Forall (fun g => (1 <= g)%Q) (o_gains o).

(** kgain_dataset_2_list succeeds with [(stack, mean, gain)]: [n] is the
    smallest number of frames (of both kinds) of an exposure time with
    calibration frames. *)
Definition kg_result (fs : list sframe) (stack : list (list A)) (mean : list A) (gain : Q) : Prop :=
  exists ks gs n, grouped sf_time fs ks gs
  /\ (forall f, In f fs -> sf_obs f <> None)
  /\ (forall f, In f (means fs) -> exists c, h_gc (sf_h f) = Some c /\ (c == 1)%Q)
  /\ mean = map sf_px (List.concat (map means gs))
  /\ (forall f, In f (others fs) -> exists t, has_time f t)
  /\ (exists dts, Forall2 has_date (List.concat (map others gs)) dts /\ NoDup dts)
  /\ (exists c, (1 <= c)%Q /\ forall f, In f (others fs) -> exists c', h_gc (sf_h f) = Some c' /\ (c' == c)%Q)
  (** pieces of n frames *)
  /\ In n (map (@List.length _) (filter (fun g => negb (Nat.eqb (List.length (others g)) 0)) gs))
  /\ (forall g, In g gs -> others g <> [] -> n <= List.length g)
  /\ (forall g, In g gs -> exists k, List.length (others g) = k * n)
  /\ Forall (fun p => List.length p = n) stack
  /\ List.concat stack = map sf_px (List.concat (map others gs))
  (** gain *)
  /\ exists gl, Forall2 recorded (map others gs) gl /\ Forall (fun g => (1 <= g)%Q) (List.concat gl)
     /\ List.concat gl <> [] /\ gain = (fold_right Qplus 0 (List.concat gl) / inject_Z (Z.of_nat (List.length (List.concat gl))))%Q.
(** the frames of one exposure time *)
Definition same_time (t : Q) (fs : list sframe) : list sframe := filter (fun f => match sf_time f with Some q => Qeq_bool q t | None => false end) fs.
End Spec.
