(** Specification of the tuning parameters. *)
From Coq Require Import List Arith ZArith String.
From Verif Require Import Base ComboSpec StarModel.
Import ListNotations.

Section Spec.
  Context {V : Type}.
  (** A parameter of a section, its value. *)
  Definition has (p : params V) (sec par : string) (v : V) : Prop := exists s, In (sec, s) p /\ In (par, v) s.
  Definition section (p : params V) (sec : string) : Prop := exists s, In (sec, s) p.
  Definition known (p : params V) (sec par : string) : Prop := exists v, has p sec par v.
  (** No key twice. *)
  Definition wf (p : params V) : Prop := NoDup (map fst p) /\ forall sec s, In (sec, s) p -> NoDup (map fst s).
  (** The overrides in order: a section, then its parameters. *)
  Definition listing (new : params V) : list (string * option (string * V)) := flat_map (fun x => (fst x, None) :: map (fun y => (fst x, Some y)) (snd x)) new.
  Definition good (p : params V) (x : string * option (string * V)) : Prop := match snd x with None => section p (fst x) | Some y => known p (fst x) (fst y) end.
  (** What is applied of them: all before the first that is not known. *)
  Definition applied (p new : params V) (pre : list (string * option (string * V))) (all : Prop) : Prop :=
    exists post, listing new = pre ++ post /\ (forall x, In x pre -> good p x) /\ (all /\ post = [] \/ ~ all /\ exists x rest, post = x :: rest /\ ~ good p x).
  (** Assigned, and not again after. *)
  Definition assigned (l : list (string * option (string * V))) (sec par : string) (v : V) : Prop := exists a b, l = a ++ (sec, Some (par, v)) :: b /\ forall w, ~ In (sec, Some (par, w)) b.
  Definition overridden (p : params V) (l : list (string * option (string * V))) (p' : params V) : Prop :=
    map fst p' = map fst p /\ (forall sec s s', In (sec, s) p -> In (sec, s') p' -> map fst s' = map fst s)
    /\ forall sec par v, has p' sec par v <-> assigned l sec par v \/ (has p sec par v /\ forall w, ~ In (sec, Some (par, w)) l).
End Spec.
Section Frames.
  Context {D L : Type}.
  (** Frames with and without spots of one mode. *)
  Definition admissible (fs : list (frame D L)) (m : string) (sci spots : list (frame D L)) : Prop :=
    sci <> [] /\ spots <> [] /\ (forall f, In f fs -> f_mode f = Some m) /\ (forall f, In f fs -> f_sat f = Some 0%Z \/ f_sat f = Some 1%Z)
    /\ sieve (fun f => f_sat f = Some 0%Z) fs sci /\ sieve (fun f => f_sat f = Some 1%Z) fs spots.
  Definition located (loc : L) (f g : frame D L) : Prop := f_sat g = f_sat f /\ f_mode g = f_mode f /\ f_data g = f_data f /\ f_loc g = Some loc /\ f_hist g = f_hist f ++ [loc].
End Frames.
Section Calls.
  Context {V D G L : Type}.
  Definition wfd (df : defaults V) : Prop := NoDup (map fst df) /\ forall m p, In (m, p) df -> wf p.
  (** The parameters of one mode replaced. *)
  Definition changed (df : defaults V) (m : string) (p' : params V) (df' : defaults V) : Prop :=
    map fst df' = map fst df /\ forall m' q, In (m', q) df' <-> (m' = m /\ q = p') \/ (m' <> m /\ In (m', q) df).
  (** The overrides a call leaves in the parameters of a mode. *)
  Definition leaves (df : defaults V) (c : call V D G L) (m : string) (l : list (string * option (string * V))) : Prop :=
    (exists new sci spots p all, c_over c = Some new /\ admissible (c_frames c) m sci spots /\ In (m, p) df /\ applied p new l all)
    \/ (l = [] /\ ~ exists new sci spots p, c_over c = Some new /\ admissible (c_frames c) m sci spots /\ In (m, p) df).
End Calls.
