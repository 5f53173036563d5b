(** What frame_select should do: criteria as predicates on the cards and bits of
    a frame, independent of the order of the checks. *)
From Coq Require Import List Arith Bool QArith ZArith String.
From Verif Require Import Base SelectModel.
Import ListNotations.
Local Open Scope nat_scope.

Section Spec.
Context {X : Type}.

(** A (non-negative) DQ value has a bit set that is not among the allowed ones. *)
Definition has_disallowed (allowed d : Z) : Prop :=
  exists b, (0 <= b)%Z /\ Z.testbit d b = true /\ Z.testbit allowed b = false.

(** [n] pixels of the image have a disallowed bit. *)
Inductive count_of {A} (P : A -> Prop) : list A -> nat -> Prop :=
| count_nil : count_of P [] 0
| count_yes : forall x l n, P x -> count_of P l n -> count_of P (x :: l) (S n)
| count_no : forall x l n, ~ P x -> count_of P l n -> count_of P (x :: l) n.

(** The six criteria of the docstring. *)
Definition violates (s : setting) (f : sframe X) (r : reason) : Prop :=
  match r with
  | BadPix => (s_frac s < 1)%Q /\ exists n, count_of (has_disallowed (s_allowed s)) (f_dq f) n
               /\ (s_frac s * inject_Z (Z.of_nat (List.length (f_dq f))) < inject_Z (Z.of_nat n))%Q
  | OverExp => s_overexp s = true /\ f_over f = Some true
  | TipRms => exists t v, s_rms s = Some t /\ f_z2v f = Some v /\ (t < v)%Q
  | TiltRms => exists t v, s_rms s = Some t /\ f_z3v f = Some v /\ (t < v)%Q
  | TipBias => exists t v, s_bias s = Some t /\ f_z2r f = Some v /\ (t < v)%Q
  | TiltBias => exists t v, s_bias s = Some t /\ f_z3r f = Some v /\ (t < v)%Q
  end.
Definition rejected (s : setting) (f : sframe X) : Prop := exists r, violates s f r.

(** The cards needed by the enabled criteria are present (and the image has
    pixels if its bad-pixel fraction is to be computed). *)
Definition has_cards (s : setting) (f : sframe X) : Prop :=
  ((s_frac s < 1)%Q -> f_dq f <> [])
  /\ (s_overexp s = true -> f_over f <> None)
  /\ (s_rms s <> None -> f_z2v f <> None /\ f_z3v f <> None)
  /\ (s_bias s <> None -> f_z2r f <> None /\ f_z3r f <> None).

Definition dq_nonneg (f : sframe X) : Prop := Forall (fun d => (0 <= d)%Z) (f_dq f).

(** Everything but the IS_BAD, FRMSEL and HISTORY cards is the same. *)
Definition same_content (f g : sframe X) : Prop :=
  f_name f = f_name g /\ f_dq f = f_dq g /\ f_over f = f_over g /\ f_z2v f = f_z2v g /\ f_z3v f = f_z3v g
  /\ f_z2r f = f_z2r g /\ f_z3r f = f_z3r g /\ f_rest f = f_rest g.

(** The criteria recorded in the header. *)
Definition records (s : setting) (g : sframe X) : Prop :=
  f_sel g = Some (mksel (s_frac s) (s_overexp s) (s_rms s) (s_rms s) (s_bias s) (s_bias s)).

(** The bad frames of the list, in order, each with its violated criteria in
    the order of the checks. *)
Definition canonical (l : list reason) : Prop :=
  exists P : reason -> bool, l = filter P [BadPix; OverExp; TipRms; TiltRms; TipBias; TiltBias].

Inductive bad_list (s : setting) : list (sframe X) -> list (string * list reason) -> Prop :=
| bl_nil : bad_list s [] []
| bl_good : forall f fs l, ~ rejected s f -> bad_list s fs l -> bad_list s (f :: fs) l
| bl_bad : forall f fs rs l, rejected s f -> (forall r, In r rs <-> violates s f r) -> canonical rs ->
    bad_list s fs l -> bad_list s (f :: fs) ((f_name f, rs) :: l).

(** [kept s fs sel]: [sel] are the frames of [fs] not rejected, in order. *)
Inductive kept (s : setting) : list (sframe X) -> list (sframe X) -> Prop :=
| k_nil : kept s [] []
| k_good : forall f fs l, ~ rejected s f -> kept s fs l -> kept s (f :: fs) (f :: l)
| k_bad : forall f fs l, rejected s f -> kept s fs l -> kept s (f :: fs) l.

(** What becomes of one frame. *)
Definition out_frame (s : setting) (n : note) (f g : sframe X) : Prop :=
  same_content f g /\ records s g /\ f_hist g = f_hist f ++ [n]
  /\ (rejected s f -> f_isbad g = Some true) /\ (~ rejected s f -> f_isbad g = f_isbad f).

(** The whole outcome. *)
Definition select_spec (s : setting) (fs : list (sframe X)) (r : result (list (sframe X))) : Prop :=
  match r with
  | Ok out => Forall (has_cards s) fs /\ (exists f, In f fs /\ ~ rejected s f)
      /\ exists n sel, n_removed n = s_discard s /\ bad_list s fs (n_bad n)
         /\ (if s_discard s then kept s fs sel else sel = fs) /\ Forall2 (out_frame s n) sel out
  | Raise ValueError => Forall (has_cards s) fs /\ Forall (rejected s) fs
  | Raise _ => ~ Forall (has_cards s) fs
  end.
End Spec.
