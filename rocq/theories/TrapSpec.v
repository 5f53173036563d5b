(** Specification of the table of traps. *)
From Coq Require Import List Arith ZArith String Ascii.
From Verif Require Import Base TrapModel.
Import ListNotations.
Local Open Scope Z_scope.

(** Decimal numbers. *)
Definition chr (d : Z) : string := String (ascii_of_nat (48 + Z.to_nat d)) EmptyString.
Inductive numeral : string -> Z -> Prop :=
| num_one : forall d, 0 <= d <= 9 -> numeral (chr d) d
| num_more : forall s n d, numeral s n -> 0 <= d <= 9 -> numeral (s ++ chr d) (10 * n + d).
Inductive number : string -> Z -> Prop :=
| num_plain : forall s n, numeral s n -> number s n
| num_minus : forall s n, numeral s n -> number ("-" ++ s) (- n)
| num_plus : forall s n, numeral s n -> number ("+" ++ s) n.
(** The three sides of an electrode. *)
Definition side (s : string) (k : Z) : Prop := s = "LHS"%string /\ k = 1 \/ s = "CEN"%string /\ k = 2 \/ s = "RHS"%string /\ k = 3.
(** Side and electrode, of one digit. *)
Definition plain (s : string) (k d : Z) : Prop := exists sd, side sd k /\ 0 <= d <= 9 /\ s = (sd ++ "el" ++ chr d)%string.
(** Nothing, or another part. *)
Definition ended (t : string) : Prop := t = EmptyString \/ exists u, t = ("el" ++ u)%string.

Section Table.
  Variable V : Type.
  Variable zero : V.
  Definition kstr (k : key) : string := snd (fst k).
  (** What the row of the table says of a trap. *)
  Definition row_of (k : key) (e : entry V) (t : trow V) : Prop :=
    t_row V t = fst (fst (fst k)) /\ t_col V t = snd (fst (fst k)) /\ t_idx V t = snd k /\ code_of (kstr k) = Ok (t_code V t)
    /\ (exists a b more, e_cap V e = Nested ((t_cap V t :: a :: t_amp V t :: b) :: more))
    /\ t_E V t = e_E V e /\ t_cs V t = e_cs V e /\ t_rsq V t = e_rsq V e /\ t_tau V t = e_tau V e.
  (** The same trap but for the list of fits, of which the first two numbers kept remain. *)
  Definition same_trap (p q : key * entry V) : Prop :=
    fst p = fst q /\ e_E V (snd p) = e_E V (snd q) /\ e_cs V (snd p) = e_cs V (snd q) /\ e_rsq V (snd p) = e_rsq V (snd q) /\ e_tau V (snd p) = e_tau V (snd q)
    /\ exists c a m b more, e_cap V (snd p) = Nested ((c :: a :: m :: b) :: more) /\ e_cap V (snd q) = Flat [c; zero; m].
  (** The trap of a row. *)
  Definition says (t : trow V) (k : key) (e : entry V) : Prop :=
    fst (fst (fst k)) = t_row V t /\ snd (fst (fst k)) = t_col V t /\ snd k = t_idx V t /\ plain (kstr k) ((t_code V t / 10) mod 10) (t_code V t mod 10)
    /\ e = mkentry (Flat [t_cap V t; zero; t_amp V t]) (t_E V t) (t_cs V t) (t_rsq V t) (t_tau V t).
End Table.
