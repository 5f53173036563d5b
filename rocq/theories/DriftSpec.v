(** Specification of the drift correction. *)
From Coq Require Import List Arith Bool QArith ZArith Sorted.
From Verif Require Import Base StackModel DriftModel.
Import ListNotations.
Local Open Scope list_scope.
Local Open Scope nat_scope.

Definition Qtotal (l : list Q) : Q := fold_right Qplus 0%Q l.
Definition qlen {X} (l : list X) : Q := inject_Z (Z.of_nat (List.length l)).

(** [m] is the mean of [qs]. *)
Definition mean_is (qs : list Q) (m : Q) : Prop := qs <> [] /\ (m * qlen qs == Qtotal qs)%Q.
(** np.mean: undefined with a nan or without values. *)
Definition avg (l : list (option Q)) (m : option Q) : Prop :=
  match m with
  | Some x => exists qs, l = map Some qs /\ mean_is qs x
  | None => In None l \/ l = []
  end.
(** nan ignored *)
Definition avg_skip (l : list (option Q)) (m : option Q) : Prop :=
  avg (filter (fun x => match x with Some _ => true | None => false end) l) m.

(** The frames of the exposure time [t], in their order. *)
Definition frames_at (t : Q) (l : list dfr) : list dfr := filter (fun f => Qeq_bool (d_exp f) t) l.

(** [rep] is the smallest of the exposure times with the most frames. *)
Definition repeated (l : list dfr) (rep : Q) : Prop :=
  (exists f, In f l /\ (d_exp f == rep)%Q)
  /\ forall f, In f l -> List.length (frames_at (d_exp f) l) <= List.length (frames_at rep l)
       /\ (List.length (frames_at (d_exp f) l) = List.length (frames_at rep l) -> (rep <= d_exp f)%Q).

Definition halves (l : list dfr) : nat := List.length l / 2.

(** Equally spaced frames starting at [t0], with signal b + a t. *)
Definition linear (a b t0 tau : Q) (l : list dfr) : Prop :=
  forall i f, nth_error l i = Some f ->
    (d_time f == t0 + inject_Z (Z.of_nat i) * tau)%Q /\ exists q, d_sig f = Some q /\ (q == b + a * d_time f)%Q.

Definition times (l : list dfr) : list Q := map d_time l.
(** The frames of the exposure time [t] that are used: of the repeated ones,
    the first half. *)
Definition used (l : list dfr) (rep t : Q) : list dfr :=
  if Qeq_bool t rep then firstn (halves (frames_at t l)) (frames_at t l) else frames_at t l.

(** What the correction computes when the repeated frames have finite signals
    [qs] and the mean times of their halves differ.  [m2] is the mean of all of
    them but the one in the middle. *)
Definition drift_result (l : list dfr) (rep : Q) (d : drift) (qs : list Q) (s i : Q) : Prop :=
  let sel := frames_at rep l in
  let h := halves sel in
  dr_slope d = Some s /\ dr_inter d = Some i
  /\ exists m1 m2 u1 u2, mean_is (firstn h qs) m1 /\ mean_is (firstn h qs ++ skipn (h + 1) qs) m2
     /\ mean_is (firstn h (times sel)) u1 /\ mean_is (skipn h (times sel)) u2
     /\ (s * (u2 - u1) == m2 - m1)%Q /\ (i == m1 - s * u1)%Q
     /\ (~ (i == 0)%Q -> exists t0 g0, hd_error (dr_exps d) = Some t0 /\ mean_is (times (used l rep t0)) g0
         /\ Forall2 (fun t c => exists g x, mean_is (times (used l rep t)) g /\ c = Some x /\ (x * i == i + s * (g - g0))%Q) (dr_exps d) (dr_corr d)).
