(** Readout smear, stated directly: a row collects its own light during the
    exposure and, during readout, the light of every row it is read through
    (itself included). *)
From Coq Require Import List Arith QArith.
From Verif Require Import Base FloatModel DesmearModel.
Import ListNotations.
Local Open Scope nat_scope.

(** Σ_{s <= r} f s *)
Fixpoint qsum_to (r : nat) (f : nat -> Q) : Q :=
  match r with 0 => f 0 | S r' => (qsum_to r' f + f r)%Q end.

(** [y] is the smeared version of [x] with ratio [a] in an image of [n] rows
    (one column). *)
Definition smeared (a : Q) (n : nat) (x y : nat -> Q) : Prop :=
  forall r, r < n -> (y r == x r + a * qsum_to r x)%Q.

Definition pix (im : image) (r c : nat) : option fl :=
  match nth_error im r with Some row => nth_error row c | None => None end.

Definition rectangular (im : image) (nr nc : nat) : Prop :=
  List.length im = nr /\ Forall (fun row => List.length row = nc) im.

(** Column [c] of the image is finite with values [x]. *)
Definition col_is (im : image) (c : nat) (x : nat -> Q) : Prop :=
  forall r, r < List.length im -> exists q, pix im r c = Some (Fin q) /\ (q == x r)%Q.

(** A frame and its result: only the image changes, by the ratio of the row read
    time to the frame's own exposure time. *)
Definition desmear_ok (rt : Q) (f g : dframe) : Prop :=
  exists t, d_exptime f = Some t /\ d_exptime g = Some t /\ d_img g = desmear_img (rt / t) (d_img f)
    /\ (d_img f <> [] -> ~ (t == 0)%Q /\ ~ (1 + rt / t == 0)%Q).
