(** Specification vocabulary for the master darks. *)
From Coq Require Import List Arith Bool QArith ZArith String Reals Qreals.
From Verif Require Import Base FloatModel CosmicModel DarkModel GeomModel GeomSpec.
Import ListNotations.
Local Open Scope nat_scope.

(** Frames with data, error and DQ of one shape. *)
Definition frame_shape (nr nc : nat) (f : dkf) : Prop :=
  rect (k_data f) nr nc /\ rect (k_err f) nr nc /\ rect (k_dq f) nr nc.

(** All frames carry the cards EXPTIME, EMGAIN_C and KGAINPAR with the values of
    [k]. *)
Definition has_key (h : dkh) (t c k : Q) : Prop :=
  exists t' c' k', h_t h = Some t' /\ h_gc (h_cr h) = Some c' /\ h_k h = Some k' /\ (t' == t /\ c' == c /\ k' == k)%Q.

(** The gain to use: measured, else applied when positive, else commanded. *)
Definition gain_is (h : cr_header) (g : Q) : Prop :=
  h_gm h = Some g
  \/ h_gm h = None /\ exists a, h_ga h = Some a /\ ((0 < a)%Q /\ g = a \/ (a <= 0)%Q /\ h_gc h = Some g).

(** Values of the pixel (r, c) in the frames where its DQ is 0. *)
Definition good_values {A} (img : dkf -> list (list A)) (r c : nat) (fs : list dkf) : list A :=
  flat_map (fun f => match at2 (k_dq f) r c, at2 (img f) r c with Some 0%N, Some v => [v] | _, _ => [] end) fs.

(** Sums. *)
Definition Qsum (l : list Q) : Q := fold_right Qplus 0%Q l.
Definition Rsum (l : list R) : R := fold_right Rplus 0%R l.
Definition finite_vals (l : list fl) (qs : list Q) : Prop := Forall2 (fun x q => x = Fin q) l qs.
Definition real_vals (l : list (option R)) (rs : list R) : Prop := Forall2 (fun x r => x = Some r) l rs.
Definition qlen {A} (l : list A) : Q := inject_Z (Z.of_nat (List.length l)).

(** Mean and population variance of real numbers. *)
Definition Rmean (l : list R) : R := (Rsum l / INR (List.length l))%R.
Definition Rvar (l : list R) : R := (Rsum (map (fun x => (x - Rmean l) * (x - Rmean l)) l) / INR (List.length l))%R.

(** The row is a telemetry row (Python slice limits). *)
Definition telem (nr : nat) (lo hi : Z) (r : nat) : Prop :=
  (norm_ix (Z.of_nat nr) lo <= Z.of_nat r < norm_ix (Z.of_nat nr) hi)%Z.

(** No telemetry row and no NaN in the image area. *)
Definition image_clean (si : section) (nr : nat) (lo hi : Z) (f : dkf) : Prop :=
  forall r c, inside si r c -> ~ telem nr lo hi r /\ at2 (k_data f) r c <> Some NaN.

(** The region table used: the shipped one by default. *)
Definition table (rg : option regions) : regions := match rg with Some r => r | None => detector_areas end.

(** The DQ of the master dark: 1 if no sample is left, 256 if less than half
    of them are. *)
Definition dark_flag (n good : nat) : N := if Nat.eqb good 0 then 1%N else if Nat.ltb (2 * good) n then 256%N else 0%N.

(** A full-frame traditional dark of the frames. *)
Definition trad_pixel (fs : list dkf) (is_telem : nat -> Prop) (d : dark) (r c : nat) : Prop :=
  let vs := good_values k_data r c fs in
  let es := good_values k_err r c fs in
  (** mean of the unmasked samples *)
  (~ is_telem r -> forall qs, finite_vals vs qs -> exists q, at2 (dk_data d) r c = Some (Fin q) /\ (q * qlen qs == Qsum qs)%Q /\ (qs = [] -> (q == 0)%Q))
  /\ (~ is_telem r -> In NaN vs -> at2 (dk_data d) r c = Some NaN)
  /\ (is_telem r -> exists q, at2 (dk_data d) r c = Some (Fin q) /\ (q == 0)%Q)
  (** flags *)
  /\ at2 (dk_dq d) r c = Some (dark_flag (List.length fs) (List.length vs))
  (** errors: mean square of the unmasked errors plus the variance of the mean *)
  /\ (~ is_telem r -> forall qs rs, finite_vals vs qs -> real_vals es rs -> rs <> [] ->
        exists e, at2 (dk_err d) r c = Some (Some e) /\ (0 <= e)%R
          /\ (e * e = Rmean (map (fun x => x * x) rs) + Rvar (map Q2R qs) / INR (List.length rs))%R)
  /\ (is_telem r -> forall rs, real_vals es rs -> rs <> [] ->
        exists e, at2 (dk_err d) r c = Some (Some e) /\ (0 <= e)%R /\ (e * e = Rmean (map (fun x => x * x) rs))%R).

(** * Synthesized dark *)
Definition not_negative (v : fl) : Prop := match v with Fin q => (0 <= q)%Q | Inf neg => neg = false | NaN => True end.

(** The three planes (fixed pattern noise, clock-induced charge, dark current)
    have the shape of the frame. *)
Definition maps_shape (nr nc : nat) (nm : noisemaps) (F C D : list (list fl)) (fe ce de : list (list (option R))) (fq cq dq : list (list N)) : Prop :=
  nm_data nm = [F; C; D] /\ nm_err nm = [fe; ce; de] /\ nm_dq nm = [fq; cq; dq]
  /\ rect F nr nc /\ rect C nr nc /\ rect D nr nc /\ rect fe nr nc /\ rect ce nr nc /\ rect de nr nc /\ rect fq nr nc /\ rect cq nr nc /\ rect dq nr nc.

(** One pixel: g * dark = F + g t D + g C, errors in quadrature, union of the
    flags. *)
Definition synth_pixel (g t : Q) (F C D : list (list fl)) (fe ce de : list (list (option R))) (fq cq dq : list (list N)) (d : dark) (r c : nat) : Prop :=
  (forall f cc dd, at2 F r c = Some (Fin f) -> at2 C r c = Some (Fin cc) -> at2 D r c = Some (Fin dd) ->
     exists q, at2 (dk_data d) r c = Some (Fin q) /\ (g * q == f + g * t * dd + g * cc)%Q)
  /\ (at2 F r c = Some NaN \/ at2 C r c = Some NaN \/ at2 D r c = Some NaN -> at2 (dk_data d) r c = Some NaN)
  /\ (forall f cc dd, at2 fe r c = Some (Some f) -> at2 ce r c = Some (Some cc) -> at2 de r c = Some (Some dd) ->
     exists e, at2 (dk_err d) r c = Some (Some e) /\ (0 <= e)%R
       /\ (Q2R g * e * (Q2R g * e) = f * f + (Q2R g * Q2R t * dd) * (Q2R g * Q2R t * dd) + (Q2R g * cc) * (Q2R g * cc))%R)
  /\ (at2 fe r c = Some None \/ at2 ce r c = Some None \/ at2 de r c = Some None -> at2 (dk_err d) r c = Some None)
  /\ (forall x y z, at2 fq r c = Some x -> at2 cq r c = Some y -> at2 dq r c = Some z ->
     exists v, at2 (dk_dq d) r c = Some v /\ forall b, N.testbit v b = true <-> N.testbit x b = true \/ N.testbit y b = true \/ N.testbit z b = true).

(** * Subtraction *)
Definition dark_shape (nr nc : nat) (d : dark) : Prop := rect (dk_data d) nr nc /\ rect (dk_err d) nr nc /\ rect (dk_dq d) nr nc.

Definition subtracted (nr nc : nat) (d : dark) (f o : dkf) : Prop :=
  k_hdr o = k_hdr f /\ frame_shape nr nc o
  /\ forall r c, r < nr -> c < nc ->
     (forall v w, at2 (k_data f) r c = Some (Fin v) -> at2 (dk_data d) r c = Some (Fin w) -> exists u, at2 (k_data o) r c = Some (Fin u) /\ (u + w == v)%Q)
     /\ (at2 (k_data f) r c = Some NaN \/ at2 (dk_data d) r c = Some NaN -> at2 (k_data o) r c = Some NaN)
     /\ (forall x y, at2 (k_err f) r c = Some (Some x) -> at2 (dk_err d) r c = Some (Some y) ->
           exists e, at2 (k_err o) r c = Some (Some e) /\ (0 <= e)%R /\ (e * e = x * x + y * y)%R)
     /\ (at2 (k_err f) r c = Some None \/ at2 (dk_err d) r c = Some None -> at2 (k_err o) r c = Some None)
     /\ (forall x y, at2 (k_dq f) r c = Some x -> at2 (dk_dq d) r c = Some y ->
           exists v, at2 (k_dq o) r c = Some v /\ forall b, N.testbit v b = true <-> N.testbit x b = true \/ N.testbit y b = true).

(** A dark taken with photon counting. *)
Definition analog (pc : option string) : Prop := pc = None \/ pc = Some "analog master dark"%string.
