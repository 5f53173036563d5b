(** Specification of the ND filter calibration. *)
From Coq Require Import List Reals String Sorted.
From Verif Require Import Base ComboSpec NdModel.
Import ListNotations.
Local Open Scope R_scope.

Section NdSpec.
Context {D : Type}.
Notation frame := (frame D).
Variable leb : string -> string -> bool.
Variables aper_factor gauss_factor : frame -> result R.
Variables aper_phot gauss_phot : frame -> result (option R).
Variable centroid : D -> result (option (R * R)).
Variable irradiance : string -> string -> result posreal.

(** The card that names the filter: FPAMNAME, or FSAMNAME if a frame lacks the former. *)
Definition naming (fs : list frame) (key : frame -> option string) : Prop :=
  (key = @f_fpam D \/ (key = @f_fsam D /\ exists f, In f fs /\ f_fpam D f = None)) /\ forall f, In f fs -> key f <> None.
Definition filtered (key : frame -> option string) (f : frame) : Prop := exists r, key f = Some ("ND" ++ r)%string.

(** [out] lists the frames behind an ND filter by target, then filter name, then as in the dataset. *)
Definition of_class (key : frame -> option string) (t k : string) (f : frame) : Prop := f_target D f = Some t /\ key f = Some k.
Definition before (key : frame -> option string) (f g : frame) : Prop :=
  exists t u k l, of_class key t k f /\ of_class key u l g /\ ((t <> u /\ leb t u = true) \/ (t = u /\ leb k l = true)).
Definition arranged (key : frame -> option string) (fs out : list frame) : Prop :=
  (forall f, In f fs -> filtered key f -> f_target D f <> None) /\ (forall f, In f out -> filtered key f /\ f_target D f <> None)
  /\ StronglySorted (before key) out
  /\ forall t r, exists g, sieve (of_class key t ("ND" ++ r)%string) fs g /\ sieve (of_class key t ("ND" ++ r)%string) out g.

(** The calibration factor given, or the average over the frames without ND filter. *)
Definition sum (l : list R) : R := fold_right Rplus 0 l.
Definition by_method {A} (method : string) (a b : A) (x : A) : Prop := (method = "Aperture"%string /\ x = a) \/ (method = "Gaussian"%string /\ x = b).
Definition calibrated (method : string) (factor : option R) (dim : list frame) (cal : R) : Prop :=
  match factor with
  | Some c => cal = c
  | None => exists g cs, by_method method aper_factor gauss_factor g /\ Forall2 (fun f c => g f = Ok c) dim cs /\ INR (List.length cs) * cal = sum cs
  end.

(** All frames agree with the first of their target, the targets with the first of all. *)
Definition first_of (out : list frame) (t : string) (f : frame) : Prop := exists g, sieve (fun x => f_target D x = Some t) out (f :: g).
Definition apart (P : R -> Prop) (a b : option R) : Prop := exists x y, a = Some x /\ b = Some y /\ P (Rabs (x - y)).
Definition agreeing (out : list frame) (f0 : frame) : Prop :=
  forall f t f1, In f out -> f_target D f = Some t -> first_of out t f1 ->
    f_fpam D f = f_fpam D f0 /\ f_cfam D f = f_cfam D f0 /\ f_cfam D f0 <> None
    /\ apart (fun d => d <= 12 / 10) (f_h D f) (f_h D f1) /\ apart (fun d => d <= 12 / 10) (f_v D f) (f_v D f1)
    /\ apart (fun d => d < 12 / 10) (f_h D f0) (f_h D f1) /\ apart (fun d => d < 12 / 10) (f_v D f0) (f_v D f1).

(** The optical density [d] of a star: its flux is the expected one dimmed by ten to the [-d]. *)
Definition dimmed (phot : option R) (irr cal : R) (od : option R) : Prop :=
  match phot, od with
  | None, None => True
  | Some p, Some d => p * cal = irr * Rpower 10 (- d)
  | _, _ => False
  end.
Definition measured (method : string) (cal : R) (f : frame) (o : option row) : Prop :=
  exists t cfam irr, f_target D f = Some t /\ f_cfam D f = Some cfam /\ irradiance t cfam = Ok irr /\
    ((centroid (f_data D f) = Ok None /\ o = None)
     \/ exists phot x y p od, by_method method aper_phot gauss_phot phot /\ centroid (f_data D f) = Ok (Some (x, y)) /\ phot f = Ok p /\ dimmed p (pos irr) cal od /\ o = Some (od, x, y)).

(** The standard deviation *)
Definition scatter (ds : list R) (s : R) : Prop :=
  ds <> [] /\ exists m, INR (List.length ds) * m = sum ds /\ 0 <= s /\ INR (List.length ds) * s ^ 2 = sum (map (fun x => (x - m) ^ 2) ds).
(** The densities of target [t] have none missing and vary by the threshold or more. *)
Definition varying (thr : R) (out : list frame) (os : list (option row)) (t : string) : Prop :=
  exists kept ds s, sieve (fun x => f_target D (fst x) = Some t /\ snd x <> None) (combine out os) kept
    /\ Forall2 (fun x d => exists a b, snd x = Some (Some d, a, b)) kept ds /\ scatter ds s /\ thr <= s.

Definition calibrates (method : string) (thr : R) (factor : option R) (fs : list frame) (p : product) : Prop :=
  exists key out dim cal os f0 fl t,
    naming fs key /\ arranged key fs out /\ sieve (fun f => ~ filtered key f) fs dim /\ dim <> []
    /\ calibrated method factor dim cal
    /\ nth_error out 0 = Some f0 /\ nth_error out (List.length out - 1) = Some fl /\ f_target D fl = Some t
    /\ agreeing out f0
    /\ Forall2 (measured method cal) out os
    /\ sieve (fun o => o <> None) os (map Some (p_rows p))
    /\ p_name p = f_fpam D f0 /\ p_h p = f_h D f0 /\ p_v p = f_v D f0
    /\ (p_flag p = true <-> varying thr out os t).

(** The last input frame takes over the product's labels; nothing else changes. *)
Definition relabelled (p : product) (fs fs' : list frame) : Prop :=
  exists pre f g, fs = pre ++ [f] /\ fs' = pre ++ [g] /\ f_fpam D g = p_name p /\ f_h D g = p_h p /\ f_v D g = p_v p /\ f_flag D g = Some (p_flag p) /\ f_level D g = "CAL"%string
    /\ f_fsam D g = f_fsam D f /\ f_target D g = f_target D f /\ f_cfam D g = f_cfam D f /\ f_data D g = f_data D f.
End NdSpec.
