(** C73: the optical density of a neutral density filter at a new place. *)
From Coq Require Import List Arith Bool Reals String.
From Verif Require Import Base DqModel CombineModel FlatModel CtModel CtSpec OdModel OdSpec OdProofs.
Import ListNotations.
Local Open Scope R_scope.

(** A table is rows of three. *)
Theorem C73_table : forall rows h v w, make_sweet rows h v = Ok w <-> (forall r, In r rows -> List.length r = 3%nat) /\ w = mksweet rows h v.
Proof. exact (@sweet_ok). Qed.
Print Assumptions C73_table.
(** What is returned: the density of the table, interpolated linearly at the star shifted by the matrix applied to the way of the filter. *)
Theorem C73_density : forall linear nearest cubic : list (val * val) -> list val -> val -> val -> result val,
  forall c hdus w od pts ods, (forall r, In r (w_rows w) -> List.length r = 3%nat) -> table_is (w_rows w) pts ods ->
    (calculate_od linear nearest cubic (Some c) hdus w = Ok od <->
     exists x y h v m a b p q, position (c_data c) 5 x y /\ matrix_in hdus m /\ turns m a b p q /\ moved c w h v /\ linear pts ods (shifted x (a * h + b * v)) (shifted y (p * h + q * v)) = Ok od).
Proof. exact (@od_ok). Qed.
Print Assumptions C73_density.
(** Every refusal, in its order. *)
Theorem C73_refused : forall linear nearest cubic : list (val * val) -> list val -> val -> val -> result val,
  forall frame hdus w pts ods e, (forall r, In r (w_rows w) -> List.length r = 3%nat) -> table_is (w_rows w) pts ods ->
    (calculate_od linear nearest cubic frame hdus w = Raise e <->
    (hdus = [] \/ hdus = [None]) /\ e = IndexError \/
    (exists m, told hdus m /\
      ((frame = None /\ e = UnboundLocalError) \/
       (exists c, frame = Some c /\
         (((forall p, inside_of (c_data c) p -> value_of (c_data c) p = None) /\ e = ValueError) \/
          (exists x y, position (c_data c) 5 x y /\
            ((m = None /\ e = ValueError) \/
             (exists m', m = Some m' /\
               (((exists row, In row m' /\ List.length row <> 2%nat) /\ e = ValueError) \/
                ((forall row, In row m' -> List.length row = 2%nat) /\ (List.length m' < 2)%nat /\ e = IndexError) \/
                (exists a b p q h v, turns m' a b p q /\ moved c w h v /\ linear pts ods (shifted x (a * h + b * v)) (shifted y (p * h + q * v)) = Raise e)))))))))).
Proof. exact (@od_fails). Qed.
Print Assumptions C73_refused.
(** A filter that has not moved: the density at the star. *)
Theorem C73_still : forall linear nearest cubic : list (val * val) -> list val -> val -> val -> result val,
  forall c hdus w m a b p q x y pts ods, (forall r, In r (w_rows w) -> List.length r = 3%nat) -> table_is (w_rows w) pts ods -> matrix_in hdus m -> turns m a b p q -> c_h c = w_h w -> c_v c = w_v w -> position (c_data c) 5 (Some x) (Some y) ->
    calculate_od linear nearest cubic (Some c) hdus w = linear pts ods (Some x) (Some y).
Proof. exact (@od_still). Qed.
Print Assumptions C73_still.
(** A filter of known density: the density in front of the star where the densities move over the detector against the matrix. *)
Theorem C73_moves : forall linear nearest cubic : list (val * val) -> list val -> val -> val -> result val,
  forall c hdus w m a b p q h v x y D, (forall r, In r (w_rows w) -> List.length r = 3%nat) -> right_at linear (w_rows w) D -> matrix_in hdus m -> turns m a b p q -> moved c w h v -> position (c_data c) 5 (Some x) (Some y) ->
    calculate_od linear nearest cubic (Some c) hdus w = Ok (Some (D (x + (a * h + b * v)) (y + (p * h + q * v)))).
Proof. exact (@od_moves). Qed.
Print Assumptions C73_moves.
(** The density a table gives at a place, in each of the ways. *)
Theorem C73_interpolated : forall linear nearest cubic : list (val * val) -> list val -> val -> val -> result val,
  forall rows x y name pts ods od, (forall r, In r rows -> List.length r = 3%nat) -> table_is rows pts ods ->
    (interpolate_od linear nearest cubic rows x y name = Ok od <-> exists f, named_method linear nearest cubic name f /\ f pts ods x y = Ok od).
Proof. exact (@interpolated_ok). Qed.
Print Assumptions C73_interpolated.
(** The method of the table itself interpolates linearly, whatever is asked for. *)
Theorem C73_own : forall linear : list (val * val) -> list val -> val -> val -> result val,
  forall w x y name pts ods, (forall r, In r (w_rows w) -> List.length r = 3%nat) -> table_is (w_rows w) pts ods -> sweet_od linear w x y name = linear pts ods x y.
Proof. exact (@own_linear). Qed.
Print Assumptions C73_own.
(** Asked for the nearest density, the table gives NaN outside the measured places; the function of the module gives the nearest. *)
Theorem C73_own_refuted : exists (linear nearest cubic : list (val * val) -> list val -> val -> val -> result val) w x y,
  interpolate_od linear nearest cubic (w_rows w) x y "nearest" = Ok (Some 2) /\ sweet_od linear w x y "nearest" = Ok None.
Proof. exact (@own_nearest). Qed.
Print Assumptions C73_own_refuted.
(** A filter whose densities move over the detector with the matrix: the density returned is not that in front of the star. *)
Theorem C73_carried_refuted : exists c hdus w m a b p q h v x y D, (exists linear, right_at linear (w_rows w) D) /\ matrix_in hdus m /\ turns m a b p q /\ moved c w h v /\ position (c_data c) 5 (Some x) (Some y) /\
  forall linear nearest cubic, right_at linear (w_rows w) D -> calculate_od linear nearest cubic (Some c) hdus w <> Ok (Some (D (x - (a * h + b * v)) (y - (p * h + q * v)))).
Proof. exact (@carried). Qed.
Print Assumptions C73_carried_refuted.

(** A star of one pixel behind a filter that moved, with an interpolation that is right. *)
Example C73_used : right_at (fun _ _ x _ => Ok x) (w_rows ramp) (fun x _ => x) /\ calculate_od (fun _ _ x _ => Ok x) (fun _ _ x _ => Ok x) (fun _ _ x _ => Ok x) (Some lone) unit_matrix ramp = Ok (Some 1).
Proof. assert (RA : right_at (fun _ _ x _ => Ok x) (w_rows ramp) (fun x _ => x)) by (intros x y pts ods _; reflexivity). split; [exact RA|apply lone_od; exact RA]. Qed.
(** Its table. *)
Example C73_table_example : table_is (w_rows ramp) [(Some (-2), Some (-1)); (Some 2, Some (-1)); (Some 0, Some 2)] [Some (-2); Some 2; Some 0].
Proof. exact (table_of (w_rows ramp) ramp_rows). Qed.
