(** Where the optical density is asked for. *)
From Coq Require Import List Arith Bool Reals String.
From Verif Require Import Base DqModel CombineModel FlatModel CtModel CtSpec OdModel.
Import ListNotations.
Local Open Scope R_scope.

(** The matrix of a file: of its first part, or of its second where the first has no data. *)
Definition matrix_in (hdus : list (option (list (list R)))) (m : list (list R)) : Prop := exists rest, hdus = Some m :: rest \/ hdus = None :: Some m :: rest.
(** A matrix of two columns whose first rows are these. *)
Definition turns (m : list (list R)) (a b c d : R) : Prop := exists rest, m = [a; b] :: [c; d] :: rest /\ forall r, In r rest -> List.length r = 2%nat.
Definition zero_if_absent (o : option R) (x : R) : Prop := o = Some x \/ (o = None /\ x = 0).
Definition shifted (a : val) (s : R) : val := match a with Some x => Some (x + s) | None => None end.
Definition row_is (r : list val) (od x y : val) : Prop := r = [od; x; y].
(** The table as places and densities. *)
Definition table_is (rows : list (list val)) (pts : list (val * val)) (ods : list val) : Prop :=
  List.length pts = List.length rows /\ List.length ods = List.length rows /\ forall k r, nth_error rows k = Some r -> exists od x y, row_is r od x y /\ nth_error pts k = Some (x, y) /\ nth_error ods k = Some od.
(** How far the filter has moved between the table and the frame. *)
Definition moved (c : clean) (w : sweet) (h v : R) : Prop :=
  exists ch cv wh wv, zero_if_absent (c_h c) ch /\ zero_if_absent (c_v c) cv /\ zero_if_absent (w_h w) wh /\ zero_if_absent (w_v w) wv /\ h = ch - wh /\ v = cv - wv.
(** An interpolation that is right, at a place, of a filter of optical density [D], from what the table tells of it. *)
Definition right_at (linear : list (val * val) -> list val -> val -> val -> result val) (rows : list (list val)) (D : R -> R -> R) : Prop :=
  forall x y pts ods, table_is rows pts ods -> linear pts ods (Some x) (Some y) = Ok (Some (D x y)).
(** What a file tells: a matrix, or no data in either of its first parts. *)
Definition told (hdus : list (option (list (list R)))) (m : option (list (list R))) : Prop := (exists k, matrix_in hdus k /\ m = Some k) \/ (exists rest, hdus = None :: None :: rest) /\ m = None.
(** The interpolation of a name. *)
Definition named_method (linear nearest cubic : list (val * val) -> list val -> val -> val -> result val) (name : string) (f : list (val * val) -> list val -> val -> val -> result val) : Prop :=
  (name = "linear"%string /\ f = linear) \/ (name = "nearest"%string /\ f = nearest) \/ (name = "cubic"%string /\ f = cubic).
