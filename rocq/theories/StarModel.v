(** Tuning parameters of the search for the star: corgidrp/star_center.py
    validate_satellite_spot_parameters 95-138, update_parameters 141-179, corgidrp/l3_to_l4.py
    find_star 95-268.

    A dictionary is a list of keys and values without two equal keys.  The values [V], the images
    [D], the guesses [G] and the location [L] are of any type; the median images and
    star_center.star_center_from_satellite_spots (which does not write to its parameters) are one
    function [locate] of the science images, the spot images, the guesses and the parameters. *)
From Coq Require Import List Arith Bool ZArith String.
From Verif Require Import Base DqModel.
Import ListNotations.

Section Dict.
  Context {A : Type}.
  Fixpoint find (k : string) (d : list (string * A)) : option A := match d with [] => None | (k', v) :: t => if String.eqb k k' then Some v else find k t end.
  (** d[k] = v *)
  Fixpoint put (d : list (string * A)) (k : string) (v : A) : list (string * A) :=
    match d with [] => [(k, v)] | (k', v') :: t => if String.eqb k k' then (k', v) :: t else (k', v') :: put t k v end.
End Dict.

(** validate_satellite_spot_parameters: the required structure is looked up among the annotations
    of the function, of which there are none, so the first section present raises a KeyError. *)
Inductive value : Type := VDict (d : list (string * value)) | VOther.
Definition annotations : list (string * list (string * unit)) := [].
Definition validate (params : value) : result bool :=
  match params with
  | VOther => Ok false
  | VDict d =>
    match find "offset" d with
    | Some (VDict _) => match find "offset" annotations with None => Raise KeyError | Some _ => Ok true end
    | _ => Ok false
    end
  end.

Section Star.
  Context {V D G L : Type}.
  Definition params := list (string * list (string * V)).
  (** 173-177; the parameters as they are left, also if it raises *)
  Fixpoint update_section (p : params) (k : string) (new : list (string * V)) : params * result unit :=
    match new with
    | [] => (p, Ok tt)
    | (sk, v) :: rest =>
      match find k p with
      | None => (p, Raise KeyError)
      | Some s => match find sk s with None => (p, Raise KeyError) | Some _ => update_section (put p k (put s sk v)) k rest end
      end
    end.
  Fixpoint update_parameters (p : params) (new : params) : params * result unit :=
    match new with
    | [] => (p, Ok tt)
    | (k, s) :: rest =>
      match find k p with
      | None => (p, Raise KeyError)
      | Some _ => match update_section p k s with (p', Ok _) => update_parameters p' rest | (p', Raise e) => (p', Raise e) end
      end
    end.

  (** the header values SATSPOTS and FSMPRFL, the location and the history, of a copy of the frame *)
  Record frame : Type := mkframe { f_sat : option Z; f_mode : option string; f_data : D; f_loc : option L; f_hist : list L }.
  Definition is_sat (z : Z) (f : frame) : bool := match f_sat f with Some s => Z.eqb s z | None => false end.
  (** 213-221 *)
  Definition mode_of (f : frame) : result string :=
    match f_sat f with
    | None => Raise KeyError
    | Some s => if (Z.eqb s 0 || Z.eqb s 1)%bool then match f_mode f with Some m => Ok m | None => Raise KeyError end else Raise AssertionError
    end.
  Definition mark (loc : L) (f : frame) : frame := mkframe (f_sat f) (f_mode f) (f_data f) (Some loc) (f_hist f ++ [loc]).
  Variable locate : G -> list D -> list D -> params -> result L.
  Definition defaults := list (string * params).
  (** The module's parameters as they are left, and the frames returned. *)
  Definition find_star (df : defaults) (fs : list frame) (g : G) (over : option params) (drop : bool) : defaults * result (list frame) :=
    match mapR mode_of fs with
    | Raise e => (df, Raise e)
    | Ok [] => (df, Raise IndexError)
    | Ok (m :: ms) =>
      if negb (forallb (fun m' => String.eqb m' m) (m :: ms)) then (df, Raise AssertionError)
      else
        let sci := filter (is_sat 0) fs in let spots := filter (is_sat 1) fs in
        match sci, spots with
        | [], _ => (df, Raise ValueError)
        | _, [] => (df, Raise ValueError)
        | _, _ =>
          match find m df with
          | None => (df, Raise KeyError)
          | Some p =>
            let '(p', r) := match over with None => (p, Ok tt) | Some new => update_parameters p new end in
            let df' := match over with None => df | Some _ => put df m p' end in
            match r with
            | Raise e => (df', Raise e)
            | Ok _ =>
              match locate g (map f_data sci) (map f_data spots) p' with
              | Raise e => (df', Raise e)
              | Ok loc => (df', Ok (map (mark loc) (if drop then sci else fs)))
              end
            end
          end
        end
    end.
  (** Calls one after the other. *)
  Record call : Type := mkcall { c_frames : list frame; c_guess : G; c_over : option params; c_drop : bool }.
  Definition run1 (df : defaults) (c : call) := find_star df (c_frames c) (c_guess c) (c_over c) (c_drop c).
  Fixpoint run (df : defaults) (cs : list call) : defaults * list (result (list frame)) :=
    match cs with [] => (df, []) | c :: t => let (df', r) := run1 df c in let (df'', rs) := run df' t in (df'', r :: rs) end.
End Star.
Arguments params V : clear implicits.
Arguments frame D L : clear implicits.
Arguments defaults V : clear implicits.
Arguments call V D G L : clear implicits.
