(** Calls of step functions from recipes: Python's binding of arguments to
    parameters for  step_func(curr_dataset, *calibs, **keywords)  (corgidrp/walker.py
    411-440), and what each registered function takes and returns.

    Simplification: of a dataset only its kind and the data level of its frames are
    kept here. *)
From Coq Require Import List Arith Bool String.
From Verif Require Import Base WalkModel RecipeData.
Import ListNotations.
Local Open Scope string_scope.
Local Open Scope list_scope.

(** What a parameter is bound to. *)
Inductive binding (C : Type) : Type := BPos (c : option C) | BKw (v : kv) | BDefault.
Arguments BPos {C} _. Arguments BKw {C} _. Arguments BDefault {C}.

(** Positional arguments fill the parameters in order; the rest must be given by
    name or have a default; a name that is not among the rest is an error
    (unexpected, or multiple values). *)
Fixpoint bind_pos {C} (ps : list param) (args : list (option C)) : result (list (param * binding C) * list param) :=
  match args, ps with
  | [], _ => Ok ([], ps)
  | _ :: _, [] => Raise TypeError
  | a :: args', p :: ps' => do r <- bind_pos ps' args'; Ok ((p, BPos a) :: fst r, snd r)
  end.
Fixpoint bind_rest {C} (ps : list param) (kw : list (string * kv)) : result (list (param * binding C)) :=
  match ps with
  | [] => Ok []
  | p :: ps' =>
    match assoc (p_name p) kw with
    | Some v => do r <- bind_rest ps' kw; Ok ((p, BKw v) :: r)
    | None => if p_req p then Raise TypeError else do r <- bind_rest ps' kw; Ok ((p, BDefault) :: r)
    end
  end.
Definition bind_call {C} (ps : list param) (args : list (option C)) (kw : list (string * kv)) : result (list (param * binding C)) :=
  do r <- bind_pos ps args;
  if forallb (fun k => existsb (String.eqb (fst k)) (map p_name (snd r))) kw
  then do r2 <- bind_rest (snd r) kw; Ok (fst r ++ r2)
  else Raise TypeError.

(** Nothing (a recipe without inputs), a Dataset of frames of one level, a
    calibration. *)
Inductive ty : Type := TNone | TData (lvl : string) | TCal.

(** The four level updates: l1_to_l2a.py 345-356, l2a_to_l2b.py 439-450,
    l2b_to_l3.py 124-135, l3_to_l4.py 765-776. *)
Definition updates : list (string * (string * string)) :=
  [("update_to_l2a", ("L1", "L2a")); ("update_to_l2b", ("L2a", "L2b")); ("update_to_l3", ("L2b", "L3")); ("update_to_l4", ("L3", "L4"))].
(** Functions that make a calibration out of a dataset: calibrate_nonlin.py 122,
    astrom.py 1004, pump_trap_calibration.py 2122, calibrate_kgain.py 275, darks.py 266
    and 127, flat.py 180, corethroughput.py 326. *)
Definition makers : list string :=
  ["calibrate_nonlin"; "boresight_calibration"; "calibrate_trap_pump"; "calibrate_kgain"; "calibrate_darks"; "create_onsky_flatfield"; "build_trad_dark"; "generate_ct_cal"].
(** sorting.py 93-98 *)
Definition cal_type_ok (s : string) : bool :=
  String.eqb (lower s) "k-gain" || String.eqb (lower s) "kgain" || String.eqb (take 7 (lower s)) "non-lin" || String.eqb (take 6 (lower s)) "nonlin".

(** The input a function accepts, and its result: None when it raises for
    every input of that kind.  DATALVL is written only by the four updates and by
    the constructors of calibrations (data.py, 'CAL'). *)
Definition effect (name : string) (kw : list (string * kv)) (t : ty) : option ty :=
  match assoc name updates with
  | Some (a, b) => match t with TData l => if String.eqb l a then Some (TData b) else None | _ => None end
  | None =>
    (* bad_pixel_calibration.py 5-56: the dataset is ignored *)
    if String.eqb name "create_bad_pixel_map" then Some TCal
    (* fluxcal.py 412-517: an image or a dataset *)
    else if String.eqb name "calibrate_fluxcal_aper" then match t with TNone => None | _ => Some TCal end
    else match t with
    | TData l =>
      if existsb (String.eqb name) makers then Some TCal
      (* photon_counting.py 162-169, 309-335 *)
      else if String.eqb name "get_pc_mean" then
        match assoc "inputmode" kw with
        | None => Some (TData l)
        | Some (KStr m) => if String.eqb m "darks" then Some TCal else if String.eqb m "illuminated" then Some (TData l) else None
        | Some (KOther _) => None
        end
      else if String.eqb name "sort_pupilimg_frames" then
        match assoc "cal_type" kw with Some (KStr m) => if cal_type_ok m then Some (TData l) else None | _ => None end
      else Some (TData l)
    | _ => None
    end
  end.
