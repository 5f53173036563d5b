(** The whole call: corgidrp/walker.py 65-104 walk_corgidrp, corgidrp/ops.py 34-48 step_3_process_data.

    Built on WalkModel (autogen_recipe, run_recipe).  What loading a file gives depends on the files written before; within the
    run of one recipe it does not change.  Template files are not overwritten.  The CPGS file is not read (64: the argument is
    unused). *)
From Coq Require Import List Bool String.
From Verif Require Import Base WalkModel.
Import ListNotations.
Local Open Scope string_scope.
Local Open Scope list_scope.

(** The template argument: None, a text, or a loaded object *)
Inductive targ : Type := TNone | TText (s : string) | TObject (o : robj).

Section Drive.
Context {Dt Cal : Type}.
Notation frame := (frame Dt).
Notation cur := (cur Dt).
Notation event := (event Dt Cal).
Variable known : string -> bool.
Variable lookup : list frame -> refr Dt -> string -> result string.
Variable cal_load : list event -> string -> string -> result Cal.
Variable img_load : list event -> string -> result frame.
Variable sem : string -> option (cur -> list (option Cal) -> list (string * kv) -> result cur).
(** json.load(open(path)); the directory of the templates, 62 *)
Variable json : string -> option recipe.
Variable recipe_dir : string.
(** The database when the process started *)
Variable db0 : list frame.

(** The process: settings, what was done so far, recipe objects *)
Record world : Type := mkworld { u_cfg : gcfg; u_ev : list event; u_st : store }.

(** 82-87 *)
Definition template_path (s : string) : string := if contains "/" s then s else (recipe_dir ++ "/" ++ s)%string.
Definition shipped (n : string) : option recipe := json (recipe_dir ++ "/" ++ n)%string.
(** 80-89 *)
Definition load_template (a : targ) (st : store) : store * result (option robj) :=
  match a with
  | TNone => (st, Ok None)
  | TObject o => (st, Ok (Some o))
  | TText s => match json (template_path s) with
               | None => (st, Raise PyException)
               | Some r => let '(st', o) := alloc st r in (st', Ok (Some o))
               end
  end.

(** 94-102; the recipe object is changed by its run *)
Fixpoint run_all (u : world) (os : list robj) : world * option exn :=
  match os with
  | [] => (u, None)
  | o :: t =>
    match value_of (u_st u) o with
    | None => (u, Some KeyError)
    | Some r =>
      let '(g', r', w, e) := run_recipe known lookup (cal_load (u_ev u)) (img_load (u_ev u)) sem (u_cfg u) (db0 ++ registered (u_ev u)) true r in
      let u' := mkworld g' (u_ev u ++ w_ev w) (set_nth (o_ref o) (r_in r', r_steps r') (u_st u)) in
      match e with Some x => (u', Some x) | None => run_all u' t end
    end
  end.

(** 65-104 *)
Definition walk_corgidrp (u : world) (files : list string) (outdir : string) (a : targ) : world * result (list robj) :=
  match load_template a (u_st u) with
  | (st1, Raise e) => (mkworld (u_cfg u) (u_ev u) st1, Raise e)
  | (st1, Ok tmpl) =>
    match autogen_recipe known lookup (img_load (u_ev u)) shipped (u_cfg u) (db0 ++ registered (u_ev u)) files outdir tmpl st1 with
    | (st2, Raise e) => (mkworld (u_cfg u) (u_ev u) st2, Raise e)
    | (st2, Ok os) =>
      match run_all (mkworld (u_cfg u) (u_ev u) st2) os with
      | (u', Some e) => (u', Raise e)
      | (u', None) => (u', Ok os)
      end
    end
  end.
(** ops.py 34-48 *)
Definition step_3_process_data (u : world) (files : list string) (outdir : string) (a : targ) : world * result unit :=
  match walk_corgidrp u files outdir a with (u', Ok _) => (u', Ok tt) | (u', Raise e) => (u', Raise e) end.
End Drive.
Arguments world : clear implicits.
