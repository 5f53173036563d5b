(** Specification of a whole call of the pipeline. *)
From Coq Require Import List Bool String.
From Verif Require Import Base WalkModel WalkSpec DriveModel.
Import ListNotations.
Local Open Scope string_scope.
Local Open Scope list_scope.

(** No template, or its name *)
Definition not_object (a : targ) : Prop := match a with TObject _ => False | _ => True end.

Section Spec.
Context {Dt Cal : Type}.
Notation frame := (frame Dt).
Notation cur := (cur Dt).
Notation event := (event Dt Cal).
Notation world := (world Dt Cal).
Variable known : string -> bool.
Variable lookup : list frame -> refr Dt -> string -> result string.
Variable cal_load : list event -> string -> string -> result Cal.
Variable img_load : list event -> string -> result frame.
Variable sem : string -> option (cur -> list (option Cal) -> list (string * kv) -> result cur).
Variable json : string -> option recipe.
Variable recipe_dir : string.
Variable db0 : list frame.

(** ** Which template files *)
Definition slash (s : string) : Prop := exists a b, s = (a ++ "/" ++ b)%string.
Definition names_path (s p : string) : Prop := slash s /\ p = s \/ ~ slash s /\ p = (recipe_dir ++ "/" ++ s)%string.
Definition chosen (a : targ) (frames : list frame) (ts : list recipe) : Prop :=
  match a with
  | TNone => exists f fs names, frames = f :: fs /\ picks (map f_hdr frames) (f_hdr f) names
             /\ Forall2 (fun n t => json (recipe_dir ++ "/" ++ n)%string = Some t) names ts
  | TText s => exists p t, names_path s p /\ json p = Some t /\ ts = [t]
  | TObject _ => False
  end.
(** The recipe made of a template with the given inputs *)
Definition first_of (frames : list frame) : refr Dt := match frames with [] => RNone | f :: _ => RFrame f end.
Definition made_of (g : gcfg) (db frames : list frame) (files : list string) (outdir : string) (t r : recipe) : Prop :=
  exists sts, Forall2 (prepared known (fill_now (r_cfg t) g) (g "skip_missing_cal_steps") (lookup db (first_of frames)) outdir) (r_steps t) sts
  /\ r = mkrec (r_name t) false (r_cfg t) (r_in t ++ files) outdir sts.
(** The recipes for the files, all made before anything is run *)
Definition generated (g : gcfg) (ev : list event) (files : list string) (outdir : string) (a : targ) (rs : list recipe) : Prop :=
  exists frames ts, Forall2 (fun p f => img_load ev p = Ok f) files frames /\ chosen a frames ts
  /\ Forall2 (made_of g (db0 ++ registered ev) frames files outdir) ts rs.

(** ** Recipes run one after the other *)
Inductive visits : gcfg -> list event -> list recipe -> gcfg -> list event -> list recipe -> Prop :=
| v_nil : forall g ev, visits g ev [] g ev []
| v_cons : forall g ev r rs c l w g' ev' rs',
    loaded (img_load ev) r c ->
    exec known lookup (cal_load ev) sem (configure (r_cfg r) g) (db0 ++ registered ev) (with_steps r) (r_steps r) (mkw c [ERecipe r]) l w ->
    visits (configure (r_cfg r) g) (ev ++ w_ev w) rs g' ev' rs' ->
    visits g ev (r :: rs) g' ev' (with_steps r l :: rs').
(** One that fails: an input that cannot be loaded, or a step *)
Definition breaks (g : gcfg) (ev : list event) (r : recipe) (g' : gcfg) (ev' : list event) (r' : recipe) (e : exn) : Prop :=
  g' = configure (r_cfg r) g /\
  ((r' = r /\ ev' = ev /\ exists pre p post, r_in r = pre ++ p :: post /\ (forall q, In q pre -> exists f, img_load ev q = Ok f) /\ img_load ev p = Raise e)
   \/ exists c pre s post pre' s' w1 w, loaded (img_load ev) r c /\ r_steps r = pre ++ s :: post /\ r' = with_steps r (pre' ++ s' :: post) /\ ev' = ev ++ w_ev w
      /\ exec known lookup (cal_load ev) sem g' (db0 ++ registered ev) (fun a => with_steps r (a ++ s :: post)) pre (mkw c [ERecipe r]) pre' w1
      /\ fail_step known lookup (cal_load ev) sem g' (db0 ++ registered ev) (fun x => with_steps r (pre' ++ x :: post)) s w1 s' w e).

(** ** Objects.  The recipes in a row, from place n on *)
Definition body (r : recipe) : list string * list step := (r_in r, r_steps r).
Fixpoint objects (n : nat) (rs : list recipe) : list robj :=
  match rs with [] => [] | r :: t => mkro (r_name r) (r_tmpl r) (r_cfg r) (r_out r) n :: objects (S n) t end.
(** The recipes started *)
Definition recipes_of (ev : list event) : list recipe := flat_map (fun e => match e with ERecipe r => [r] | _ => [] end) ev.
(** A trace is tidy: files are written into the directory only, and what is registered was written before *)
Definition tidy_trace (outdir : string) (ev : list event) : Prop :=
  (forall f, In (EWrite f) ev -> f_dir f = outdir) /\ (forall r, In (ERecipe r) ev -> r_out r = outdir)
  /\ forall pre f post, ev = pre ++ ERegister f :: post -> In (EWrite f) pre.
End Spec.
