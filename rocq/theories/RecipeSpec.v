(** Specification: a step of a recipe is called the way it expects. *)
From Coq Require Import List Arith Bool String.
From Verif Require Import Base WalkModel WalkSpec RecipeData RecipeModel.
Import ListNotations.
Local Open Scope string_scope.
Local Open Scope list_scope.

(** Python's rule for a call with [n] positional arguments and keywords [ks] *)
Definition binds (ps : list param) (n : nat) (ks : list string) : Prop :=
  n <= List.length ps
  /\ (forall k, In k ks -> In k (map p_name (skipn n ps)))
  /\ (forall p, In p (skipn n ps) -> p_req p = true -> In (p_name p) ks).

(** what a parameter not given by position is bound to *)
Definition rest_of {C} (kw : list (string * kv)) (p : param) : param * binding C :=
  (p, match assoc (p_name p) kw with Some v => BKw v | None => BDefault end).

(** The level a shipped template is for *)
Inductive declared : string -> ty -> Prop :=
| d_l1 : forall n, prefix "l1_" n = true \/ In n ["build_trad_dark_full_frame.json"; "build_trad_dark_image.json"; "test.json"; "trap_pump_cal.json"] -> declared n (TData "L1")
| d_l2a : forall n, prefix "l2a_" n = true -> declared n (TData "L2a")
| d_l2b : forall n, prefix "l2b_" n = true -> declared n (TData "L2b")
| d_l3 : forall n, prefix "l3_" n = true -> declared n (TData "L3")
| d_none : declared "bp_map.json" TNone.

(** What the shipped recipes end with *)
Definition reaches : list (string * ty) :=
  [("bp_map.json", TCal); ("build_trad_dark_full_frame.json", TCal); ("build_trad_dark_image.json", TCal); ("l1_flat_and_bp.json", TCal); ("l1_to_boresight.json", TCal);
   ("l1_to_kgain.json", TCal); ("l1_to_l2a_basic.json", TData "L2a"); ("l1_to_l2a_eng.json", TData "L2a"); ("l1_to_l2a_noisemap.json", TCal); ("l1_to_l2a_nonlin.json", TCal);
   ("l1_to_l2a_tdd_vap.json", TData "L2a"); ("l1_to_l2a_tdd_vap_full.json", TData "L2a"); ("l1_to_l2b.json", TData "L2b"); ("l1_to_l2b_pc.json", TData "L2b"); ("l1_to_l2b_pc_dark.json", TCal);
   ("l2a_build_trad_dark_image.json", TCal); ("l2a_to_l2a_noisemap.json", TCal); ("l2a_to_l2b.json", TData "L2b"); ("l2a_to_l2b_pc.json", TData "L2b"); ("l2a_to_l2b_pc_dark.json", TCal);
   ("l2a_to_l2b_tdd_vap.json", TData "L2b"); ("l2b_to_corethroughput.json", TCal); ("l2b_to_fluxcal_factor.json", TCal); ("l2b_to_l3.json", TData "L3"); ("l3_to_l4.json", TData "L4");
   ("l3_to_l4_nopsfsub.json", TData "L4"); ("test.json", TCal); ("trap_pump_cal.json", TCal)].

Section RecipeSpec.
Context {Dt Cal : Type}.
Notation frame := (frame Dt).
Notation cur := (cur Dt).
Notation event := (event Dt Cal).
Notation wst := (wst Dt Cal).
Variable lookup : list frame -> refr Dt -> string -> result string.
Variable cal_load : string -> string -> result Cal.
Variable img_load : string -> result frame.
Variable sem : string -> option (cur -> list (option Cal) -> list (string * kv) -> result cur).
(** the class of a loaded calibration *)
Variable cls : Cal -> string.

Definition known (k : string) : bool := existsb (String.eqb k) datatypes.

Definition has_ty (c : cur) (t : ty) : Prop :=
  match t with
  | TNone => c = CNone
  | TData l => exists fs, c = CData fs /\ fs <> [] /\ forall f, In f fs -> g_lvl (f_hdr f) = Some l
  | TCal => exists f, c = CImg f
  end.

(** A calibration parameter gets a calibration of one of its classes, or nothing
    when the function does without. *)
Definition no_cal_ok (kw : list (string * kv)) (p : param) : Prop := p_null p = true /\ forall u, In u (p_unless p) -> In u (map fst kw).
Definition ok_binding (kw : list (string * kv)) (pb : param * binding Cal) : Prop :=
  match snd pb with
  | BPos (Some c) => In (cls c) (p_cls (fst pb))
  | BPos None => no_cal_ok kw (fst pb)
  | BKw _ => p_cls (fst pb) = []
  | BDefault => no_cal_ok kw (fst pb)
  end.
(** The call binds, its calibrations are of the classes expected, and the data is
    of a kind and level the function works on. *)
Definition good_call (name : string) (c : cur) (args : list (option Cal)) (kw : list (string * kv)) : Prop :=
  exists ps b t t', In (name, ps) sigs /\ bind_call ps args kw = Ok b /\ Forall (ok_binding kw) b /\ has_ty c t /\ effect name kw t = Some t'.

(** Nothing about the recipe itself can go wrong at this step. *)
Definition safe (g : gcfg) (db0 : list frame) (mk : step -> recipe) (s : step) (w : wst) : Prop :=
  (is_save s -> (exists x, suffix_of s x) /\ w_cur w <> CNone)
  /\ (~ is_save s -> sem (s_name s) <> None /\ ~ skipped s
      /\ match s_calibs s with
         | None => good_call (s_name s) (w_cur w) [] (kwargs s)
         | Some l => (forall k v, In (k, v) l -> known k = true)
                     /\ (fill_now (r_cfg (mk s)) g = false -> (exists f, hd_error (frames_of (w_cur w)) = Some f) /\ forall k, ~ In (k, None) l)
                     /\ forall s1 c1 l1 args, resolved known lookup (negb (fill_now (r_cfg (mk s)) g)) g (db0 ++ registered (w_ev w)) mk s s1 (w_cur w) c1 ->
                          s_calibs s1 = Some l1 -> Forall2 (cal_arg known cal_load) l1 args -> good_call (s_name s) c1 args (kwargs s)
         end).

(** The remaining reasons for a run to fail at a step. *)
Inductive excused (db : list frame) (c : cur) (s : step) (e : exn) : Prop :=
| ex_name : is_save s -> e = ValueError -> excused db c s e
| ex_call : forall fn c1 args, sem (s_name s) = Some fn -> good_call (s_name s) c1 args (kwargs s) -> fn c1 args (kwargs s) = Raise e -> excused db c s e
| ex_missing : forall k f, hd_error (frames_of c) = Some f -> known k = true -> lookup db (RFrame f) k = Raise e -> excused db c s e
| ex_load : forall k p, known k = true -> cal_load k p = Raise e -> excused db c s e.

(** The step functions behave as tabulated: the registered names, and the kind of
    what they return. *)
Definition regular : Prop :=
  (forall n, sem n <> None <-> In n (map fst sigs))
  /\ (forall n fn c args kw c' t t', sem n = Some fn -> has_ty c t -> effect n kw t = Some t' -> fn c args kw = Ok c' -> has_ty c' t')
  /\ (forall k p x, cal_load k p = Ok x -> cls x = k).

(** A recipe made from template [r] (the steps may have been filled in with any
    database) that runs under the settings [g]. *)
Definition from_template (g : gcfg) (r r' : recipe) : Prop :=
  r_cfg r' = r_cfg r /\ g "skip_missing_cal_steps" = false
  /\ exists find outdir, Forall2 (prepared known (fill_now (r_cfg r) g) false find outdir) (r_steps r) (r_steps r').
End RecipeSpec.
