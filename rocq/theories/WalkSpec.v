(** Specification of the pipeline walker. *)
From Coq Require Import List Arith Bool QArith String Ascii.
From Verif Require Import Base WalkModel.
Import ListNotations.
Local Open Scope string_scope.
Local Open Scope list_scope.
Local Open Scope nat_scope.

(** * The table of guess_template *)
Definition triple (h : ghdr) (r : list string) : Prop :=
  exists a b c, g_exp h = Some a /\ g_emc h = Some b /\ g_kgp h = Some c /\ r = [a; b; c].
(** All frames have the three cards, with [n] different combinations. *)
Definition n_settings (hs : list ghdr) (n : nat) : Prop :=
  (forall h, In h hs -> exists r, triple h r)
  /\ exists l, NoDup l /\ List.length l = n /\ forall r, In r l <-> exists h, In h hs /\ triple h r.

Inductive dark_kind (hs : list ghdr) (h : ghdr) (pc many one : string) : list string -> Prop :=
| dk_pc : forall n, n_settings hs n -> g_ispc h = Some true -> dark_kind hs h pc many one [pc]
| dk_many : forall n, n_settings hs n -> 1 < n -> g_ispc h = Some false -> dark_kind hs h pc many one [many]
| dk_one : n_settings hs 1 -> g_ispc h = Some false -> dark_kind hs h pc many one [one].

Definition eng (v : string) : Prop := exists w, v = ("ENG" ++ w)%string.
Inductive picks (hs : list ghdr) (h : ghdr) : list string -> Prop :=
| p_l1_none : g_lvl h = Some "L1" -> g_vis h = None -> picks hs h ["l1_to_l2b.json"]
| p_l1_eng : forall v, g_lvl h = Some "L1" -> g_vis h = Some v -> eng v -> picks hs h ["l1_to_l2a_eng.json"]
| p_l1_bore : g_lvl h = Some "L1" -> g_vis h = Some "BORESITE" -> picks hs h ["l1_to_boresight.json"]
| p_l1_flat : g_lvl h = Some "L1" -> g_vis h = Some "FFIELD" -> picks hs h ["l1_flat_and_bp.json"]
| p_l1_dark : forall l, g_lvl h = Some "L1" -> g_vis h = Some "DARK" ->
    dark_kind hs h "l1_to_l2b_pc_dark.json" "l1_to_l2a_noisemap.json" "build_trad_dark_image.json" l -> picks hs h l
| p_l1_pupil : g_lvl h = Some "L1" -> g_vis h = Some "PUPILIMG" -> picks hs h ["l1_to_l2a_nonlin.json"; "l1_to_kgain.json"]
| p_l1_other : forall v, g_lvl h = Some "L1" -> g_vis h = Some v -> ~ eng v -> ~ In v ["BORESITE"; "FFIELD"; "DARK"; "PUPILIMG"] ->
    picks hs h ["l1_to_l2a_basic.json"]
| p_l2a_dark : forall l, g_lvl h = Some "L2a" -> g_vis h = Some "DARK" ->
    dark_kind hs h "l2a_to_l2b_pc_dark.json" "l2a_to_l2a_noisemap.json" "l2a_build_trad_dark_image.json" l -> picks hs h l
| p_l2a_pc : forall v, g_lvl h = Some "L2a" -> g_vis h = Some v -> v <> "DARK" -> g_ispc h = Some true -> picks hs h ["l2a_to_l2b_pc.json"]
| p_l2a_other : forall v, g_lvl h = Some "L2a" -> g_vis h = Some v -> v <> "DARK" -> g_ispc h = Some false -> picks hs h ["l2a_to_l2b.json"]
| p_l2b_flux : forall v, g_lvl h = Some "L2b" -> g_vis h = Some v -> In v ["ABSFLXFT"; "ABSFLXBT"] -> picks hs h ["l2b_to_fluxcal_factor.json"]
| p_l2b_ct : g_lvl h = Some "L2b" -> g_vis h = Some "CORETPUT" -> picks hs h ["l2b_to_corethroughput.json"]
| p_l2b_other : forall v, g_lvl h = Some "L2b" -> g_vis h = Some v -> ~ In v ["ABSFLXFT"; "ABSFLXBT"; "CORETPUT"] -> picks hs h ["l2b_to_l3.json"]
| p_l3_coron : forall f, g_lvl h = Some "L3" -> g_fsm h = Some f -> (f == 1)%Q -> picks hs h ["l3_to_l4.json"]
| p_l3_other : forall f, g_lvl h = Some "L3" -> g_fsm h = Some f -> ~ (f == 1)%Q -> picks hs h ["l3_to_l4_nopsfsub.json"].

(** * Strings *)
(** [w] occurs in [s], ignoring the case of [s] *)
Definition mentions (w s : string) : Prop := exists a m b, s = (a ++ m ++ b)%string /\ upper m = w.
Fixpoint all_underscores (s : string) : bool := match s with EmptyString => true | String c t => Ascii.eqb c "_" && all_underscores t end.
(** an extension of FITS files, in any case *)
Definition fits_ext (e : string) : Prop := lower e = ".fits".
(** [s] is [x] between underscores, [x] without them at either end *)
Definition stripped (s x : string) : Prop :=
  exists a b, s = (a ++ x ++ b)%string /\ all_underscores a = true /\ all_underscores b = true
  /\ (forall t, x <> String "_" t) /\ (forall t, x <> (t ++ "_")%string).

Section WalkSpec.
Context {Dt Cal : Type}.
Notation frame := (frame Dt).
Notation cur := (cur Dt).
Notation event := (event Dt Cal).
Notation wst := (wst Dt Cal).
Variable known : string -> bool.
Variable lookup : list frame -> refr Dt -> string -> result string.
Variable cal_load : string -> string -> result Cal.
Variable img_load : string -> result frame.
Variable sem : string -> option (cur -> list (option Cal) -> list (string * kv) -> result cur).

(** * Calibration entries *)
Inductive filled (skip_missing : bool) (find : string -> result string) : string * option string -> string * option string -> bool -> Prop :=
| f_keep : forall k s, ~ mentions "AUTOMATIC" s -> filled skip_missing find (k, Some s) (k, Some s) false
| f_found : forall k s p, mentions "AUTOMATIC" s -> known k = true -> find k = Ok p -> filled skip_missing find (k, Some s) (k, Some p) false
| f_optional : forall k s, mentions "AUTOMATIC" s -> known k = true -> find k = Raise ValueError -> mentions "OPTIONAL" s -> filled skip_missing find (k, Some s) (k, None) false
| f_skip : forall k s, mentions "AUTOMATIC" s -> known k = true -> find k = Raise ValueError -> ~ mentions "OPTIONAL" s -> skip_missing = true -> filled skip_missing find (k, Some s) (k, None) true.
(** and the reasons for an exception *)
Inductive unfilled (skip_missing : bool) (find : string -> result string) : string * option string -> exn -> Prop :=
| u_null : forall k, unfilled skip_missing find (k, None) AttributeError
| u_type : forall k s, mentions "AUTOMATIC" s -> known k = false -> unfilled skip_missing find (k, Some s) KeyError
| u_missing : forall k s, mentions "AUTOMATIC" s -> known k = true -> find k = Raise ValueError -> ~ mentions "OPTIONAL" s -> skip_missing = false -> unfilled skip_missing find (k, Some s) ValueError
| u_other : forall k s e, mentions "AUTOMATIC" s -> known k = true -> find k = Raise e -> e <> ValueError -> unfilled skip_missing find (k, Some s) e.

Inductive filled_all (sm : bool) (find : string -> result string) : list (string * option string) -> list (string * option string) -> bool -> Prop :=
| fa_nil : filled_all sm find [] [] false
| fa_cons : forall x x' b l l' b', filled sm find x x' b -> filled_all sm find l l' b' -> filled_all sm find (x :: l) (x' :: l') (b || b').

(** The step after its entries became [l'] *)
Definition with_calibs (s : step) (l' : list (string * option string)) (b : bool) : step :=
  mkstep (s_name s) (Some l') (s_kw s) (if b then Some true else s_skip s).
Definition fill_spec (sm : bool) (find : string -> result string) (s s' : step) : Prop :=
  match s_calibs s with
  | None => s' = s
  | Some l => exists l' b, filled_all sm find l l' b /\ s' = with_calibs s l' b
  end.

(** the value of a calibration becomes the argument of the step *)
Inductive cal_arg : string * option string -> option Cal -> Prop :=
| ca_none : forall k, known k = true -> cal_arg (k, None) None
| ca_some : forall k p c, known k = true -> cal_load k p = Ok c -> cal_arg (k, Some p) (Some c).

(** * Execution *)
Definition is_save (s : step) : Prop := lower (s_name s) = "save".
Definition skipped (s : step) : Prop := s_skip s = Some true.
Definition kwargs (s : step) : list (string * kv) := match s_kw s with Some k => k | None => [] end.
Definition suffix_of (s : step) (x : string) : Prop :=
  match s_kw s with
  | Some kw => assoc "suffix" kw = Some (KStr x) \/ (assoc "suffix" kw = None /\ x = EmptyString)
  | None => x = EmptyString
  end.
Definition frames_of (c : cur) : list frame := match c with CNone => [] | CData l => l | CImg f => [f] end.
Definition same_kind (c c' : cur) : Prop :=
  match c, c' with CData _, CData _ => True | CImg _, CImg _ => True | _, _ => False end.
(** [f'] is [f] under a new path *)
Definition moved (dir name : string) (f f' : frame) : Prop :=
  f_dir f' = dir /\ f_name f' = name /\ f_hdr f' = f_hdr f /\ f_cal f' = f_cal f /\ f_recipe f' = f_recipe f /\ f_data f' = f_data f.
Definition saved (dir suffix : string) (c c' : cur) (ev : list event) : Prop :=
  same_kind c c'
  /\ Forall2 (fun f f' => moved dir (if Nat.eqb (String.length suffix) 0 then f_name f else suffixed suffix (f_name f)) f f' /\ f_name f' <> EmptyString) (frames_of c) (frames_of c')
  /\ ev = map EWrite (frames_of c') ++ map ERegister (filter (fun f => match f_cal f with Some _ => true | None => false end) (frames_of c')).

(** calibrations just before a step: unchanged, or filled in for the first
    frame, all frames getting the new recipe *)
Definition resolved (jit : bool) (g : gcfg) (db : list frame) (mk : step -> recipe) (s s1 : step) (c c1 : cur) : Prop :=
  if jit then exists f, hd_error (frames_of c) = Some f /\ fill_spec (g "skip_missing_cal_steps") (lookup db (RFrame f)) s s1
              /\ same_kind c c1 /\ frames_of c1 = map (set_recipe (mk s1)) (frames_of c)
  else s1 = s /\ c1 = c.

Inductive exec_step (g : gcfg) (db0 : list frame) (mk : step -> recipe) : step -> wst -> step -> wst -> Prop :=
| x_save : forall s c ev x c' ev', is_save s -> suffix_of s x -> saved (r_out (mk s)) x c c' ev' ->
    exec_step g db0 mk s (mkw c ev) s (mkw c' (ev ++ ev'))
| x_skip : forall s w fn, ~ is_save s -> sem (s_name s) = Some fn -> skipped s -> exec_step g db0 mk s w s w
| x_plain : forall s c ev fn c', ~ is_save s -> sem (s_name s) = Some fn -> ~ skipped s -> s_calibs s = None -> fn c [] (kwargs s) = Ok c' ->
    exec_step g db0 mk s (mkw c ev) s (mkw c' (ev ++ [EStep (s_name s) [] (kwargs s)]))
| x_cal : forall s c ev fn l s1 c1 l1 args c', ~ is_save s -> sem (s_name s) = Some fn -> ~ skipped s -> s_calibs s = Some l ->
    resolved (negb (fill_now (r_cfg (mk s)) g)) g (db0 ++ registered ev) mk s s1 c c1 ->
    s_calibs s1 = Some l1 -> Forall2 cal_arg l1 args -> fn c1 args (kwargs s) = Ok c' ->
    exec_step g db0 mk s (mkw c ev) s1 (mkw c' (ev ++ [EStep (s_name s) args (kwargs s)])).
Inductive exec (g : gcfg) (db0 : list frame) : (list step -> recipe) -> list step -> wst -> list step -> wst -> Prop :=
| xs_nil : forall mk w, exec g db0 mk [] w [] w
| xs_cons : forall mk s t w s' w1 t' w2, exec_step g db0 (fun x => mk (x :: t)) s w s' w1 -> exec g db0 (fun l => mk (s' :: l)) t w1 t' w2 ->
    exec g db0 mk (s :: t) w (s' :: t') w2.

(** * Failure of a step: its own changes, and the exception *)
Definition fill_fail (sm : bool) (find : string -> result string) (s s' : step) (e : exn) : Prop :=
  exists pre pre' x post b, s_calibs s = Some (pre ++ x :: post) /\ s' = with_calibs s (pre' ++ x :: post) b
  /\ filled_all sm find pre pre' b /\ unfilled sm find x e.
Inductive bad_arg : string * option string -> exn -> Prop :=
| ba_type : forall k v, known k = false -> bad_arg (k, v) KeyError
| ba_load : forall k p e, known k = true -> cal_load k p = Raise e -> bad_arg (k, Some p) e.
Definition half_saved (dir suffix : string) (c c' : cur) (ev : list event) : Prop :=
  same_kind c c'
  /\ exists pre pre' f f' post, frames_of c = pre ++ f :: post /\ frames_of c' = pre' ++ f' :: post
  /\ Forall2 (fun f f' => moved dir (if Nat.eqb (String.length suffix) 0 then f_name f else suffixed suffix (f_name f)) f f' /\ f_name f' <> EmptyString) pre pre'
  /\ moved dir (if Nat.eqb (String.length suffix) 0 then f_name f else suffixed suffix (f_name f)) f f' /\ f_name f' = EmptyString
  /\ ev = map EWrite pre'.
Definition ref_of (c : cur) : option (refr Dt) :=
  match c with CNone => Some RList | CData [] => None | CData (f :: _) => Some (RFrame f) | CImg f => Some (RFrame f) end.

Inductive fail_step (g : gcfg) (db0 : list frame) (mk : step -> recipe) : step -> wst -> step -> wst -> exn -> Prop :=
| e_suffix : forall s w kw v, is_save s -> s_kw s = Some kw -> assoc "suffix" kw = Some (KOther v) -> fail_step g db0 mk s w s w TypeError
| e_nothing : forall s ev x, is_save s -> suffix_of s x -> fail_step g db0 mk s (mkw CNone ev) s (mkw CNone ev) AttributeError
| e_name : forall s c ev x c' ev', is_save s -> suffix_of s x -> half_saved (r_out (mk s)) x c c' ev' ->
    fail_step g db0 mk s (mkw c ev) s (mkw c' (ev ++ ev')) ValueError
| e_unknown : forall s w, ~ is_save s -> sem (s_name s) = None -> fail_step g db0 mk s w s w KeyError
| e_plain : forall s c ev fn e, ~ is_save s -> sem (s_name s) = Some fn -> ~ skipped s -> s_calibs s = None -> fn c [] (kwargs s) = Raise e ->
    fail_step g db0 mk s (mkw c ev) s (mkw c (ev ++ [EStep (s_name s) [] (kwargs s)])) e
| e_jit_empty : forall s ev fn l, ~ is_save s -> sem (s_name s) = Some fn -> ~ skipped s -> s_calibs s = Some l -> fill_now (r_cfg (mk s)) g = false ->
    fail_step g db0 mk s (mkw (CData []) ev) s (mkw (CData []) ev) IndexError
| e_jit_fill : forall s c ev fn rf s1 e, ~ is_save s -> sem (s_name s) = Some fn -> ~ skipped s -> fill_now (r_cfg (mk s)) g = false ->
    ref_of c = Some rf -> fill_fail (g "skip_missing_cal_steps") (lookup (db0 ++ registered ev) rf) s s1 e ->
    fail_step g db0 mk s (mkw c ev) s1 (mkw c ev) e
| e_jit_none : forall s ev fn l s1, ~ is_save s -> sem (s_name s) = Some fn -> ~ skipped s -> s_calibs s = Some l -> fill_now (r_cfg (mk s)) g = false ->
    fill_spec (g "skip_missing_cal_steps") (lookup (db0 ++ registered ev) RList) s s1 ->
    fail_step g db0 mk s (mkw CNone ev) s1 (mkw CNone ev) AttributeError
| e_load : forall s c ev fn l s1 c1 pre args x post e, ~ is_save s -> sem (s_name s) = Some fn -> ~ skipped s -> s_calibs s = Some l ->
    resolved (negb (fill_now (r_cfg (mk s)) g)) g (db0 ++ registered ev) mk s s1 c c1 ->
    s_calibs s1 = Some (pre ++ x :: post) -> Forall2 cal_arg pre args -> bad_arg x e ->
    fail_step g db0 mk s (mkw c ev) s1 (mkw c1 ev) e
| e_call : forall s c ev fn l s1 c1 l1 args e, ~ is_save s -> sem (s_name s) = Some fn -> ~ skipped s -> s_calibs s = Some l ->
    resolved (negb (fill_now (r_cfg (mk s)) g)) g (db0 ++ registered ev) mk s s1 c c1 ->
    s_calibs s1 = Some l1 -> Forall2 cal_arg l1 args -> fn c1 args (kwargs s) = Raise e ->
    fail_step g db0 mk s (mkw c ev) s1 (mkw c1 (ev ++ [EStep (s_name s) args (kwargs s)])) e.

(** The input of a recipe *)
Definition loaded (r : recipe) (c : cur) : Prop :=
  match r_in r with
  | [] => c = CNone
  | _ :: _ => exists fs, Forall2 (fun p f => img_load p = Ok f) (r_in r) fs /\ c = CData (map (set_recipe r) fs)
  end.
(** names of the step functions called *)
Definition calls (ev : list event) : list string := flat_map (fun e => match e with EStep n _ _ => [n] | _ => [] end) ev.
(** the step calls a step function *)
Definition runs (s : step) : bool := negb (String.eqb (lower (s_name s)) "save") && negb (match s_skip s with Some b => b | None => false end).

(** * Generated recipes *)
Definition dark_dir (outdir : string) (s s' : step) : Prop :=
  if string_dec (lower (s_name s)) "dark_subtraction" then
    exists pre d post, s_kw s = Some (pre ++ ("outputdir", KStr d) :: post) /\ ~ In "outputdir" (map fst pre)
    /\ s' = mkstep (s_name s) (s_calibs s) (Some (pre ++ ("outputdir", KStr (if string_dec (upper d) "AUTOMATIC" then outdir else d)) :: post)) (s_skip s)
  else s' = s.
Definition prepared (fill sm : bool) (find : string -> result string) (outdir : string) (s s' : step) : Prop :=
  exists s1, (if fill then fill_spec sm find s s1 else s1 = s) /\ dark_dir outdir s1 s'.
(** a sequence of calls with one template object *)
Inductive many (shipped : string -> option recipe) (g : gcfg) (t : robj) : store -> list (list frame * list string * string) -> store -> list robj -> Prop :=
| m_nil : forall st, many shipped g t st [] st []
| m_cons : forall st db files outdir st1 o l st2 os, autogen_recipe known lookup img_load shipped g db files outdir (Some t) st = (st1, Ok [o]) ->
    many shipped g t st1 l st2 os -> many shipped g t st ((db, files, outdir) :: l) st2 (o :: os).
End WalkSpec.
