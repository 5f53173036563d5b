(** Property theorems C45: recipes made from the shipped templates. *)
From Coq Require Import List Arith Bool String.
From Verif Require Import Base WalkModel WalkSpec WalkGenProofs RecipeData RecipeModel RecipeSpec RecipeProofs RecipeCheckProofs.
Import ListNotations.
Local Open Scope string_scope.
Local Open Scope list_scope.

(** Python's binding of arguments: a call binds exactly when [binds]; otherwise a
    TypeError. *)
Theorem C45_binding : (forall C ps (args : list (option C)) kw b, bind_call ps args kw = Ok b <->
    binds ps (List.length args) (map fst kw) /\ b = combine ps (map BPos args) ++ map (rest_of kw) (skipn (List.length args) ps))
  /\ forall C ps (args : list (option C)) kw e, bind_call ps args kw = Raise e -> e = TypeError.
Proof. exact (conj (@bind_ok) (@bind_type_error)). Qed.
Print Assumptions C45_binding.

(** Every step reached in a run of a shipped recipe on data of its level is
    registered, gets arguments that bind, calibrations of the classes it expects
    and data it works on. *)
Theorem C45_shipped : forall Dt Cal lookup cal_load sem (cls : Cal -> string), regular cal_load sem cls ->
  forall n r t r' g db0, In (n, r) templates -> declared n t -> n <> "l2b_to_l4.json" -> from_template g r r' -> (fill_now (r_cfg r) g = false -> t <> TNone) ->
  forall (c : cur Dt) ev pre s post pre' w1, has_ty c t -> r_steps r' = pre ++ s :: post ->
  exec known lookup cal_load sem g db0 (fun a => with_steps r' (a ++ s :: post)) pre (mkw c ev) pre' w1 ->
  safe lookup cal_load sem cls g db0 (fun x => with_steps r' (pre' ++ x :: post)) s w1.
Proof. exact @shipped_safe. Qed.
Print Assumptions C45_shipped.

(** A run that fails does so because an input cannot be read, a calibration is
    missing or cannot be read, a file name is unusable, or a function raised though
    called correctly. *)
Theorem C45_failures : forall Dt Cal (lookup : list (frame Dt) -> refr Dt -> string -> result string) cal_load img_load sem (cls : Cal -> string), regular cal_load sem cls ->
  forall n r t r' g0 db0 sf g r2 w e, In (n, r) templates -> declared n t -> n <> "l2b_to_l4.json" -> g = configure (r_cfg r') g0 -> from_template g r r' ->
  (fill_now (r_cfg r) g = false -> t <> TNone) -> (forall c, loaded img_load r' c -> has_ty c t) ->
  run_recipe known lookup cal_load img_load sem g0 db0 sf r' = (g, r2, w, Some e) ->
  (exists p, In p (r_in r') /\ img_load p = Raise e)
  \/ exists pre s post pre' c w1, r_steps r' = pre ++ s :: post /\ loaded img_load r' c
     /\ exec known lookup cal_load sem g db0 (fun a => with_steps r' (a ++ s :: post)) pre (mkw c (if sf then [ERecipe r'] else [])) pre' w1
     /\ excused lookup cal_load sem cls (db0 ++ registered (w_ev w1)) (w_cur w1) s e.
Proof. exact @shipped_failures. Qed.
Print Assumptions C45_failures.

(** A run that succeeds ends with frames of the level promised, or a calibration. *)
Theorem C45_result : forall Dt Cal (lookup : list (frame Dt) -> refr Dt -> string -> result string) cal_load img_load sem (cls : Cal -> string), regular cal_load sem cls ->
  forall n r t t' r' g0 db0 sf g r2 w, In (n, r) templates -> declared n t -> In (n, t') reaches -> g = configure (r_cfg r') g0 -> from_template g r r' ->
  (fill_now (r_cfg r) g = false -> t <> TNone) -> (forall c, loaded img_load r' c -> has_ty c t) ->
  run_recipe known lookup cal_load img_load sem g0 db0 sf r' = (g, r2, w, None) -> has_ty (w_cur w) t'.
Proof. exact @shipped_result. Qed.
Print Assumptions C45_result.

Theorem C45_all_declared : forall n r, In (n, r) templates -> (exists t, declared n t) /\ (n <> "l2b_to_l4.json" -> exists t', In (n, t') reaches).
Proof. exact (fun n r I => conj (shipped_declared n r I) (reaches_all n r I)). Qed.
Print Assumptions C45_all_declared.

(** Recipes generated for files of one level, run later with any database. *)
Theorem C45_generated : forall Dt Cal (lookup : list (frame Dt) -> refr Dt -> string -> result string) cal_load img_load sem (cls : Cal -> string), regular cal_load sem cls ->
  forall g db files outdir st st' os lvl, g "skip_missing_cal_steps" = false ->
  (forall p f, In p files -> img_load p = Ok f -> g_lvl (f_hdr f) = Some lvl) ->
  autogen_recipe known lookup img_load (fun n => assoc n templates) g db files outdir None st = (st', Ok os) ->
  forall o, In o os -> exists r', value_of st' o = Some r' /\ r_in r' = files /\
    forall g0 db0 sf g1 r2 w e, run_recipe known lookup cal_load img_load sem g0 db0 sf r' = (g1, r2, w, Some e) ->
      g1 "skip_missing_cal_steps" = false -> fill_now (r_cfg r') g1 = fill_now (r_cfg r') g ->
      exists pre s post pre' c w1, r_steps r' = pre ++ s :: post /\ loaded img_load r' c
        /\ exec known lookup cal_load sem g1 db0 (fun a => with_steps r' (a ++ s :: post)) pre (mkw c (if sf then [ERecipe r'] else [])) pre' w1
        /\ excused lookup cal_load sem cls (db0 ++ registered (w_ev w1)) (w_cur w1) s e.
Proof. exact @generated_runs. Qed.
Print Assumptions C45_generated.

(** l2b_to_l4.json: do_psf_subtraction gets no core throughput calibration and
    its measurements are on by default (l3_to_l4.py 466-468), so the assertion
    fails whatever the data. *)
Theorem C45_l2b_to_l4_refuted : forall Dt Cal (lookup : list (frame Dt) -> refr Dt -> string -> result string) (cal_load : string -> string -> result Cal) img_load sem,
  (forall fn c kw, sem "do_psf_subtraction" = Some fn -> ~ In "measure_klip_thrupt" (map fst kw) \/ ~ In "measure_1d_core_thrupt" (map fst kw) -> fn c [] kw = Raise AssertionError) ->
  forall g0 db0 sf r' g r2 w fill sm find outdir, Forall2 (prepared known fill sm find outdir) (r_steps t_l2b_to_l4) (r_steps r') ->
  run_recipe known lookup cal_load img_load sem g0 db0 sf r' <> (g, r2, w, None).
Proof. exact @l2b_to_l4_fails. Qed.
Print Assumptions C45_l2b_to_l4_refuted.

(** bp_map.json: skipping the only step leaves nothing to save. *)
Theorem C45_bp_map_skip_refuted : forall Dt Cal (lookup : list (frame Dt) -> refr Dt -> string -> result string) (cal_load : string -> string -> result Cal) img_load sem find outdir r' g0 db0 sf g r2 w e,
  sem "create_bad_pixel_map" <> None -> find "Dark" = Raise ValueError -> r_in r' = [] ->
  Forall2 (prepared known true true find outdir) (r_steps t_bp_map) (r_steps r') ->
  run_recipe known lookup cal_load img_load sem g0 db0 sf r' = (g, r2, w, e) -> e = Some AttributeError.
Proof. exact @bp_map_skip. Qed.
Print Assumptions C45_bp_map_skip_refuted.

(** A recipe generated while an optional calibration was missing cannot be run with
    just-in-time resolution. *)
Theorem C45_optional_jit_refuted : forall Dt Cal lookup cal_load sem g db0 mk s (w : wst Dt Cal) fn k f, ~ is_save s -> sem (s_name s) = Some fn -> ~ skipped s -> s_calibs s = Some [(k, None)] ->
  fill_now (r_cfg (mk s)) g = false -> hd_error (frames_of (w_cur w)) = Some f ->
  exists s', run_step known lookup cal_load sem g db0 mk s w = (s', w, Some AttributeError).
Proof. exact @optional_jit. Qed.
Print Assumptions C45_optional_jit_refuted.

(** Cases: functions that do nothing but what the table says, frames without data,
    every calibration present. *)
Definition ex_fr (lvl : string) : frame unit := mkfr (mkg (Some lvl) (Some "SCI") (Some false) None None None None) "a_L2b.fits" "/in" None None tt.
Definition ex_fn (n : string) (c : cur unit) (args : list (option string)) (kw : list (string * kv)) : result (cur unit) :=
  let out := fun t => match effect n kw t with Some TCal => Ok (CImg (ex_fr "CAL")) | Some (TData l) => Ok (CData [ex_fr l]) | _ => Raise ValueError end in
  match c with
  | CNone => out TNone
  | CData (f :: _) => match g_lvl (f_hdr f) with Some l => out (TData l) | None => Raise KeyError end
  | CData [] => Raise IndexError
  | CImg _ => out TCal
  end.
Definition ex_sem (n : string) := if existsb (String.eqb n) (map fst sigs) then Some (ex_fn n) else None.
Definition ex_load (k p : string) : result string := if String.eqb p "bad" then Raise ValueError else Ok k.
Definition ex_look (db : list (frame unit)) (rf : refr unit) (k : string) : result string := if String.eqb k "TrapCalibration" then Raise ValueError else Ok ("/cal/" ++ k)%string.
Definition ex_img (p : string) : result (frame unit) := Ok (ex_fr "L2b").
Example C45_regular : regular ex_load ex_sem (fun c => c).
Proof.
  split; [|split].
  - intros n. unfold ex_sem. destruct (existsb (String.eqb n) (map fst sigs)) eqn:E.
    + apply existsb_exists in E as (m & H & E). apply String.eqb_eq in E. subst. split; [intros _; exact H|discriminate].
    + split; [intros H; contradiction|]. intros H. assert (G : existsb (String.eqb n) (map fst sigs) = true) by (apply existsb_exists; exists n; split; [exact H|apply String.eqb_refl]). congruence.
  - intros n fn c args kw c' t t'. unfold ex_sem. destruct (existsb (String.eqb n) (map fst sigs)); [|discriminate]. intros [= <-] T E. unfold ex_fn.
    assert (K : forall lv, match effect n kw lv with Some TCal => Ok (CImg (ex_fr "CAL")) | Some (TData l) => Ok (CData [ex_fr l]) | _ => Raise ValueError end = Ok c' -> lv = t -> has_ty c' t').
    { intros lv H ->. rewrite E in H. destruct t' as [|l|]; [discriminate| |]; injection H as <-; [|exists (ex_fr "CAL"); reflexivity]. exists [ex_fr l]. split; [reflexivity|]. split; [discriminate|]. intros f [<-|[]]. reflexivity. }
    destruct t as [|l|].
    + cbn in T. subst c. intros H. exact (K _ H eq_refl).
    + destruct T as (fs & -> & NE & L). destruct fs as [|f fs]; [contradiction|]. rewrite (L f (or_introl eq_refl)). intros H. exact (K _ H eq_refl).
    + destruct T as (f & ->). intros H. exact (K _ H eq_refl).
  - intros k p x. unfold ex_load. destruct (String.eqb p "bad"); [discriminate|]. intros [= <-]. reflexivity.
Qed.
Definition ex_gen := autogen_recipe known ex_look ex_img (fun n => assoc n templates) (fun _ => false) [] ["a.fits"] "/out" None [].
Example C45_example : exists st o r w g r2 f, ex_gen = (st, Ok [o]) /\ value_of st o = Some r /\ r_name r = "l2b_to_l3"
  /\ s_calibs (hd (mkstep "" None None None) (r_steps r)) = Some [("AstrometricCalibration", Some "/cal/AstrometricCalibration")]
  /\ run_recipe known ex_look ex_load ex_img ex_sem (fun _ => false) [] false r = (g, r2, w, None) /\ w_cur w = CData [f] /\ g_lvl (f_hdr f) = Some "L3" /\ from_template g t_l2b_to_l3 r.
Proof.
  eexists; eexists; eexists; eexists; eexists; eexists; eexists. split; [vm_compute; reflexivity|]. split; [vm_compute; reflexivity|]. split; [reflexivity|]. split; [reflexivity|].
  split; [vm_compute; reflexivity|]. split; [reflexivity|]. split; [reflexivity|]. split; [reflexivity|]. split; [reflexivity|].
  exists (ex_look [] (RFrame (ex_fr "L2b"))), "/out". apply auto_ok. vm_compute. reflexivity.
Qed.
