(** Property theorems C18-C22: the pipeline walker. *)
From Coq Require Import List Arith Bool QArith String Ascii.
From Verif Require Import Base WalkModel WalkSpec WalkStrProofs WalkProofs WalkRunProofs WalkGenProofs.
Import ListNotations.
Local Open Scope string_scope.
Local Open Scope list_scope.
Local Open Scope nat_scope.

(** * C18: the recipe chosen for a dataset *)
Theorem C18_table : forall h hs l, guess_template (h :: hs) = Ok l <-> picks (h :: hs) h l.
Proof. exact guess_iff. Qed.
Print Assumptions C18_table.

Theorem C18_unsupported : forall h hs, guess_template (h :: hs) = Raise NotImplementedError <-> exists lvl, g_lvl h = Some lvl /\ ~ In lvl ["L1"; "L2a"; "L2b"; "L3"].
Proof. exact guess_unsupported. Qed.
Print Assumptions C18_unsupported.

(** Every other failure is a missing header card. *)
Theorem C18_other_failure : forall h hs e, guess_template (h :: hs) = Raise e -> e = KeyError \/ e = NotImplementedError.
Proof. exact guess_raise. Qed.
Print Assumptions C18_other_failure.

Theorem C18_other_frames : (forall h hs hs' l, (forall n, n_settings (h :: hs) n <-> n_settings (h :: hs') n) -> (guess_template (h :: hs) = Ok l <-> guess_template (h :: hs') = Ok l))
  /\ (forall h hs hs' v, g_vis h = Some v -> v <> "DARK" -> guess_template (h :: hs) = guess_template (h :: hs')).
Proof. exact (conj guess_other_frames guess_not_dark). Qed.
Print Assumptions C18_other_frames.

Definition ex_hd (lvl vis : string) (pc : bool) (t : string) : ghdr := mkg (Some lvl) (Some vis) (Some pc) (Some 1%Q) (Some t) (Some "1") (Some "8.7").
Example C18_example : guess_template [ex_hd "L1" "DARK" false "2"; ex_hd "L1" "SCI" true "3"] = Ok ["l1_to_l2a_noisemap.json"]
  /\ guess_template [ex_hd "L1" "DARK" false "2"; ex_hd "L1" "DARK" false "2"] = Ok ["build_trad_dark_image.json"]
  /\ guess_template [ex_hd "L1" "ENGPUPIL" false "2"] = Ok ["l1_to_l2a_eng.json"] /\ guess_template [ex_hd "L4" "DARK" false "2"] = Raise NotImplementedError
  /\ n_settings [ex_hd "L1" "DARK" false "2"; ex_hd "L1" "SCI" true "3"] 2.
Proof. split; [reflexivity|]. split; [reflexivity|]. split; [reflexivity|]. split; [reflexivity|]. apply (unique_ok _ [["2"; "1"; "8.7"]; ["3"; "1"; "8.7"]]). reflexivity. Qed.

(** * C19: calibration entries *)
Theorem C19_fill : forall known sm find s s', fill_step known sm find s = (s', None) <-> fill_spec known sm find s s'.
Proof. exact (fun known sm find => fill_ok known find sm). Qed.
Print Assumptions C19_fill.

(** On an exception the entries before the offending one are filled in, the
    others are not. *)
Theorem C19_fill_raises : forall known sm find s s' e, fill_step known sm find s = (s', Some e) <-> fill_fail known sm find s s' e.
Proof. exact (fun known sm find => fill_raise known find sm). Qed.
Print Assumptions C19_fill_raises.

(** The step is marked exactly when a calibration that is not optional is missing. *)
Theorem C19_marked : forall known sm find s s' l, fill_step known sm find s = (s', None) -> s_calibs s = Some l -> ~ skipped s ->
  (skipped s' <-> exists k a, In (k, Some a) l /\ mentions "AUTOMATIC" a /\ find k = Raise ValueError /\ ~ mentions "OPTIONAL" a /\ sm = true).
Proof. exact (fun known sm find s s' l H => fill_marked known sm find s s' l (proj1 (fill_ok known find sm s s') H)). Qed.
Print Assumptions C19_marked.

(** A recipe is filled in when it is generated unless just-in-time resolution is
    chosen by the recipe or, if the recipe does not say, by the pipeline. *)
Theorem C19_generated : forall known fill sm find outdir l l', auto_steps known fill sm find outdir l = (l', None) <-> Forall2 (prepared known fill sm find outdir) l l'.
Proof. exact auto_ok. Qed.
Print Assumptions C19_generated.

Theorem C19_when : forall cfg g, fill_now cfg g = true <-> assoc "jit_calib_id" cfg = Some false \/ (assoc "jit_calib_id" cfg = None /\ g "jit_calib_id" = false).
Proof. exact fill_now_iff. Qed.
Print Assumptions C19_when.

Theorem C19_skipped_not_run : forall Dt Cal known lookup cal_load sem g db0 mk s (w : wst Dt Cal) fn, ~ is_save s -> sem (s_name s) = Some fn -> skipped s ->
  run_step known lookup cal_load sem g db0 mk s w = (s, w, None).
Proof. exact @run_skip. Qed.
Print Assumptions C19_skipped_not_run.

(** With just-in-time resolution a step whose calibration is missing is marked
    and executed all the same, with None for the calibration. *)
Theorem C19_jit_skip_refuted : forall Dt Cal known lookup cal_load sem g db0 mk s (c : cur Dt) (ev : list (event Dt Cal)) fn k a f c',
  ~ is_save s -> sem (s_name s) = Some fn -> ~ skipped s -> s_calibs s = Some [(k, Some a)] ->
  fill_now (r_cfg (mk s)) g = false -> g "skip_missing_cal_steps" = true -> mentions "AUTOMATIC" a -> ~ mentions "OPTIONAL" a -> known k = true ->
  hd_error (frames_of c) = Some f -> lookup (db0 ++ registered ev) (RFrame f) k = Raise ValueError ->
  (forall c1, frames_of c1 = map (set_recipe (mk (with_calibs s [(k, None)] true))) (frames_of c) -> fn c1 [None] (kwargs s) = Ok c') ->
  exists s1, run_step known lookup cal_load sem g db0 mk s (mkw c ev) = (s1, mkw c' (ev ++ [EStep (s_name s) [None] (kwargs s)]), None) /\ skipped s1.
Proof. exact @jit_skip. Qed.
Print Assumptions C19_jit_skip_refuted.

(** An entry that was resolved to None cannot be processed again. *)
Theorem C19_refill_refuted : forall known sm find s l k, s_calibs s = Some l -> In (k, None) l -> forall s', fill_step known sm find s <> (s', None).
Proof. exact fill_none. Qed.
Print Assumptions C19_refill_refuted.

Definition ex_known (k : string) : bool := String.eqb k "Dark" || String.eqb k "FlatField".
Definition ex_find (k : string) : result string := if String.eqb k "Dark" then Ok "/c/dark.fits" else Raise ValueError.
Definition ex_step : step := mkstep "flat_division" (Some [("Dark", Some "Automatic"); ("FlatField", Some "AUTOMATIC,OPTIONAL"); ("KGain", Some "/c/k.fits")]) None None.
Example C19_example : fill_step ex_known false ex_find ex_step = (mkstep "flat_division" (Some [("Dark", Some "/c/dark.fits"); ("FlatField", None); ("KGain", Some "/c/k.fits")]) None None, None)
  /\ fill_step ex_known true ex_find (mkstep "flat_division" (Some [("FlatField", Some "AUTOMATIC")]) None None) = (mkstep "flat_division" (Some [("FlatField", None)]) None (Some true), None)
  /\ fill_step ex_known false ex_find (mkstep "flat_division" (Some [("Dark", Some "AUTOMATIC"); ("FlatField", Some "AUTOMATIC")]) None None)
     = (mkstep "flat_division" (Some [("Dark", Some "/c/dark.fits"); ("FlatField", Some "AUTOMATIC")]) None None, Some ValueError).
Proof. split; [reflexivity|]. split; reflexivity. Qed.

(** * C20: running a recipe *)
Theorem C20_run : forall Dt Cal known lookup cal_load img_load sem g db0 sf r g' r' (w : wst Dt Cal), run_recipe known lookup cal_load img_load sem g db0 sf r = (g', r', w, None) <->
  g' = configure (r_cfg r) g /\ exists c l, loaded img_load r c /\ exec known lookup cal_load sem g' db0 (with_steps r) (r_steps r) (mkw c (if sf then [ERecipe r] else [])) l w /\ r' = with_steps r l.
Proof. exact (fun Dt Cal known lookup cal_load img_load sem => recipe_ok known lookup cal_load sem img_load). Qed.
Print Assumptions C20_run.

Theorem C20_run_fails : forall Dt Cal known lookup cal_load img_load sem g db0 sf r g' r' (w : wst Dt Cal) e, run_recipe known lookup cal_load img_load sem g db0 sf r = (g', r', w, Some e) <->
  g' = configure (r_cfg r) g /\
  ((r' = r /\ w = mkw CNone [] /\ exists pre p post, r_in r = pre ++ p :: post /\ (forall q, In q pre -> exists f, img_load q = Ok f) /\ img_load p = Raise e)
   \/ exists c pre s post pre' s' w1, loaded img_load r c /\ r_steps r = pre ++ s :: post /\ r' = with_steps r (pre' ++ s' :: post)
      /\ exec known lookup cal_load sem g' db0 (fun a => with_steps r (a ++ s :: post)) pre (mkw c (if sf then [ERecipe r] else [])) pre' w1
      /\ fail_step known lookup cal_load sem g' db0 (fun x => with_steps r (pre' ++ x :: post)) s w1 s' w e).
Proof. exact (fun Dt Cal known lookup cal_load img_load sem => recipe_fail known lookup cal_load sem img_load). Qed.
Print Assumptions C20_run_fails.

(** The step functions called, in order. *)
Theorem C20_calls : forall Dt Cal known lookup cal_load sem g db0 mk l (w : wst Dt Cal) l' w', exec known lookup cal_load sem g db0 mk l w l' w' ->
  exists ev, w_ev w' = w_ev w ++ ev /\ calls ev = map s_name (filter runs l).
Proof. exact @exec_calls. Qed.
Print Assumptions C20_calls.

Theorem C20_calls_failing : forall Dt Cal known lookup cal_load sem g db0 mk s (w : wst Dt Cal) s' w' e, fail_step known lookup cal_load sem g db0 mk s w s' w' e ->
  exists ev, w_ev w' = w_ev w ++ ev /\ (calls ev = [] \/ calls ev = [s_name s] /\ runs s = true).
Proof. exact @fail_calls. Qed.
Print Assumptions C20_calls_failing.

Theorem C20_unknown : (forall Dt Cal known lookup cal_load sem g db0 mk s (w : wst Dt Cal), ~ is_save s -> sem (s_name s) = None -> run_step known lookup cal_load sem g db0 mk s w = (s, w, Some KeyError))
  /\ (forall Dt Cal known lookup cal_load sem g db0 mk l (w : wst Dt Cal) l' w', exec known lookup cal_load sem g db0 mk l w l' w' -> forall s, In s l -> is_save s \/ sem (s_name s) <> None).
Proof. exact (conj (@run_unknown) (@unknown_never)). Qed.
Print Assumptions C20_unknown.

(** Saving: frames get their new path and are written in order, calibrations are
    registered after all are written; headers, data and recipe card stay. *)
Theorem C20_save : forall Dt Cal dir suffix (c c' : cur Dt) (ev : list (event Dt Cal)), save_data dir suffix c = (c', ev, None) <-> saved dir suffix c c' ev.
Proof. exact @save_ok. Qed.
Print Assumptions C20_save.

(** The recipe is unchanged by running it unless calibrations are resolved just
    in time, and then only its calibration entries change. *)
Theorem C20_recipe_kept : (forall Dt Cal known lookup cal_load sem g db0 mk l (w : wst Dt Cal) l' w', exec known lookup cal_load sem g db0 mk l w l' w' -> (forall x, fill_now (r_cfg (mk x)) g = true) -> l' = l)
  /\ (forall Dt Cal known lookup cal_load sem g db0 mk l (w : wst Dt Cal) l' w', exec known lookup cal_load sem g db0 mk l w l' w' -> map s_name l' = map s_name l /\ map s_kw l' = map s_kw l).
Proof. exact (conj (@exec_unchanged) (@exec_length)). Qed.
Print Assumptions C20_recipe_kept.

(** The settings of a recipe remain in force after it, whether it succeeds or
    not ... *)
Theorem C20_settings : forall Dt Cal known lookup cal_load img_load sem g db0 sf r g' r' (w : wst Dt Cal) e, run_recipe known lookup cal_load img_load sem g db0 sf r = (g', r', w, e) ->
  NoDup (map fst (r_cfg r)) -> forall k, g' k = match assoc k (r_cfg r) with Some b => b | None => g k end.
Proof. exact @config_persists. Qed.
Print Assumptions C20_settings.

(** ... so a recipe that says nothing is treated differently afterwards. *)
Theorem C20_settings_leak_refuted : forall Dt Cal known lookup cal_load img_load sem g db0 sf r g' r' (w : wst Dt Cal) e r2, run_recipe known lookup cal_load img_load sem g db0 sf r = (g', r', w, e) ->
  NoDup (map fst (r_cfg r)) -> assoc "jit_calib_id" (r_cfg r) = Some true -> assoc "jit_calib_id" (r_cfg r2) = None -> g "jit_calib_id" = false ->
  fill_now (r_cfg r2) g = true /\ fill_now (r_cfg r2) g' = false.
Proof. exact @jit_leaks. Qed.
Print Assumptions C20_settings_leak_refuted.

Theorem C20_empty_save_refuted : forall Dt Cal known lookup cal_load sem g db0 mk s x (ev : list (event Dt Cal)), is_save s -> suffix_of s x ->
  run_step known lookup cal_load sem g db0 mk s (mkw CNone ev) = (s, mkw CNone ev, Some AttributeError).
Proof. exact @empty_save. Qed.
Print Assumptions C20_empty_save_refuted.

(** A step "inc" adding one to the data (and its calibration), "mkdark" turning
    the first frame into a Dark. *)
Definition ex_img (p : string) : result (frame nat) := Ok (mkfr (ex_hd "L1" "SCI" false "1") p "/in" None None 5).
Definition ex_lookup (db : list (frame nat)) (rf : refr nat) (k : string) : result string :=
  match filter (fun f => match f_cal f with Some c => String.eqb c k | None => false end) db with f :: _ => Ok (f_name f) | [] => Raise ValueError end.
Definition ex_calload (k p : string) : result nat := Ok (String.length p).
Definition bump (n : nat) (f : frame nat) : frame nat := mkfr (f_hdr f) (f_name f) (f_dir f) (f_cal f) (f_recipe f) (f_data f + n).
Definition ex_sem (n : string) : option (cur nat -> list (option nat) -> list (string * kv) -> result (cur nat)) :=
  if String.eqb n "inc" then Some (fun c args kw => Ok (map_cur (map (bump (match args with Some a :: _ => a | _ => 1 end))) c))
  else if String.eqb n "mkdark" then Some (fun c args kw => match frames_of c with f :: _ => Ok (CImg (mkfr (f_hdr f) (f_name f) (f_dir f) (Some "Dark") (f_recipe f) (f_data f))) | [] => Raise ValueError end)
  else None.
Definition ex_recipe (jit : bool) : recipe := mkrec "r" false [("jit_calib_id", jit)] ["a.fits"; "b.fits"] "/out"
  [mkstep "inc" None None None; mkstep "inc" None None (Some true); mkstep "mkdark" None None None; mkstep "Save" None (Some [("suffix", KStr "_dk_")]) None; mkstep "inc" (Some [("Dark", Some "AUTOMATIC")]) None None].
Definition ex_run (jit : bool) := run_recipe ex_known ex_lookup ex_calload ex_img ex_sem (fun _ => false) [] true (ex_recipe jit).
Example C20_example : exists g r f f', ex_run true = (g, r, mkw (CImg f) [ERecipe (ex_recipe true); EStep "inc" [] []; EStep "mkdark" [] []; EWrite f'; ERegister f'; EStep "inc" [Some 9] []], None)
  /\ f_data f = 15 /\ f_data f' = 6 /\ f_dir f' = "/out" /\ f_name f' = "a_dk.fits" /\ f_recipe f = Some r
  /\ g "jit_calib_id" = true /\ map s_calibs (r_steps r) = [None; None; None; None; Some [("Dark", Some "a_dk.fits")]].
Proof. eexists; eexists; eexists; eexists. split; [reflexivity|]. repeat split; reflexivity. Qed.
Example C20_unknown_example : exists g r w, run_recipe ex_known ex_lookup ex_calload ex_img ex_sem (fun _ => false) [] false (mkrec "r" false [] ["a.fits"] "/out" [mkstep "inc" None None None; mkstep "nope" None None (Some true)]) = (g, r, w, Some KeyError)
  /\ calls (w_ev w) = ["inc"].
Proof. eexists; eexists; eexists. split; reflexivity. Qed.
(** C19: nothing in the database, the step is marked and executed. *)
Example C19_jit_example : exists s1 c, run_step ex_known ex_lookup ex_calload ex_sem (fun _ => true) [] (fun s => mkrec "r" false [] [] "/out" [s]) (mkstep "inc" (Some [("Dark", Some "AUTOMATIC")]) None None)
  (mkw (CData [bump 0 (mkfr (ex_hd "L1" "SCI" false "1") "a.fits" "/in" None None 5)]) []) = (s1, mkw c [EStep "inc" [None] []], None) /\ s_skip s1 = Some true /\ map f_data (frames_of c) = [6].
Proof. eexists; eexists. split; [reflexivity|]. split; reflexivity. Qed.

(** * C21: generated recipes *)
(** Without a template: new recipes with the inputs of the shipped template
    followed by the files; no older recipe or template is touched. *)
Theorem C21_fresh : forall Dt known lookup img_load shipped g db files outdir st st' os, autogen_recipe (Dt := Dt) known lookup img_load shipped g db files outdir None st = (st', Ok os) ->
  exists f fs names, mapW img_load files = Ok (f :: fs) /\ picks (map f_hdr (f :: fs)) (f_hdr f) names
  /\ (forall i, i < List.length st -> nth_error st' i = nth_error st i) /\ map o_ref os = seq (List.length st) (List.length os)
  /\ Forall2 (fun n o => exists r sts, shipped n = Some r /\ Forall2 (prepared known (fill_now (r_cfg r) g) (g "skip_missing_cal_steps") (lookup db (RFrame f)) outdir) (r_steps r) sts
       /\ value_of st' o = Some (mkrec (r_name r) false (r_cfg r) (r_in r ++ files) outdir sts)) names os.
Proof. exact @autogen_fresh. Qed.
Print Assumptions C21_fresh.

(** With a template object: template and recipe share their inputs and steps. *)
Theorem C21_template_changed_refuted : forall Dt known lookup img_load shipped g db files outdir t st st' os, autogen_recipe (Dt := Dt) known lookup img_load shipped g db files outdir (Some t) st = (st', Ok os) ->
  exists frames ins sts sts' o, mapW img_load files = Ok frames /\ os = [o] /\ o_ref o = o_ref t /\ nth_error st (o_ref t) = Some (ins, sts)
  /\ Forall2 (prepared known (fill_now (o_cfg t) g) (g "skip_missing_cal_steps") (lookup db (match frames with [] => RNone | f :: _ => RFrame f end)) outdir) sts sts'
  /\ value_of st' o = Some (mkrec (o_name t) false (o_cfg t) (ins ++ files) outdir sts') /\ value_of st' t = Some (mkrec (o_name t) (o_tmpl t) (o_cfg t) (ins ++ files) (o_out t) sts')
  /\ (forall i, i <> o_ref t -> nth_error st' i = nth_error st i) /\ List.length st' = List.length st.
Proof. exact @autogen_given. Qed.
Print Assumptions C21_template_changed_refuted.

(** So after any number of calls with one template object all the recipes have
    the inputs of all calls. *)
Theorem C21_shared_refuted : forall Dt known lookup img_load shipped g t st l st' os, many (Dt := Dt) known lookup img_load shipped g t st l st' os -> forall r0, value_of st t = Some r0 ->
  (exists r, value_of st' t = Some r /\ r_in r = r_in r0 ++ List.concat (map (fun x => snd (fst x)) l))
  /\ forall o, In o os -> exists r, value_of st' o = Some r /\ r_in r = r_in r0 ++ List.concat (map (fun x => snd (fst x)) l).
Proof. exact @many_inputs. Qed.
Print Assumptions C21_shared_refuted.

(** A failed call has appended the files all the same. *)
Theorem C21_failure_keeps_refuted : forall Dt known lookup img_load shipped g db files outdir t st st' e frames, autogen_recipe (Dt := Dt) known lookup img_load shipped g db files outdir (Some t) st = (st', Raise e) ->
  mapW img_load files = Ok frames -> o_ref t < List.length st ->
  exists ins sts sts', nth_error st (o_ref t) = Some (ins, sts) /\ nth_error st' (o_ref t) = Some (ins ++ files, sts').
Proof. exact @autogen_failed. Qed.
Print Assumptions C21_failure_keeps_refuted.

(** And a template of which an optional calibration was missing once cannot be
    used again. *)
Theorem C21_optional_once_refuted : forall Dt known lookup img_load shipped g db files outdir t st ins sts s k l, nth_error st (o_ref t) = Some (ins, sts) -> fill_now (o_cfg t) g = true ->
  In s sts -> s_calibs s = Some l -> In (k, None) l -> forall st' os, autogen_recipe (Dt := Dt) known lookup img_load shipped g db files outdir (Some t) st <> (st', Ok os).
Proof. exact @none_blocks. Qed.
Print Assumptions C21_optional_once_refuted.

Theorem C21_no_files_refuted : forall Dt known lookup img_load shipped g db outdir st, autogen_recipe (Dt := Dt) known lookup img_load shipped g db [] outdir None st = (st, Raise UnboundLocalError).
Proof. exact @autogen_empty. Qed.
Print Assumptions C21_no_files_refuted.

Definition ex_shipped (n : string) : option recipe :=
  if String.eqb n "l1_to_l2a_basic.json" then Some (mkrec "basic" true [] [] "" [mkstep "dark_subtraction" (Some [("Dark", Some "AUTOMATIC,OPTIONAL")]) (Some [("outputdir", KStr "AUTOMATIC")]) None]) else None.
Definition ex_auto (db : list (frame nat)) (files : list string) (t : option robj) (st : store) := autogen_recipe ex_known ex_lookup ex_img ex_shipped (fun _ => false) db files "/o" t st.
Definition ex_dk : frame nat := mkfr (ex_hd "L1" "SCI" false "1") "d.fits" "/in" (Some "Dark") None 1.
Example C21_example : exists st o, ex_auto [ex_dk] ["a.fits"; "b.fits"] None [(["x"], [])] = (st, Ok [o]) /\ nth_error st 0 = Some (["x"], [])
  /\ value_of st o = Some (mkrec "basic" false [] ["a.fits"; "b.fits"] "/o" [mkstep "dark_subtraction" (Some [("Dark", Some "d.fits")]) (Some [("outputdir", KStr "/o")]) None]).
Proof. eexists; eexists. split; [reflexivity|]. split; reflexivity. Qed.
Example C21_shared_example : exists st1 st2 o1 o2 r1 r2, let t := mkro "t" true [] "" 0 in let st := [([], [mkstep "inc" (Some [("Dark", Some "AUTOMATIC")]) None None])] in
  ex_auto [ex_dk] ["a.fits"] (Some t) st = (st1, Ok [o1]) /\ ex_auto [ex_dk] ["b.fits"] (Some t) st1 = (st2, Ok [o2])
  /\ value_of st2 o1 = Some r1 /\ value_of st2 o2 = Some r2 /\ r_in r1 = ["a.fits"; "b.fits"] /\ r_in r2 = ["a.fits"; "b.fits"].
Proof. do 6 eexists. cbn zeta. split; [reflexivity|]. split; [reflexivity|]. repeat split; reflexivity. Qed.
Example C21_optional_example : let t := mkro "t" true [] "" 0 in let st := [([], [mkstep "inc" (Some [("Dark", Some "AUTOMATIC,OPTIONAL")]) None None])] in
  exists st1 o1 st2, ex_auto [] ["a.fits"] (Some t) st = (st1, Ok [o1]) /\ ex_auto [ex_dk] ["b.fits"] (Some t) st1 = (st2, Raise AttributeError) /\ nth_error st2 0 = Some (["a.fits"; "b.fits"], [mkstep "inc" (Some [("Dark", None)]) None None]).
Proof. cbn zeta. do 3 eexists. split; [reflexivity|]. split; reflexivity. Qed.

(** * C22: names of saved files *)
Theorem C22_name : forall suffix base e x, fits_ext e -> stripped suffix x -> suffixed suffix (base ++ e) = (base ++ "_" ++ x ++ ".fits")%string.
Proof. exact suffixed_fits. Qed.
Print Assumptions C22_name.

Theorem C22_distinct : forall suffix b1 e1 b2 e2, fits_ext e1 -> fits_ext e2 -> (suffixed suffix (b1 ++ e1) = suffixed suffix (b2 ++ e2) <-> b1 = b2).
Proof. exact suffixed_inj. Qed.
Print Assumptions C22_distinct.

Theorem C22_underscores : (forall s s' name x, stripped s x -> stripped s' x -> suffixed s name = suffixed s' name) /\ (forall s, exists x, stripped s x).
Proof. exact (conj suffixed_strip (fun s => ex_intro _ _ (strip_stripped s))). Qed.
Print Assumptions C22_underscores.

(** The last occurrence of the extension counts, wherever it is; what follows it
    is dropped. *)
Theorem C22_last_extension : forall suffix name a e b x, name = (a ++ e ++ b)%string -> fits_ext e ->
  (forall a' e' b', name = (a' ++ e' ++ b')%string -> fits_ext e' -> String.length a' <= String.length a) -> stripped suffix x -> suffixed suffix name = (a ++ "_" ++ x ++ ".fits")%string.
Proof. exact suffixed_last. Qed.
Print Assumptions C22_last_extension.

(** A name without the extension loses its last character; so two of them can
    be saved to one file. *)
Theorem C22_no_extension_refuted : forall suffix name x, (forall a e b, name = (a ++ e ++ b)%string -> ~ fits_ext e) -> stripped suffix x ->
  suffixed suffix name = (take (String.length name - 1) name ++ "_" ++ x ++ ".fits")%string.
Proof. exact suffixed_none. Qed.
Print Assumptions C22_no_extension_refuted.

Example C22_example : suffixed "__L2a_" "CGI_0200.x.FiTs" = "CGI_0200.x_L2a.fits" /\ fits_ext ".FiTs" /\ stripped "__L2a_" "L2a"
  /\ suffixed "a" "x.fits" = suffixed "a" "x.FITS" /\ suffixed "a" "fileA" = suffixed "a" "fileB" /\ suffixed "a" "x.fits.gz" = "x_a.fits" /\ suffixed "_" "x.fits" = "x_.fits".
Proof. split; [reflexivity|]. split; [reflexivity|]. split; [apply strip_iff; reflexivity|]. repeat split; reflexivity. Qed.
