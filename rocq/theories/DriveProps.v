(** C63: a whole call of the pipeline. *)
From Coq Require Import List Arith Bool String ZArith QArith.
From Verif Require Import Base WalkModel WalkSpec DriveModel DriveSpec DriveProofs DriveLawProofs.
Import ListNotations.
Local Open Scope nat_scope.
Local Open Scope string_scope.
Local Open Scope list_scope.

(** Without a template, or with its name: all recipes are made first, from the database as it is then; they are run in order, each with the settings left and the files registered by those before. *)
Theorem C63_run : forall Dt Cal (known : string -> bool) (lookup : list (frame Dt) -> refr Dt -> string -> result string) (cal_load : list (event Dt Cal) -> string -> string -> result Cal)
  (img_load : list (event Dt Cal) -> string -> result (frame Dt)) (sem : string -> option (cur Dt -> list (option Cal) -> list (string * kv) -> result (cur Dt)))
  (json : string -> option recipe) (recipe_dir : string) (db0 : list (frame Dt)),
  forall (u : world Dt Cal) files outdir a u' os, not_object a -> (walk_corgidrp known lookup cal_load img_load sem json recipe_dir db0 u files outdir a = (u', Ok os) <->
  exists rs rs', generated known lookup img_load json recipe_dir db0 (u_cfg u) (u_ev u) files outdir a rs /\ visits known lookup cal_load img_load sem db0 (u_cfg u) (u_ev u) rs (u_cfg u') (u_ev u') rs'
  /\ u_st u' = u_st u ++ map body rs' /\ os = objects (List.length (u_st u)) rs).
Proof. exact (fun Dt Cal known lookup cal_load img_load sem json recipe_dir db0 => walk_ok known lookup cal_load img_load sem json recipe_dir db0). Qed.
Print Assumptions C63_run.
(** With a template object: one recipe, and the object becomes that recipe. *)
Theorem C63_run_object : forall Dt Cal (known : string -> bool) (lookup : list (frame Dt) -> refr Dt -> string -> result string) (cal_load : list (event Dt Cal) -> string -> string -> result Cal)
  (img_load : list (event Dt Cal) -> string -> result (frame Dt)) (sem : string -> option (cur Dt -> list (option Cal) -> list (string * kv) -> result (cur Dt)))
  (json : string -> option recipe) (recipe_dir : string) (db0 : list (frame Dt)),
  forall (u : world Dt Cal) files outdir o u' os, walk_corgidrp known lookup cal_load img_load sem json recipe_dir db0 u files outdir (TObject o) = (u', Ok os) <->
  exists t r r' frames, value_of (u_st u) o = Some t /\ Forall2 (fun p f => img_load (u_ev u) p = Ok f) files frames
  /\ made_of known lookup (u_cfg u) (db0 ++ registered (u_ev u)) frames files outdir t r
  /\ visits known lookup cal_load img_load sem db0 (u_cfg u) (u_ev u) [r] (u_cfg u') (u_ev u') [r']
  /\ u_st u' = set_nth (o_ref o) (body r') (u_st u) /\ os = [mkro (r_name r) false (r_cfg r) outdir (o_ref o)].
Proof. exact (fun Dt Cal known lookup cal_load img_load sem json recipe_dir db0 => walk_object known lookup cal_load img_load sem json recipe_dir db0). Qed.
Print Assumptions C63_run_object.
(** Failure: either no recipe can be made, and nothing is done; or a first recipe fails, and those after it are not started. *)
Theorem C63_fails : forall Dt Cal (known : string -> bool) (lookup : list (frame Dt) -> refr Dt -> string -> result string) (cal_load : list (event Dt Cal) -> string -> string -> result Cal)
  (img_load : list (event Dt Cal) -> string -> result (frame Dt)) (sem : string -> option (cur Dt -> list (option Cal) -> list (string * kv) -> result (cur Dt)))
  (json : string -> option recipe) (recipe_dir : string) (db0 : list (frame Dt)),
  forall (u : world Dt Cal) files outdir a u' e, not_object a -> walk_corgidrp known lookup cal_load img_load sem json recipe_dir db0 u files outdir a = (u', Raise e) ->
  (u_cfg u' = u_cfg u /\ u_ev u' = u_ev u /\ forall rs, ~ generated known lookup img_load json recipe_dir db0 (u_cfg u) (u_ev u) files outdir a rs)
  \/ exists pre r post pre' g1 ev1 r', generated known lookup img_load json recipe_dir db0 (u_cfg u) (u_ev u) files outdir a (pre ++ r :: post) /\ visits known lookup cal_load img_load sem db0 (u_cfg u) (u_ev u) pre g1 ev1 pre'
     /\ breaks known lookup cal_load img_load sem db0 g1 ev1 r (u_cfg u') (u_ev u') r' e /\ u_st u' = u_st u ++ map body (pre' ++ r' :: post).
Proof. exact (fun Dt Cal known lookup cal_load img_load sem json recipe_dir db0 => walk_raises known lookup cal_load img_load sem json recipe_dir db0). Qed.
Print Assumptions C63_fails.
(** Whatever the result, at every moment: only files in the output directory are written, and only written files are registered. *)
Theorem C63_files : forall Dt Cal (known : string -> bool) (lookup : list (frame Dt) -> refr Dt -> string -> result string) (cal_load : list (event Dt Cal) -> string -> string -> result Cal)
  (img_load : list (event Dt Cal) -> string -> result (frame Dt)) (sem : string -> option (cur Dt -> list (option Cal) -> list (string * kv) -> result (cur Dt)))
  (json : string -> option recipe) (recipe_dir : string) (db0 : list (frame Dt)),
  forall (u : world Dt Cal) files outdir a u' r, walk_corgidrp known lookup cal_load img_load sem json recipe_dir db0 u files outdir a = (u', r) -> exists new, u_ev u' = u_ev u ++ new /\ tidy_trace outdir new.
Proof. exact (fun Dt Cal known lookup cal_load img_load sem json recipe_dir db0 => walk_tidy known lookup cal_load img_load sem json recipe_dir db0). Qed.
Print Assumptions C63_files.
(** Whatever the result, recipe objects made before are untouched, the template object apart. *)
Theorem C63_objects : forall Dt Cal (known : string -> bool) (lookup : list (frame Dt) -> refr Dt -> string -> result string) (cal_load : list (event Dt Cal) -> string -> string -> result Cal)
  (img_load : list (event Dt Cal) -> string -> result (frame Dt)) (sem : string -> option (cur Dt -> list (option Cal) -> list (string * kv) -> result (cur Dt)))
  (json : string -> option recipe) (recipe_dir : string) (db0 : list (frame Dt)),
  forall (u : world Dt Cal) files outdir a u' r i, walk_corgidrp known lookup cal_load img_load sem json recipe_dir db0 u files outdir a = (u', r) -> i < List.length (u_st u) -> (forall o, a = TObject o -> i <> o_ref o) -> nth_error (u_st u') i = nth_error (u_st u) i.
Proof. exact (fun Dt Cal known lookup cal_load img_load sem json recipe_dir db0 => walk_keeps known lookup cal_load img_load sem json recipe_dir db0). Qed.
Print Assumptions C63_objects.
(** The recipe files are those of the recipes generated, in order; without just-in-time calibrations running does not change them. *)
Theorem C63_recipes : forall Dt Cal (known : string -> bool) (lookup : list (frame Dt) -> refr Dt -> string -> result string) (cal_load : list (event Dt Cal) -> string -> string -> result Cal)
  (img_load : list (event Dt Cal) -> string -> result (frame Dt)) (sem : string -> option (cur Dt -> list (option Cal) -> list (string * kv) -> result (cur Dt)))
  (json : string -> option recipe) (recipe_dir : string) (db0 : list (frame Dt)),
  forall (u : world Dt Cal) files outdir a u' os, not_object a -> walk_corgidrp known lookup cal_load img_load sem json recipe_dir db0 u files outdir a = (u', Ok os) ->
  exists rs new, generated known lookup img_load json recipe_dir db0 (u_cfg u) (u_ev u) files outdir a rs /\ u_ev u' = u_ev u ++ new /\ recipes_of new = rs
  /\ u_cfg u' = fold_left (fun g r => configure (r_cfg r) g) rs (u_cfg u)
  /\ (u_cfg u "jit_calib_id" = false -> (forall r, In r rs -> ~ In ("jit_calib_id", true) (r_cfg r)) -> u_st u' = u_st u ++ map body rs).
Proof. exact (fun Dt Cal known lookup cal_load img_load sem json recipe_dir db0 => walk_recipes known lookup cal_load img_load sem json recipe_dir db0). Qed.
Print Assumptions C63_recipes.
(** Objects made before play no part. *)
Theorem C63_fresh : forall Dt Cal (known : string -> bool) (lookup : list (frame Dt) -> refr Dt -> string -> result string) (cal_load : list (event Dt Cal) -> string -> string -> result Cal)
  (img_load : list (event Dt Cal) -> string -> result (frame Dt)) (sem : string -> option (cur Dt -> list (option Cal) -> list (string * kv) -> result (cur Dt)))
  (json : string -> option recipe) (recipe_dir : string) (db0 : list (frame Dt)),
  forall (u1 u2 : world Dt Cal) files outdir a u1' os1, not_object a -> u_cfg u1 = u_cfg u2 -> u_ev u1 = u_ev u2 -> walk_corgidrp known lookup cal_load img_load sem json recipe_dir db0 u1 files outdir a = (u1', Ok os1) ->
  exists u2' os2 x, walk_corgidrp known lookup cal_load img_load sem json recipe_dir db0 u2 files outdir a = (u2', Ok os2) /\ u_cfg u2' = u_cfg u1' /\ u_ev u2' = u_ev u1' /\ u_st u1' = u_st u1 ++ x /\ u_st u2' = u_st u2 ++ x.
Proof. exact (fun Dt Cal known lookup cal_load img_load sem json recipe_dir db0 => walk_fresh known lookup cal_load img_load sem json recipe_dir db0). Qed.
Print Assumptions C63_fresh.
(** The name of a template means the one in the package's directory. *)
Theorem C63_name : forall Dt Cal (known : string -> bool) (lookup : list (frame Dt) -> refr Dt -> string -> result string) (cal_load : list (event Dt Cal) -> string -> string -> result Cal)
  (img_load : list (event Dt Cal) -> string -> result (frame Dt)) (sem : string -> option (cur Dt -> list (option Cal) -> list (string * kv) -> result (cur Dt)))
  (json : string -> option recipe) (recipe_dir : string) (db0 : list (frame Dt)),
  forall (u : world Dt Cal) files outdir s, ~ slash s -> walk_corgidrp known lookup cal_load img_load sem json recipe_dir db0 u files outdir (TText s) = walk_corgidrp known lookup cal_load img_load sem json recipe_dir db0 u files outdir (TText (recipe_dir ++ "/" ++ s)%string).
Proof. exact (fun Dt Cal known lookup cal_load img_load sem json recipe_dir db0 => walk_name known lookup cal_load img_load sem json recipe_dir db0). Qed.
Print Assumptions C63_name.
(** ops.step_3_process_data is the same call. *)
Theorem C63_step3 : forall Dt Cal (known : string -> bool) (lookup : list (frame Dt) -> refr Dt -> string -> result string) (cal_load : list (event Dt Cal) -> string -> string -> result Cal)
  (img_load : list (event Dt Cal) -> string -> result (frame Dt)) (sem : string -> option (cur Dt -> list (option Cal) -> list (string * kv) -> result (cur Dt)))
  (json : string -> option recipe) (recipe_dir : string) (db0 : list (frame Dt)),
  forall (u : world Dt Cal) files outdir a u' r, step_3_process_data known lookup cal_load img_load sem json recipe_dir db0 u files outdir a = (u', r) <->
  exists r0, walk_corgidrp known lookup cal_load img_load sem json recipe_dir db0 u files outdir a = (u', r0) /\ r = match r0 with Ok _ => Ok tt | Raise e => Raise e end.
Proof. exact (fun Dt Cal known lookup cal_load img_load sem json recipe_dir db0 => step3 known lookup cal_load img_load sem json recipe_dir db0). Qed.
Print Assumptions C63_step3.
(** A template object used for two calls: the second one processes the files of the first again. *)
Theorem C63_template_refuted : forall Dt Cal (known : string -> bool) (lookup : list (frame Dt) -> refr Dt -> string -> result string) (cal_load : list (event Dt Cal) -> string -> string -> result Cal)
  (img_load : list (event Dt Cal) -> string -> result (frame Dt)) (sem : string -> option (cur Dt -> list (option Cal) -> list (string * kv) -> result (cur Dt)))
  (json : string -> option recipe) (recipe_dir : string) (db0 : list (frame Dt)),
  forall (u : world Dt Cal) files1 d1 files2 d2 o t u1 os1 u2 os2, value_of (u_st u) o = Some t ->
  walk_corgidrp known lookup cal_load img_load sem json recipe_dir db0 u files1 d1 (TObject o) = (u1, Ok os1) -> walk_corgidrp known lookup cal_load img_load sem json recipe_dir db0 u1 files2 d2 (TObject o) = (u2, Ok os2) ->
  exists r1 r2 new1 new2, u_ev u1 = u_ev u ++ new1 /\ u_ev u2 = u_ev u1 ++ new2 /\ recipes_of new1 = [r1] /\ recipes_of new2 = [r2]
  /\ r_in r1 = r_in t ++ files1 /\ r_in r2 = r_in t ++ files1 ++ files2.
Proof. exact (fun Dt Cal known lookup cal_load img_load sem json recipe_dir db0 => walk_twice known lookup cal_load img_load sem json recipe_dir db0). Qed.
Print Assumptions C63_template_refuted.

(** A pipeline of two recipes for pupil images: one makes a Dark, the other uses it. *)
Definition dr_hd : ghdr := mkg (Some "L1") (Some "PUPILIMG") (Some false) (Some 1%Q) (Some "2") (Some "1") (Some "8.7").
Definition dr_known (k : string) : bool := String.eqb k "Dark".
Definition dr_lookup (db : list (frame nat)) (rf : refr nat) (k : string) : result string :=
  match filter (fun f => match f_cal f with Some c => String.eqb c k | None => false end) db with f :: _ => Ok (f_name f) | [] => Raise ValueError end.
Definition dr_cal (ev : list (event nat nat)) (k p : string) : result nat := Ok (String.length p).
Definition dr_img (ev : list (event nat nat)) (p : string) : result (frame nat) := if String.eqb p "lost.fits" then Raise PyException else Ok (mkfr dr_hd p "/in" None None 5).
Definition dr_sem (n : string) : option (cur nat -> list (option nat) -> list (string * kv) -> result (cur nat)) :=
  if String.eqb n "inc" then Some (fun c args kw => match args with [Some a] => Ok c | _ => Raise ValueError end)
  else if String.eqb n "mkdark" then Some (fun c args kw => match frames_of c with f :: _ => Ok (CImg (mkfr (f_hdr f) (f_name f) (f_dir f) (Some "Dark") (f_recipe f) (f_data f))) | [] => Raise ValueError end)
  else None.
Definition dr_json (jit : bool) (p : string) : option recipe :=
  if String.eqb p "/t/l1_to_l2a_nonlin.json" then Some (mkrec "nonlin" true [("jit_calib_id", jit)] [] "" [mkstep "mkdark" None None None; mkstep "save" None (Some [("suffix", KStr "dk")]) None])
  else if String.eqb p "/t/l1_to_kgain.json" then Some (mkrec "kgain" true [] [] "" [mkstep "inc" (Some [("Dark", Some "AUTOMATIC")]) None None; mkstep "save" None None None])
  else None.
Definition dr_walk (jit : bool) := walk_corgidrp dr_known dr_lookup dr_cal dr_img dr_sem (dr_json jit) "/t" [].
Definition dr_u (jit : bool) : world nat nat := mkworld (fun _ => jit) [] [(["x"], [])].
Definition dr_log (ev : list (event nat nat)) : list string :=
  map (fun e => match e with EWrite f => ("write " ++ f_dir f ++ "/" ++ f_name f)%string | ERegister f => ("register " ++ f_name f)%string | ERecipe r => ("recipe " ++ r_name r)%string | EStep n _ _ => ("step " ++ n)%string end) ev.
Definition objs (r : result (list robj)) : list robj := match r with Ok os => os | Raise _ => [] end.
(** The calibrations are looked up before anything is run: what the first recipe of a call makes is not found for the second, where two calls succeed. *)
Theorem C63_same_call_refuted : exists u', dr_walk false (dr_u false) ["a.fits"] "/out" TNone = (u', Raise ValueError) /\ u_ev u' = []
  /\ exists u1 os1 u2 os2, dr_walk false (dr_u false) ["a.fits"] "/out" (TText "l1_to_l2a_nonlin.json") = (u1, Ok os1) /\ dr_walk false u1 ["a.fits"] "/out" (TText "/t/l1_to_kgain.json") = (u2, Ok os2).
Proof.
  pose (w1 := dr_walk false (dr_u false) ["a.fits"] "/out" (TText "l1_to_l2a_nonlin.json")). pose (w2 := dr_walk false (fst w1) ["a.fits"] "/out" (TText "/t/l1_to_kgain.json")).
  exists (fst (dr_walk false (dr_u false) ["a.fits"] "/out" TNone)). split; [vm_compute; reflexivity|]. split; [vm_compute; reflexivity|]. exists (fst w1), (objs (snd w1)), (fst w2), (objs (snd w2)). split; vm_compute; reflexivity.
Qed.
Print Assumptions C63_same_call_refuted.
(** With calibrations looked up just in time it is found; two recipes, three files, one of them registered. *)
Example C63_two : exists u' os, dr_walk true (dr_u true) ["a.fits"; "b.fits"] "/out" TNone = (u', Ok os)
  /\ dr_log (u_ev u') = ["recipe nonlin"; "step mkdark"; "write /out/a_dk.fits"; "register a_dk.fits"; "recipe kgain"; "step inc"; "write /out/a.fits"; "write /out/b.fits"]
  /\ map r_in (recipes_of (u_ev u')) = [["a.fits"; "b.fits"]; ["a.fits"; "b.fits"]] /\ map o_ref os = [1; 2]
  /\ nth_error (u_st u') 2 = Some (["a.fits"; "b.fits"], [mkstep "inc" (Some [("Dark", Some "a_dk.fits")]) None None; mkstep "save" None None None]).
Proof. pose (w := dr_walk true (dr_u true) ["a.fits"; "b.fits"] "/out" TNone). exists (fst w), (objs (snd w)). repeat split; vm_compute; reflexivity. Qed.
(** The second recipe cannot be made, or an input is missing: nothing is done. *)
Example C63_nothing : exists u1 u2, dr_walk true (dr_u true) ["a.fits"; "lost.fits"] "/out" TNone = (u1, Raise PyException) /\ u_ev u1 = [] /\ dr_walk true (dr_u true) ["a.fits"] "/out" (TText "my.json") = (u2, Raise PyException) /\ u_ev u2 = [].
Proof. exists (fst (dr_walk true (dr_u true) ["a.fits"; "lost.fits"] "/out" TNone)), (fst (dr_walk true (dr_u true) ["a.fits"] "/out" (TText "my.json"))). repeat split; vm_compute; reflexivity. Qed.
(** A recipe that fails after the first was finished: its files stay. *)
Example C63_crash : exists u', walk_corgidrp dr_known (fun db rf k => Raise KeyError) dr_cal dr_img dr_sem (dr_json true) "/t" [] (dr_u true) ["a.fits"] "/out" TNone = (u', Raise KeyError)
  /\ dr_log (u_ev u') = ["recipe nonlin"; "step mkdark"; "write /out/a_dk.fits"; "register a_dk.fits"; "recipe kgain"].
Proof. exists (fst (walk_corgidrp dr_known (fun db rf k => Raise KeyError) dr_cal dr_img dr_sem (dr_json true) "/t" [] (dr_u true) ["a.fits"] "/out" TNone)). split; vm_compute; reflexivity. Qed.
(** A template object, used twice. *)
Definition dr_o : robj := mkro "t" true [] "" 0.
Definition dr_v : world nat nat := mkworld (fun _ => false) [] [([], [mkstep "mkdark" None None None; mkstep "save" None None None])].
Example C63_object : exists u1 os1 u2 os2, dr_walk false dr_v ["a.fits"] "/o1" (TObject dr_o) = (u1, Ok os1) /\ dr_walk false u1 ["b.fits"] "/o2" (TObject dr_o) = (u2, Ok os2) /\ map r_in (recipes_of (u_ev u2)) = [["a.fits"]; ["a.fits"; "b.fits"]].
Proof. pose (w1 := dr_walk false dr_v ["a.fits"] "/o1" (TObject dr_o)). pose (w2 := dr_walk false (fst w1) ["b.fits"] "/o2" (TObject dr_o)). exists (fst w1), (objs (snd w1)), (fst w2), (objs (snd w2)). repeat split; vm_compute; reflexivity. Qed.
