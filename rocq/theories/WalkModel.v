(** The pipeline walker: corgidrp/walker.py guess_template 230-302,
    _fill_in_calib_files 183-228, autogen_recipe 106-181, save_data 305-344,
    run_recipe 348-441.

    A recipe is the JSON object the functions read: dictionaries are association
    lists in insertion order.  Strings are ASCII (str.upper and str.lower act
    character by character).  What a step computes, loading a file, loading a
    calibration and looking one up in the database are parameters. *)
From Coq Require Import List Arith Bool QArith ZArith String Ascii.
From Verif Require Import Base.
Import ListNotations.
Local Open Scope string_scope.
Local Open Scope list_scope.
Local Open Scope nat_scope.

(** * Strings *)
(** str.upper / str.lower *)
Definition up_char (c : ascii) : ascii :=
  let n := nat_of_ascii c in if Nat.leb 97 n && Nat.leb n 122 then ascii_of_nat (n - 32) else c.
Definition low_char (c : ascii) : ascii :=
  let n := nat_of_ascii c in if Nat.leb 65 n && Nat.leb n 90 then ascii_of_nat (n + 32) else c.
Fixpoint smap (f : ascii -> ascii) (s : string) : string :=
  match s with EmptyString => EmptyString | String c t => String (f c) (smap f t) end.
Definition upper := smap up_char.
Definition lower := smap low_char.
(** [sub in s] *)
Fixpoint contains (sub s : string) : bool :=
  String.prefix sub s || match s with EmptyString => false | String _ t => contains sub t end.
(** s.rfind(sub): position of the last occurrence, None for -1 *)
Fixpoint rfind (sub s : string) : option nat :=
  match s with
  | EmptyString => if String.prefix sub EmptyString then Some 0 else None
  | String _ t => match rfind sub t with
                  | Some n => Some (S n)
                  | None => if String.prefix sub s then Some 0 else None
                  end
  end.
(** s[:n] *)
Fixpoint take (n : nat) (s : string) : string :=
  match n, s with S m, String c t => String c (take m t) | _, _ => EmptyString end.
(** s.strip("_") *)
Fixpoint lstrip (s : string) : string :=
  match s with String c t => if Ascii.eqb c "_" then lstrip t else s | EmptyString => s end.
Fixpoint rstrip (s : string) : string :=
  match s with
  | EmptyString => EmptyString
  | String c t => match rstrip t with
                  | EmptyString => if Ascii.eqb c "_" then EmptyString else String c EmptyString
                  | r => String c r
                  end
  end.
Definition strip (s : string) : string := rstrip (lstrip s).

(** 325-332: the new name of a frame *)
Definition suffixed (suffix name : string) : string :=
  let base := match rfind ".fits" (lower name) with
              | Some n => take n name
              | None => take (String.length name - 1) name
              end in
  base ++ "_" ++ strip suffix ++ ".fits".

(** * guess_template *)
Record ghdr : Type := mkg {
  g_lvl : option string; g_vis : option string; g_ispc : option bool; g_fsm : option Q;
  g_exp : option string; g_emc : option string; g_kgp : option string }.

(** split_dataset(exthdr_keywords=['EXPTIME','EMGAIN_C','KGAINPAR']): the list of
    distinct triples (SplitModel.group_keys sorts them; only their number
    matters here) *)
Definition settings (h : ghdr) : result (list string) :=
  do a <- getkey (g_exp h); do b <- getkey (g_emc h); do c <- getkey (g_kgp h); Ok [a; b; c].
Fixpoint mapW {A B} (f : A -> result B) (l : list A) : result (list B) :=
  match l with [] => Ok [] | x :: t => do y <- f x; do r <- mapW f t; Ok (y :: r) end.
Definition unique_vals (hs : list ghdr) : result (list (list string)) :=
  do rows <- mapW settings hs; Ok (nodup (list_eq_dec string_dec) rows).

(** 254-261 and 270-277 *)
Definition dark_template (hs : list ghdr) (h : ghdr) (pc many one : string) : result (list string) :=
  do u <- unique_vals hs;
  do ispc <- getkey (g_ispc h);
  if ispc then Ok [pc] else if Nat.ltb 1 (List.length u) then Ok [many] else Ok [one].

(** 230-302; a list stands for one file name or several *)
Definition guess_template (hs : list ghdr) : result (list string) :=
  match hs with
  | [] => Raise IndexError
  | h :: _ =>
    do lvl <- getkey (g_lvl h);
    if String.eqb lvl "L1" then
      match g_vis h with
      | None => Ok ["l1_to_l2b.json"]
      | Some v =>
        if String.eqb (take 3 v) "ENG" then Ok ["l1_to_l2a_eng.json"]
        else if String.eqb v "BORESITE" then Ok ["l1_to_boresight.json"]
        else if String.eqb v "FFIELD" then Ok ["l1_flat_and_bp.json"]
        else if String.eqb v "DARK" then dark_template hs h "l1_to_l2b_pc_dark.json" "l1_to_l2a_noisemap.json" "build_trad_dark_image.json"
        else if String.eqb v "PUPILIMG" then Ok ["l1_to_l2a_nonlin.json"; "l1_to_kgain.json"]
        else Ok ["l1_to_l2a_basic.json"]
      end
    else if String.eqb lvl "L2a" then
      do v <- getkey (g_vis h);
      if String.eqb v "DARK" then dark_template hs h "l2a_to_l2b_pc_dark.json" "l2a_to_l2a_noisemap.json" "l2a_build_trad_dark_image.json"
      else do ispc <- getkey (g_ispc h); if ispc then Ok ["l2a_to_l2b_pc.json"] else Ok ["l2a_to_l2b.json"]
    else if String.eqb lvl "L2b" then
      do v <- getkey (g_vis h);
      if String.eqb v "ABSFLXFT" || String.eqb v "ABSFLXBT" then Ok ["l2b_to_fluxcal_factor.json"]
      else if String.eqb v "CORETPUT" then Ok ["l2b_to_corethroughput.json"]
      else Ok ["l2b_to_l3.json"]
    else if String.eqb lvl "L3" then
      do f <- getkey (g_fsm h);
      if Qeq_bool f 1 then Ok ["l3_to_l4.json"] else Ok ["l3_to_l4_nopsfsub.json"]
    else Raise NotImplementedError
  end.

(** * Recipes *)
(** A keyword value: a string, or anything else. *)
Inductive kv : Type := KStr (s : string) | KOther (v : string).
Record step : Type := mkstep {
  s_name : string; s_calibs : option (list (string * option string)); s_kw : option (list (string * kv)); s_skip : option bool }.
(** drpconfig: setting -> truth value *)
Record recipe : Type := mkrec {
  r_name : string; r_tmpl : bool; r_cfg : list (string * bool); r_in : list string; r_out : string; r_steps : list step }.

Fixpoint assoc {X} (k : string) (l : list (string * X)) : option X :=
  match l with [] => None | (a, x) :: t => if String.eqb a k then Some x else assoc k t end.
Fixpoint assoc_set {X} (k : string) (v : X) (l : list (string * X)) : list (string * X) :=
  match l with [] => [(k, v)] | (a, x) :: t => if String.eqb a k then (a, v) :: t else (a, x) :: assoc_set k v t end.

Section Walk.
Context {Dt Cal : Type}.
(** data.datatypes *)
Variable known : string -> bool.

(** An image: the headers guess_template reads, file name and directory, the
    class when it is one of caldb.labels, the RECIPE card, the rest. *)
Record frame : Type := mkfr {
  f_hdr : ghdr; f_name : string; f_dir : string; f_cal : option string; f_recipe : option recipe; f_data : Dt }.

(** What get_calib is asked about: None, an image, or an empty Python list. *)
Inductive refr : Type := RNone | RFrame (f : frame) | RList.

(** caldb: get_calib(ref, datatypes[k]).filepath in a database to which the
    calibrations of the list were added.  A ValueError covers "no valid
    calibration" and any ValueError while loading the file. *)
Variable lookup : list frame -> refr -> string -> result string.
(** datatypes[k](path) *)
Variable cal_load : string -> string -> result Cal.
(** Image(path) *)
Variable img_load : string -> result frame.

(** ** _fill_in_calib_files *)
(** 204-227, one entry: new value, whether the step is now marked skipped. *)
Definition fill_entry (skip_missing : bool) (find : string -> result string) (k : string) (v : option string)
  : result (option string * bool) :=
  match v with
  | None => Raise AttributeError
  | Some s =>
    if contains "AUTOMATIC" (upper s) then
      if negb (known k) then Raise KeyError
      else match find k with
           | Ok p => Ok (Some p, false)
           | Raise ValueError => if contains "OPTIONAL" (upper s) then Ok (None, false)
                                 else if skip_missing then Ok (None, true)
                                 else Raise ValueError
           | Raise e => Raise e
           end
    else Ok (v, false)
  end.
(** the loop: entries after an exception are untouched *)
Fixpoint fill_list (skip_missing : bool) (find : string -> result string) (l : list (string * option string))
  : list (string * option string) * bool * option exn :=
  match l with
  | [] => ([], false, None)
  | (k, v) :: t =>
    match fill_entry skip_missing find k v with
    | Raise e => (l, false, Some e)
    | Ok (v', b) => let '(t', b', e) := fill_list skip_missing find t in ((k, v') :: t', b || b', e)
    end
  end.
(** 183-228 *)
Definition fill_step (skip_missing : bool) (find : string -> result string) (s : step) : step * option exn :=
  match s_calibs s with
  | None => (s, None)
  | Some l => let '(l', b, e) := fill_list skip_missing find l in
              (mkstep (s_name s) (Some l') (s_kw s) (if b then Some true else s_skip s), e)
  end.

(** ** autogen_recipe *)
(** Global settings, corgidrp.jit_calib_id and corgidrp.skip_missing_cal_steps
    among them. *)
Definition gcfg : Type := string -> bool.
(** 165-168 *)
Definition fill_now (cfg : list (string * bool)) (g : gcfg) : bool :=
  match assoc "jit_calib_id" cfg with Some b => negb b | None => negb (g "jit_calib_id") end.
(** 170-172 *)
Definition dark_outdir (outdir : string) (s : step) : step * option exn :=
  if String.eqb (lower (s_name s)) "dark_subtraction" then
    match s_kw s with
    | None => (s, Some KeyError)
    | Some kw => match assoc "outputdir" kw with
                 | None => (s, Some KeyError)
                 | Some (KOther _) => (s, Some AttributeError)
                 | Some (KStr d) => if String.eqb (upper d) "AUTOMATIC"
                                    then (mkstep (s_name s) (s_calibs s) (Some (assoc_set "outputdir" (KStr outdir) kw)) (s_skip s), None)
                                    else (s, None)
                 end
    end
  else (s, None).
(** 161-172: the steps after the loop, and the exception that ended it *)
Fixpoint auto_steps (fill : bool) (skip_missing : bool) (find : string -> result string) (outdir : string) (l : list step) : list step * option exn :=
  match l with
  | [] => ([], None)
  | s :: t =>
    let '(s1, e1) := if fill then fill_step skip_missing find s else (s, None) in
    match e1 with
    | Some x => (s1 :: t, Some x)
    | None => let '(s2, e2) := dark_outdir outdir s1 in
              match e2 with
              | Some x => (s2 :: t, Some x)
              | None => let '(t', e) := auto_steps fill skip_missing find outdir t in (s2 :: t', e)
              end
    end
  end.

(** A recipe or template object: its own top-level dictionary, and the position
    in the store of the inputs list and the steps list, which template.copy()
    (152) does not copy. *)
Record robj : Type := mkro { o_name : string; o_tmpl : bool; o_cfg : list (string * bool); o_out : string; o_ref : nat }.
Definition store : Type := list (list string * list step).
Definition value_of (st : store) (o : robj) : option recipe :=
  match nth_error st (o_ref o) with
  | Some (ins, sts) => Some (mkrec (o_name o) (o_tmpl o) (o_cfg o) ins (o_out o) sts)
  | None => None
  end.
Fixpoint set_nth {X} (n : nat) (x : X) (l : list X) : list X :=
  match n, l with O, _ :: t => x :: t | S m, y :: t => y :: set_nth m x t | _, [] => [] end.

(** 150-174 for one template *)
Definition autogen_one (g : gcfg) (db : list frame) (rf : refr) (files : list string) (outdir : string) (st : store) (t : robj) : store * result robj :=
  match nth_error st (o_ref t) with
  | None => (st, Raise KeyError)
  | Some (ins, sts) =>
    let '(sts', e) := auto_steps (fill_now (o_cfg t) g) (g "skip_missing_cal_steps") (lookup db rf) outdir sts in
    (set_nth (o_ref t) (ins ++ files, sts') st,
     match e with Some x => Raise x | None => Ok (mkro (o_name t) false (o_cfg t) outdir (o_ref t)) end)
  end.
Fixpoint autogen_all (g : gcfg) (db : list frame) (rf : refr) (files : list string) (outdir : string) (st : store) (ts : list robj) : store * result (list robj) :=
  match ts with
  | [] => (st, Ok [])
  | t :: ts' =>
    match autogen_one g db rf files outdir st t with
    | (st', Raise e) => (st', Raise e)
    | (st', Ok o) => match autogen_all g db rf files outdir st' ts' with
                     | (st'', Raise e) => (st'', Raise e)
                     | (st'', Ok os) => (st'', Ok (o :: os))
                     end
    end
  end.
(** json.load: a new object *)
Definition alloc (st : store) (r : recipe) : store * robj :=
  (st ++ [(r_in r, r_steps r)], mkro (r_name r) (r_tmpl r) (r_cfg r) (r_out r) (List.length st)).
Fixpoint alloc_all (st : store) (rs : list recipe) : store * list robj :=
  match rs with
  | [] => (st, [])
  | r :: t => let '(st1, o) := alloc st r in let '(st2, os) := alloc_all st1 t in (st2, o :: os)
  end.

(** 106-181; [shipped]: the files of recipe_templates.  An empty list of files
    leaves [dataset] undefined (140). *)
Definition autogen_recipe (shipped : string -> option recipe) (g : gcfg) (db : list frame) (files : list string) (outdir : string)
  (tmpl : option robj) (st : store) : store * result (list robj) :=
  match (match files with [] => Ok [] | _ :: _ => mapW img_load files end) with
  | Raise e => (st, Raise e)
  | Ok frames =>
    let rf := match frames with [] => RNone | f :: _ => RFrame f end in
    match tmpl with
    | Some t => autogen_all g db rf files outdir st [t]
    | None =>
      match files with
      | [] => (st, Raise UnboundLocalError)
      | _ :: _ =>
        match (do names <- guess_template (map f_hdr frames);
               mapW (fun n => match shipped n with Some r => Ok r | None => Raise PyException end) names) with
        | Raise e => (st, Raise e)
        | Ok rs => let '(st1, os) := alloc_all st rs in autogen_all g db rf files outdir st1 os
        end
      end
    end
  end.

(** ** save_data and run_recipe *)
(** The result of the last step: the empty Python list, a Dataset, an Image. *)
Inductive cur : Type := CNone | CData (l : list frame) | CImg (f : frame).
Inductive event : Type :=
| EWrite (f : frame)                                                     (* f_dir/f_name written *)
| ERegister (f : frame)                                                  (* create_entry *)
| ERecipe (r : recipe)                                                   (* the recipe's own file *)
| EStep (name : string) (args : list (option Cal)) (kw : list (string * kv)).  (* step function called *)

Definition set_path (dir name : string) (f : frame) : frame := mkfr (f_hdr f) name dir (f_cal f) (f_recipe f) (f_data f).
(** Image.save (data.py 435-466): the names are changed before the check *)
Fixpoint save_frames (dir : string) (names : list string) (l : list frame) : list frame * list event * option exn :=
  match names, l with
  | n :: ns, f :: t =>
    let f' := set_path dir n f in
    if Nat.eqb (String.length n) 0 then (f' :: t, [], Some ValueError)
    else let '(t', ev, e) := save_frames dir ns t in (f' :: t', EWrite f' :: ev, e)
  | _, _ => (l, [], None)
  end.
Definition is_cal (f : frame) : bool := match f_cal f with Some _ => true | None => false end.
Definition map_cur (fn : list frame -> list frame) (c : cur) : cur :=
  match c with CNone => CNone | CData l => CData (fn l) | CImg f => match fn [f] with [f'] => CImg f' | _ => c end end.
(** 305-344 *)
Definition save_data (dir suffix : string) (c : cur) : cur * list event * option exn :=
  let go (l : list frame) :=
    let names := if Nat.ltb 0 (String.length suffix) then map (fun f => suffixed suffix (f_name f)) l else map f_name l in
    match save_frames dir names l with
    | (l', ev, None) => (l', ev ++ map ERegister (filter is_cal l'), None)
    | r => r
    end in
  match c with
  | CNone => (c, [], Some AttributeError)
  | CData l => let '(l', ev, e) := go l in (CData l', ev, e)
  | CImg f => let '(l', ev, e) := go [f] in (map_cur (fun _ => l') c, ev, e)
  end.

(** the step functions all_steps; a call binds calibrations by position,
    keywords by name *)
Variable sem : string -> option (cur -> list (option Cal) -> list (string * kv) -> result cur).

(** 425-433: load the calibrations of a step *)
Fixpoint load_cals (l : list (string * option string)) : result (list (option Cal)) :=
  match l with
  | [] => Ok []
  | (k, v) :: t =>
    if negb (known k) then Raise KeyError
    else do c <- match v with None => Ok None | Some p => do x <- cal_load k p; Ok (Some x) end;
    do r <- load_cals t; Ok (c :: r)
  end.

Definition set_recipe (r : recipe) (f : frame) : frame := mkfr (f_hdr f) (f_name f) (f_dir f) (f_cal f) (Some r) (f_data f).
Definition registered (ev : list event) : list frame := flat_map (fun e => match e with ERegister f => [f] | _ => [] end) ev.

(** State of the loop: the current result, and the events so far. *)
Record wst : Type := mkw { w_cur : cur; w_ev : list event }.

(** 392-441, one step; [mk s'] is the whole recipe with this step being [s'].
    [db0]: what the database contained at the start. *)
Definition run_step (g : gcfg) (db0 : list frame) (mk : step -> recipe) (s : step) (w : wst) : step * wst * option exn :=
  if String.eqb (lower (s_name s)) "save" then
    match (match s_kw s with Some kw => assoc "suffix" kw | None => None end) with
    | Some (KOther _) => (s, w, Some TypeError)
    | o => let suffix := match o with Some (KStr x) => x | _ => EmptyString end in
           let '(c, ev, e) := save_data (r_out (mk s)) suffix (w_cur w) in (s, mkw c (w_ev w ++ ev), e)
    end
  else match sem (s_name s) with
  | None => (s, w, Some KeyError)
  | Some fn =>
    if match s_skip s with Some b => b | None => false end then (s, w, None)
    else
    let kw := match s_kw s with Some k => k | None => [] end in
    match s_calibs s with
    | None => match fn (w_cur w) [] kw with
              | Ok c => (s, mkw c (w_ev w ++ [EStep (s_name s) [] kw]), None)
              | Raise x => (s, mkw (w_cur w) (w_ev w ++ [EStep (s_name s) [] kw]), Some x)
              end
    | Some _ =>
      let '(s1, w1, e1) :=
        if negb (fill_now (r_cfg (mk s)) g) then
          let db := db0 ++ registered (w_ev w) in
          match w_cur w with
          | CData [] => (s, w, Some IndexError)
          | c => let rf := match c with CNone => RList | CData (f :: _) => RFrame f | CImg f => RFrame f | CData [] => RList end in
                 let '(s1, e) := fill_step (g "skip_missing_cal_steps") (lookup db rf) s in
                 match e with
                 | Some x => (s1, w, Some x)
                 | None => match c with
                           | CNone => (s1, w, Some AttributeError)
                           | _ => (s1, mkw (map_cur (map (set_recipe (mk s1))) c) (w_ev w), None)
                           end
                 end
          end
        else (s, w, None) in
      match e1 with
      | Some x => (s1, w1, Some x)
      | None =>
        match load_cals (match s_calibs s1 with Some l => l | None => [] end) with
        | Raise x => (s1, w1, Some x)
        | Ok args => match fn (w_cur w1) args kw with
                     | Ok c => (s1, mkw c (w_ev w1 ++ [EStep (s_name s) args kw]), None)
                     | Raise x => (s1, mkw (w_cur w1) (w_ev w1 ++ [EStep (s_name s) args kw]), Some x)
                     end
        end
      end
    end
  end.
Fixpoint run_steps (g : gcfg) (db0 : list frame) (mk : list step -> recipe) (l : list step) (w : wst) : list step * wst * option exn :=
  match l with
  | [] => ([], w, None)
  | s :: t =>
    let '(s', w', e) := run_step g db0 (fun x => mk (x :: t)) s w in
    match e with
    | Some x => (s' :: t, w', Some x)
    | None => let '(t', w'', e') := run_steps g db0 (fun l => mk (s' :: l)) t w' in (s' :: t', w'', e')
    end
  end.

(** 363-366: setattr of every setting *)
Definition configure (cfg : list (string * bool)) (g : gcfg) : gcfg :=
  fold_left (fun g kv => fun k => if String.eqb (fst kv) k then snd kv else g k) cfg g.
Definition with_steps (r : recipe) (l : list step) : recipe := mkrec (r_name r) (r_tmpl r) (r_cfg r) (r_in r) (r_out r) l.

(** 348-441: final settings, recipe, state, exception *)
Definition run_recipe (g : gcfg) (db0 : list frame) (save_file : bool) (r : recipe) : gcfg * recipe * wst * option exn :=
  let g' := configure (r_cfg r) g in
  match (match r_in r with [] => Ok CNone | _ :: _ => do fs <- mapW img_load (r_in r); Ok (CData (map (set_recipe r) fs)) end) with
  | Raise e => (g', r, mkw CNone [], Some e)
  | Ok c =>
    let w0 := mkw c (if save_file then [ERecipe r] else []) in
    let '(l, w, e) := run_steps g' db0 (with_steps r) (r_steps r) w0 in
    (g', with_steps r l, w, e)
  end.
End Walk.
Arguments frame : clear implicits.
Arguments refr : clear implicits.
Arguments cur : clear implicits.
Arguments event : clear implicits.
Arguments wst : clear implicits.
