(** C64: frames and FITS files. *)
From Coq Require Import List Arith Bool String Ascii ZArith QArith.
From Verif Require Import Base DiskModel DiskSpec DiskProofs DiskLawProofs.
Import ListNotations.
Local Open Scope nat_scope.
Local Open Scope string_scope.
Local Open Scope list_scope.

(** Cards: setting one changes no other, removing needs it there, and the three flags are only added when absent. *)
Theorem C64_header : forall k v h j, get j (set k v h) = (if String.eqb k j then Some v else get j h) /\ hist (set k v h) = hist h /\ comm (set k v h) = comm h
  /\ (NoDup (map fst (cards h)) -> NoDup (map fst (cards (set k v h))) /\ forall h1, del k h = Ok h1 -> NoDup (map fst (cards h1)) /\ get j h1 = (if String.eqb k j then None else get j h) /\ hist h1 = hist h /\ comm h1 = comm h)
  /\ ((exists h1, del k h = Ok h1) <-> get k h <> None) /\ (forall e, del k h = Raise e -> e = KeyError)
  /\ get j (stamped h) = match get j h with Some w => Some w | None => if existsb (String.eqb j) ["DESMEAR"; "CTI_CORR"; "IS_BAD"] then Some (HB false) else None end.
Proof. exact (header_laws). Qed.
Print Assumptions C64_header.
(** Cards keep their order; a new one comes last. *)
Theorem C64_order : forall k v h, map fst (cards (set k v h)) = map fst (cards h) ++ (if in_dec string_dec k (map fst (cards h)) then [] else [k]).
Proof. exact (set_order). Qed.
Print Assumptions C64_order.
(** Removing layer cards removes those and nothing else. *)
Theorem C64_layers : forall n i h h1, 2 <= i -> i <= S n -> NoDup (map fst (cards h)) -> (cut_layers i n h h1 ->
  (forall j, i <= j <= n -> get (layer j) h <> None) /\ hist h1 = hist h /\ comm h1 = comm h /\ NoDup (map fst (cards h1)) /\ (forall j, i <= j <= n -> get (layer j) h1 = None) /\ forall k, (forall j, i <= j <= n -> k <> layer j) -> get k h1 = get k h).
Proof. exact (cut_iff). Qed.
Print Assumptions C64_layers.
(** Names of extensions in upper case, letter by letter. *)
Theorem C64_upper : forall s t, up s = t <-> Forall2 big (list_ascii_of_string s) (list_ascii_of_string t).
Proof. exact (up_iff). Qed.
Print Assumptions C64_upper.
(** Directory and name of a path; of a path made by joining. *)
Theorem C64_path : forall p d f, (dir_name p = (d, f) <-> splits p d f) /\ (no_slash f -> forall d' f', splits (path_join d f) d' f' <->
  f' = f /\ (d = EmptyString /\ d' = "." \/ d <> EmptyString /\ (d = (d' ++ "/")%string \/ (forall a, d <> (a ++ "/")%string) /\ d' = d))).
Proof. exact (path_laws). Qed.
Print Assumptions C64_path.
(** Joining a directory and any name, absolute ones included. *)
Theorem C64_join : forall d f p, path_join d f = p <->
  (exists r, f = ("/" ++ r)%string) /\ p = f
  \/ (forall r, f <> ("/" ++ r)%string) /\ (d = EmptyString \/ exists a, d = (a ++ "/")%string) /\ p = (d ++ f)%string
  \/ (forall r, f <> ("/" ++ r)%string) /\ d <> EmptyString /\ (forall a, d <> (a ++ "/")%string) /\ p = (d ++ "/" ++ f)%string.
Proof. exact (join_iff). Qed.
Print Assumptions C64_join.
(** A frame from an array: exactly when, and what it is. *)
Theorem C64_new : forall E (zero : E), forall track v now data pri ext err dq gh gd input (x : image E), new_image zero track v now data pri ext err dq gh gd input = Ok x <->
  exists p e er d, pri = Some p /\ ext = Some e /\ plain_err zero data err er /\ plain_dq zero data dq d
  /\ assembled track p (set "DRPCTIME" (HS now) (set "DRPVERSN" (HS v) e)) data er d (chosen_hdr gh None) (chosen_hdr gd None)
       (match input with Some i => i | None => [] end) ("ERR" :: "DQ" :: map h_name (match input with Some i => i | None => [] end)) "." EmptyString x.
Proof. exact (fun E zero => new_iff zero). Qed.
Print Assumptions C64_new.
(** When a frame from an array is refused, and how. *)
Theorem C64_new_refused : forall E (zero : E), forall track v now data pri ext err dq gh gd input e, new_image zero track v now data pri ext err dq gh gd input = Raise e <->
  e = ValueError /\ (pri = None \/ ext = None \/ (exists a, err = Some a /\ forall r, ~ err_for data a r) \/ exists a, dq = Some a /\ shp a <> shp data)
  \/ e = KeyError /\ pri <> None /\ ext <> None /\ (exists a, err = Some a /\ exists r, err_for data a r /\ track = false /\ 2 <= hd 0 (shp r) /\ forall h', ~ cut_layers 2 (hd 0 (shp r)) (set "EXTNAME" (HS "ERR") (chosen_hdr gh None)) h') /\ (forall a, dq = Some a -> shp a = shp data).
Proof. exact (fun E zero => new_raises zero). Qed.
Print Assumptions C64_new_refused.
(** A frame from a file: exactly when, and what it is. *)
Theorem C64_load : forall E (zero : E), forall track p (f : file E) err dq gh gd input (x : image E), load_image zero track p f err dq gh gd input = Ok x <->
  exists h l er eh l1 d dh l2 dir name, f_hdus f = h :: l /\ file_err zero (h_data h) err (map h_name l) l er eh l1 /\ file_dq zero (h_data h) dq (map h_name l) l1 d dh l2
  /\ splits p dir name /\ assembled track (f_pri f) (h_hdr h) (h_data h) er d (chosen_hdr gh eh) (chosen_hdr gd dh) (match input with Some i => i | None => l2 end) (map h_name l) dir name x.
Proof. exact (fun E zero => load_iff zero). Qed.
Print Assumptions C64_load.
(** When a file is refused, and how. *)
Theorem C64_load_refused : forall E (zero : E), forall track p (f : file E), ((exists x, load_image zero track p f None None None None None = Ok x) <->
  exists h l er eh l1, f_hdus f = h :: l /\ file_err zero (h_data h) None (map h_name l) l er eh l1 /\ (track = true \/ hd 0 (shp er) <= 1 \/ exists h', cut_layers 2 (hd 0 (shp er)) (set "EXTNAME" (HS "ERR") (chosen_hdr None eh)) h'))
  /\ forall e, load_image zero track p f None None None None None = Raise e -> e = if (match f_hdus f with [] => true | _ => false end) then IndexError else KeyError.
Proof. exact (fun E zero => load_plain zero). Qed.
Print Assumptions C64_load_refused.
(** Every frame made satisfies the invariant. *)
Theorem C64_new_ready : forall E (zero : E), forall track v now data pri ext err dq gh gd input (x : image E), new_image zero track v now data pri ext err dq gh gd input = Ok x -> ready track x.
Proof. exact (fun E zero => new_ready zero). Qed.
Print Assumptions C64_new_ready.
(** Every frame read satisfies the invariant. *)
Theorem C64_load_ready : forall E (zero : E), forall track p (f : file E) err dq gh gd input (x : image E), load_image zero track p f err dq gh gd input = Ok x -> ready track x.
Proof. exact (fun E zero => load_ready zero). Qed.
Print Assumptions C64_load_ready.
(** Adding an extension keeps it. *)
Theorem C64_extend_ready : forall E, forall track name data header (x y : image E), ready track x -> add_extension name data header x = Ok y -> ready track y.
Proof. exact (fun E => @extend_ready E). Qed.
Print Assumptions C64_extend_ready.
(** Saving: what is written and where, and what becomes of the frame. *)
Theorem C64_save : forall E, forall dir name (x y : image E) r, save_image dir name x = (y, r) <->
  same_content y x /\ i_names y = i_names x /\ i_dir y = match dir with Some d => d | None => i_dir x end /\ i_file y = match name with Some n => n | None => i_file x end
  /\ (i_file y = EmptyString /\ r = Raise ValueError
      \/ i_file y <> EmptyString /\ exists f, r = Ok (path_join (i_dir y) (i_file y), f) /\ f_pri f = i_pri x /\ map h_hdr (f_hdus f) = i_ext x :: i_errh x :: i_dqh x :: map h_hdr (i_list x) /\ map h_data (f_hdus f) = i_data x :: i_err x :: i_dq x :: map h_data (i_list x)).
Proof. exact (fun E => @save_iff E). Qed.
Print Assumptions C64_save.
(** What is saved is read back equal: headers, arrays, layers, quality, extensions. *)
Theorem C64_round_trip : forall E (zero : E), forall track dir name (x y : image E) p f, ready track x -> save_image dir name x = (y, Ok (p, f)) ->
  exists z, load_image zero track p f None None None None None = Ok z /\ same_content z x /\ i_names z = "ERR" :: "DQ" :: map h_name (i_list x) /\ splits p (i_dir z) (i_file z).
Proof. exact (fun E zero => round_trip zero). Qed.
Print Assumptions C64_round_trip.
(** A saved frame read under any setting: exactly when, and what it is. *)
Theorem C64_reload : forall E (zero : E), forall t track (x : image E) p (z : image E), ready t x -> (load_image zero track p (written x) None None None None None = Ok z <->
  exists h', kept track (i_err x) (i_errh x) (i_err z) h' /\ i_errh z = set "TRK_ERRS" (HB track) h'
  /\ i_pri z = i_pri x /\ i_ext z = i_ext x /\ i_data z = i_data x /\ i_dq z = i_dq x /\ i_dqh z = i_dqh x /\ i_list z = i_list x
  /\ i_names z = "ERR" :: "DQ" :: map h_name (i_list x) /\ splits p (i_dir z) (i_file z)).
Proof. exact (fun E zero => reload_iff zero). Qed.
Print Assumptions C64_reload.
(** Load, save, load: nothing changes any more, and a second save writes the same file. *)
Theorem C64_load_twice : forall E (zero : E), forall track p (f : file E) (x : image E) dir name y p1 f1, load_image zero track p f None None None None None = Ok x -> save_image dir name x = (y, Ok (p1, f1)) ->
  exists z, load_image zero track p1 f1 None None None None None = Ok z /\ same_content z x /\ forall dir2 name2 y2 p2 f2, save_image dir2 name2 z = (y2, Ok (p2, f2)) -> f2 = f1.
Proof. exact (fun E zero => load_twice zero). Qed.
Print Assumptions C64_load_twice.
(** Where a file that was read is written again: over itself exactly when the path has a directory other than the root. *)
Theorem C64_same_place : forall E (zero : E), forall track p (f : file E) err dq gh gd input (x y : image E) p1 f1, load_image zero track p f err dq gh gd input = Ok x -> save_image None None x = (y, Ok (p1, f1)) ->
  exists d n, splits p d n /\ (p1 = p <-> (exists a b, p = (a ++ "/" ++ b)%string) /\ d <> EmptyString /\ forall a, d <> (a ++ "/")%string) /\ (no_slash p -> p1 = ("./" ++ p)%string) /\ (d = EmptyString -> p1 = n).
Proof. exact (fun E zero => same_place zero). Qed.
Print Assumptions C64_same_place.
(** Saved without individual errors, read with them on: only the flag changes. *)
Theorem C64_track_on : forall E (zero : E), forall (x : image E) p, ready false x -> exists z, load_image zero true p (written x) None None None None None = Ok z
  /\ i_pri z = i_pri x /\ i_ext z = i_ext x /\ i_data z = i_data x /\ i_err z = i_err x /\ i_dq z = i_dq x /\ i_dqh z = i_dqh x /\ i_list z = i_list x /\ i_errh z = set "TRK_ERRS" (HB true) (i_errh x).
Proof. exact (fun E zero => cross_on zero). Qed.
Print Assumptions C64_track_on.
(** Saved with individual errors, read with them off: the combined error is kept, the layers and their cards go. *)
Theorem C64_track_off : forall E (zero : E), forall (x : image E) p n t, ready true x -> shp (i_err x) = n :: t -> 2 <= n -> NoDup (map fst (cards (i_errh x))) ->
  ((exists z, load_image zero false p (written x) None None None None None = Ok z) <-> forall i, 2 <= i <= n -> get (layer i) (i_errh x) <> None)
  /\ forall z, load_image zero false p (written x) None None None None None = Ok z ->
     i_pri z = i_pri x /\ i_ext z = i_ext x /\ i_data z = i_data x /\ i_dq z = i_dq x /\ i_dqh z = i_dqh x /\ i_list z = i_list x
     /\ shp (i_err z) = 1 :: t /\ vals (i_err z) = firstn (fold_right Nat.mul 1 t) (vals (i_err x)) /\ hist (i_errh z) = hist (i_errh x) /\ comm (i_errh z) = comm (i_errh x)
     /\ get "TRK_ERRS" (i_errh z) = Some (HB false) /\ (forall i, 2 <= i <= n -> get (layer i) (i_errh z) = None) /\ forall k, k <> "TRK_ERRS" -> (forall i, 2 <= i <= n -> k <> layer i) -> get k (i_errh z) = get k (i_errh x).
Proof. exact (fun E zero => cross_off zero). Qed.
Print Assumptions C64_track_off.
(** Adding an extension: exactly when, and nothing else changes. *)
Theorem C64_extend : forall E, forall name data header (x y : image E), add_extension name data header x = Ok y <->
  ~ In name (i_names x) /\ i_pri y = i_pri x /\ i_ext y = i_ext x /\ i_data y = i_data x /\ i_err y = i_err x /\ i_errh y = i_errh x /\ i_dq y = i_dq x /\ i_dqh y = i_dqh x /\ i_dir y = i_dir x /\ i_file y = i_file x
  /\ i_names y = i_names x ++ [name] /\ exists h, i_list y = i_list x ++ [mkhdu h data] /\ get "EXTNAME" h = Some (HS (up name)) /\ h = set "EXTNAME" (HS (up name)) (match header with Some g => g | None => blank end).
Proof. exact (fun E => @extend_iff E). Qed.
Print Assumptions C64_extend.
(** A name known is refused. *)
Theorem C64_extend_refused : forall E, forall name data header (x : image E) e, add_extension name data header x = Raise e <-> In name (i_names x) /\ e = ValueError.
Proof. exact (fun E => @extend_raises E). Qed.
Print Assumptions C64_extend_refused.
(** The extension comes back last, under its name in upper case. *)
Theorem C64_extend_round : forall E (zero : E), forall track name data header (x y y2 : image E) dir fname p f, ready track x -> add_extension name data header x = Ok y -> save_image dir fname y = (y2, Ok (p, f)) ->
  exists z h, load_image zero track p f None None None None None = Ok z /\ i_list z = i_list x ++ [h] /\ h_data h = data /\ h_name h = up name /\ i_names z = "ERR" :: "DQ" :: map h_name (i_list x) ++ [up name]
  /\ forall other d hd, up other = up name -> (other = up name -> add_extension other d hd z = Raise ValueError) /\ (other <> up name -> (forall h0, In h0 (i_list x) -> h_name h0 <> other) -> other <> "ERR" -> other <> "DQ" -> exists z2, add_extension other d hd z = Ok z2).
Proof. exact (fun E zero => extend_round zero). Qed.
Print Assumptions C64_extend_round.

(** A frame of 1 x 2 pixels with two layers of error, as in a file. *)
Definition dk_ext : hdr := mkh [("EXPTIME", HQ (3 # 2)); ("DESMEAR", HB true)] ["made"] [].
Definition dk_errh : hdr := mkh [("EXTNAME", HS "ERR"); ("LAYER_1", HS "combined_error"); ("LAYER_2", HS "read")] [] [].
Definition dk_file : file Z := mkfile (mkh [("VISITID", HS "7")] [] []) [mkhdu dk_ext (mka [1; 2] [5; 6]%Z); mkhdu (mkh [("EXTNAME", HS "NOISE")] [] []) (mka [1] [9]%Z); mkhdu dk_errh (mka [2; 1; 2] [1; 2; 3; 4]%Z); mkhdu (mkh [("EXTNAME", HS "DQ")] [] []) (mka [1; 2] [0; 8]%Z)].
Definition dk_load (track : bool) (p : string) (f : file Z) := load_image 0%Z track p f None None None None None.
Definition dk_img (r : result (image Z)) : image Z := match r with Ok x => x | Raise _ => mkim blank blank (mka [] []) (mka [] []) blank (mka [] []) blank [] [] "" "" end.
Definition dk_x : image Z := dk_img (dk_load true "/in/a.fits" dk_file).
Definition dk_saved (r : image Z * result (string * file Z)) : string * file Z := match snd r with Ok w => w | Raise _ => ("", mkfile blank []) end.
Example C64_load_example : dk_load true "/in/a.fits" dk_file = Ok dk_x /\ i_dir dk_x = "/in" /\ i_file dk_x = "a.fits" /\ i_err dk_x = mka [2; 1; 2] [1; 2; 3; 4]%Z /\ i_dq dk_x = mka [1; 2] [0; 8]%Z
  /\ map h_name (i_list dk_x) = ["NOISE"] /\ get "DESMEAR" (i_ext dk_x) = Some (HB true) /\ get "IS_BAD" (i_ext dk_x) = Some (HB false) /\ get "TRK_ERRS" (i_errh dk_x) = Some (HB true) /\ ready true dk_x.
Proof. repeat split; try (vm_compute; reflexivity); try (vm_compute; discriminate). Qed.
(** The hypotheses of the round trip, of reading again and of both settings are met by this frame. *)
Example C64_round_example : exists z, dk_load true "/out/b.fits" (snd (dk_saved (save_image (Some "/out") (Some "b.fits") dk_x))) = Ok z /\ fst (dk_saved (save_image (Some "/out") (Some "b.fits") dk_x)) = "/out/b.fits" /\ same_content z dk_x /\ i_dir z = "/out" /\ i_file z = "b.fits".
Proof. exists (dk_img (dk_load true "/out/b.fits" (written dk_x))). repeat split; vm_compute; reflexivity. Qed.
Example C64_off_example : exists z, dk_load false "/out/b.fits" (written dk_x) = Ok z /\ NoDup (map fst (cards (i_errh dk_x))) /\ i_err z = mka [1; 1; 2] [1; 2]%Z /\ get "LAYER_2" (i_errh z) = None /\ get "LAYER_1" (i_errh z) = Some (HS "combined_error") /\ get "TRK_ERRS" (i_errh z) = Some (HB false)
  /\ exists z2, dk_load true "c.fits" (written z) = Ok z2 /\ i_err z2 = i_err z /\ i_dir z2 = ".".
Proof.
  exists (dk_img (dk_load false "/out/b.fits" (written dk_x))). repeat split; try (vm_compute; reflexivity).
  - vm_compute. repeat (constructor; [intros H; repeat destruct H as [H|H]; try discriminate; destruct H|]). constructor.
  - exists (dk_img (dk_load true "c.fits" (written (dk_img (dk_load false "/out/b.fits" (written dk_x)))))). repeat split; vm_compute; reflexivity.
Qed.
Example C64_new_example : exists x, new_image 0%Z false "1.0" "2025-01-01" (mka [1; 2] [5; 6]%Z) (Some blank) (Some dk_ext) (Some (mka [2; 1; 2] [1; 2; 3; 4]%Z)) None (Some dk_errh) None None = Ok x
  /\ i_err x = mka [1; 1; 2] [1; 2]%Z /\ i_dq x = mka [1; 2] [0; 0]%Z /\ get "DRPVERSN" (i_ext x) = Some (HS "1.0") /\ snd (save_image None None x) = Raise ValueError.
Proof. exists (dk_img (new_image 0%Z false "1.0" "2025-01-01" (mka [1; 2] [5; 6]%Z) (Some blank) (Some dk_ext) (Some (mka [2; 1; 2] [1; 2; 3; 4]%Z)) None (Some dk_errh) None None)). repeat split; vm_compute; reflexivity. Qed.
Example C64_extend_example : exists y, add_extension "Bias" (mka [2] [1; 1]%Z) None dk_x = Ok y /\ map h_name (i_list y) = ["NOISE"; "BIAS"] /\ i_names y = ["NOISE"; "ERR"; "DQ"; "Bias"] /\ i_names (dk_img (dk_load true "b.fits" (written y))) = ["ERR"; "DQ"; "NOISE"; "BIAS"] /\ add_extension "NOISE" (mka [2] [1; 1]%Z) None dk_x = Raise ValueError.
Proof. exists (dk_img (add_extension "Bias" (mka [2] [1; 1]%Z) None dk_x)). repeat split; vm_compute; reflexivity. Qed.
(** A file in the root directory, saved again without arguments, goes into the working directory. *)
Theorem C64_root_refuted : exists x, dk_load true "/a.fits" dk_file = Ok x /\ fst (dk_saved (save_image None None x)) = "a.fits".
Proof. exists (dk_img (dk_load true "/a.fits" dk_file)). split; vm_compute; reflexivity. Qed.
Print Assumptions C64_root_refuted.
(** Two extensions whose names differ in case are both accepted, and stored under one name. *)
Theorem C64_case_refuted : exists y z, add_extension "Bias" (mka [2] [1; 1]%Z) None dk_x = Ok y /\ add_extension "bias" (mka [2] [2; 2]%Z) None y = Ok z /\ map h_name (i_list z) = ["NOISE"; "BIAS"; "BIAS"].
Proof. exists (dk_img (add_extension "Bias" (mka [2] [1; 1]%Z) None dk_x)), (dk_img (add_extension "bias" (mka [2] [2; 2]%Z) None (dk_img (add_extension "Bias" (mka [2] [1; 1]%Z) None dk_x)))). repeat split; vm_compute; reflexivity. Qed.
Print Assumptions C64_case_refuted.
(** The error and quality arrays of a file may have any shape: only arrays given as arguments are checked. *)
Theorem C64_shape_refuted : exists f x, dk_load true "a.fits" f = Ok x /\ shp (i_data x) = [1; 2] /\ shp (i_err x) = [3; 3; 3] /\ shp (i_dq x) = [4].
Proof. exists (mkfile blank [mkhdu blank (mka [1; 2] [5; 6]%Z); mkhdu dk_errh (mka [3; 3; 3] (repeat 0%Z 27)); mkhdu (mkh [("EXTNAME", HS "DQ")] [] []) (mka [4] [0; 0; 0; 0]%Z)]). eexists. split; [reflexivity|]. repeat split. Qed.
Print Assumptions C64_shape_refuted.
(** An error array given with more axes than layers and pixels is accepted, and gets one axis more. *)
Theorem C64_axes_refuted : exists x, new_image 0%Z true "1.0" "now" (mka [1; 2] [5; 6]%Z) (Some blank) (Some blank) (Some (mka [2; 2; 1; 2] (repeat 1%Z 8))) None None None None = Ok x /\ shp (i_err x) = [1; 2; 2; 1; 2].
Proof. eexists. split; [reflexivity|reflexivity]. Qed.
Print Assumptions C64_axes_refuted.
(** Several layers of error without their cards: with individual errors off, the frame cannot be made. *)
Theorem C64_cards_refuted : new_image 0%Z false "1.0" "now" (mka [1; 2] [5; 6]%Z) (Some blank) (Some blank) (Some (mka [2; 1; 2] [1; 2; 3; 4]%Z)) None None None None = Raise KeyError
  /\ exists x, new_image 0%Z true "1.0" "now" (mka [1; 2] [5; 6]%Z) (Some blank) (Some blank) (Some (mka [2; 1; 2] [1; 2; 3; 4]%Z)) None None None None = Ok x /\ dk_load false "a.fits" (written x) = Raise KeyError.
Proof. split; [vm_compute; reflexivity|]. exists (dk_img (new_image 0%Z true "1.0" "now" (mka [1; 2] [5; 6]%Z) (Some blank) (Some blank) (Some (mka [2; 1; 2] [1; 2; 3; 4]%Z)) None None None None)). split; vm_compute; reflexivity. Qed.
Print Assumptions C64_cards_refuted.
(** The presence of ERR is asked with its case, the extension is taken in any case: another extension can be taken for the error. *)
Theorem C64_err_case_refuted : exists f x, f_hdus f = [mkhdu blank (mka [1] [5]%Z); mkhdu (mkh [("EXTNAME", HS "err")] [] []) (mka [1; 1] [7]%Z); mkhdu dk_errh (mka [1; 1] [1]%Z)] /\ dk_load true "a.fits" f = Ok x /\ vals (i_err x) = [7]%Z /\ map h_name (i_list x) = ["ERR"].
Proof. exists (mkfile blank [mkhdu blank (mka [1] [5]%Z); mkhdu (mkh [("EXTNAME", HS "err")] [] []) (mka [1; 1] [7]%Z); mkhdu dk_errh (mka [1; 1] [1]%Z)]). eexists. split; [reflexivity|]. split; [reflexivity|]. split; reflexivity. Qed.
Print Assumptions C64_err_case_refuted.
