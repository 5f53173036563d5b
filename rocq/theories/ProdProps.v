(** C65: calibration products. *)
From Coq Require Import List Arith Bool String Ascii ZArith QArith.
From Verif Require Import Base DiskModel DiskSpec ProdModel ProdSpec ProdTextProofs ProdProofs ProdLawProofs ProdNewProofs ProdParsProofs.
Import ListNotations.
Local Open Scope nat_scope.
Local Open Scope string_scope.
Local Open Scope list_scope.

(** Level tags replaced: all of them, from the left, and nothing else. *)
Theorem C65_tag : forall rep s t, sub_tag rep s = t <-> swapped tag rep s t.
Proof. exact (sub_tag_iff). Qed.
Print Assumptions C65_tag.
(** A name with one tag: the tag is replaced. *)
Theorem C65_one_tag : forall rep a d c b, In d (list_ascii_of_string "0123456789") -> c <> "010"%char -> ~ occurs tag (a ++ "_L") -> ~ occurs tag b -> swapped tag rep (a ++ String "_" (String "L" (String d (String c b)))) (a ++ rep ++ b).
Proof. exact (one_tag). Qed.
Print Assumptions C65_one_tag.
(** Words replaced. *)
Theorem C65_replace : forall p rep s t, p <> EmptyString -> (replace p rep s = t <-> swapped (eq p) rep s t).
Proof. exact (replace_iff). Qed.
Print Assumptions C65_replace.
(** The text before the first suffix. *)
Theorem C65_before : forall p s a, p <> EmptyString -> (before p s = a <-> upto p s a).
Proof. exact (before_iff). Qed.
Print Assumptions C65_before.
(** A word occurs. *)
Theorem C65_inside : forall p s, p <> EmptyString -> (inside p s = true <-> occurs (eq p) s).
Proof. exact (inside_iff). Qed.
Print Assumptions C65_inside.
(** A product from a file: exactly when, and what it is. *)
Theorem C65_load : forall E (zero : E) (is_nan : E -> bool), forall track c p (f : file E) y, load_as zero is_nan track c p f = Ok y <->
  exists x, load_image zero track p f None None None None None = Ok x /\ fits is_nan c x /\ labelled c x /\ loaded c f x y.
Proof. exact (fun E zero is_nan => @load_as_iff E zero is_nan). Qed.
Print Assumptions C65_load.
(** A file is a product of at most one class. *)
Theorem C65_exclusive : forall E (zero : E) (is_nan : E -> bool), forall track c c' p (f : file E) y y', load_as zero is_nan track c p f = Ok y -> load_as zero is_nan track c' p f = Ok y' -> c <> CImage -> c' <> CImage -> c = c'.
Proof. exact (fun E zero is_nan => @exclusive E zero is_nan). Qed.
Print Assumptions C65_exclusive.
(** With the right format, the label decides. *)
Theorem C65_refused : forall E (zero : E) (is_nan : E -> bool), forall track c p (f : file E) x, load_image zero track p f None None None None None = Ok x -> fits is_nan c x -> (c = CKGain -> 3 <= List.length (f_hdus f)) ->
  (exists y, load_as zero is_nan track c p f = Ok y) /\ labelled c x \/ load_as zero is_nan track c p f = Raise ValueError /\ ~ labelled c x.
Proof. exact (fun E zero is_nan => @refused E zero is_nan). Qed.
Print Assumptions C65_refused.
(** The class is found from the label. *)
Theorem C65_autoload : forall E (zero : E) (is_nan : E -> bool), forall track p (f : file E) y, autoload zero is_nan track p f = Ok y <->
  exists h t c, f_hdus f = h :: t /\ taken c h /\ load_as zero is_nan track c p f = Ok y.
Proof. exact (fun E zero is_nan => @autoload_iff E zero is_nan). Qed.
Print Assumptions C65_autoload.
(** When no class is found, and how that ends. *)
Theorem C65_autoload_refused : forall E (zero : E) (is_nan : E -> bool), forall track p (f : file E),
  (f_hdus f = [] -> autoload zero is_nan track p f = Raise IndexError)
  /\ (forall h t, f_hdus f = h :: t -> get "DATATYPE" (h_hdr h) = None -> List.length (shp (h_data h)) <> 2 -> autoload zero is_nan track p f = Raise UnboundLocalError)
  /\ (forall h t, f_hdus f = h :: t -> get "DATATYPE" (h_hdr h) <> None -> (forall c, get "DATATYPE" (h_hdr h) <> Some (HS (match c with CNd => "NDFilterSweetSpot" | _ => named c end))) -> autoload zero is_nan track p f = Raise KeyError)
  /\ (forall h t c, f_hdus f = h :: t -> taken c h -> autoload zero is_nan track p f = load_as zero is_nan track c p f).
Proof. exact (fun E zero is_nan => @autoload_raises E zero is_nan). Qed.
Print Assumptions C65_autoload_refused.
(** A neutral density product is never found. *)
Theorem C65_autoload_nd : forall E (zero : E) (is_nan : E -> bool), forall track p (f : file E) y, autoload zero is_nan track p f = Ok y -> p_cls y <> CNd.
Proof. exact (fun E zero is_nan => @nd_never E zero is_nan). Qed.
Print Assumptions C65_autoload_nd.
(** Every product read satisfies the invariant. *)
Theorem C65_loaded : forall E (zero : E) (is_nan : E -> bool), forall track c p (f : file E) y, load_as zero is_nan track c p f = Ok y -> p_cls y = c /\ sound is_nan track y.
Proof. exact (fun E zero is_nan => @loaded_sound E zero is_nan). Qed.
Print Assumptions C65_loaded.
(** Saving fails exactly without a name. *)
Theorem C65_save_refused : forall E, forall dir name (y y' : prod E) e, save_prod dir name y = (y', Raise e) <-> e = ValueError /\ (match name with Some n => n | None => i_file (p_img y) end) = EmptyString /\ p_cls y' = p_cls y /\ p_more y' = p_more y /\ p_img y' = place dir name (p_img y).
Proof. exact (fun E => @save_prod_raises E). Qed.
Print Assumptions C65_save_refused.
(** What is saved is read back as the same product, by its class and from its label, and by no other class. *)
Theorem C65_round_trip : forall E (zero : E) (is_nan : E -> bool), forall track dir name (y y' : prod E) p f, sound is_nan track y -> save_prod dir name y = (y', Ok (p, f)) ->
  exists z, load_as zero is_nan track (p_cls y) p f = Ok z /\ came_back zero y z /\ sound is_nan track z /\ splits p (i_dir (p_img z)) (i_file (p_img z))
  /\ (p_cls y <> CImage -> forall c w, load_as zero is_nan track c p f = Ok w -> c = p_cls y \/ c = CImage)
  /\ (p_cls y <> CImage -> p_cls y <> CNd -> autoload zero is_nan track p f = Ok z)
  /\ (p_cls y = CNd -> autoload zero is_nan track p f = Raise KeyError).
Proof. exact (fun E zero is_nan => @prod_round E zero is_nan). Qed.
Print Assumptions C65_round_trip.
(** Load, save, load. *)
Theorem C65_read_again : forall E (zero : E) (is_nan : E -> bool), forall track c p (f : file E) y dir name y' p' f', load_as zero is_nan track c p f = Ok y -> save_prod dir name y = (y', Ok (p', f')) ->
  exists z, load_as zero is_nan track c p' f' = Ok z /\ came_back zero y z.
Proof. exact (fun E zero is_nan => @read_again E zero is_nan). Qed.
Print Assumptions C65_read_again.
(** A product made: what it is. *)
Theorem C65_make : forall E (zero : E) (is_nan : E -> bool) (show : hv -> string) (order : list string -> list string), (forall l, NoDup (order l) /\ forall s, In s (order l) <-> In s l) -> forall track v now c data pri ext (a : args E) y, c <> CImage -> new_as zero is_nan show order track v now c data pri ext a = Ok y ->
  exists x, new_image zero track v now data pri ext (err_arg c a) (dq_arg c a) (errh_arg c a) (dqh_arg c a) (hdus_arg c a) = Ok x /\ fits is_nan c x /\ sourced c a (i_ext x) /\ made show c a x y.
Proof. exact (fun E zero is_nan show order ORDER => @new_as_ok E zero is_nan show order ORDER). Qed.
Print Assumptions C65_make.
(** When a product can be made. *)
Theorem C65_make_can : forall E (zero : E) (is_nan : E -> bool) (show : hv -> string) (order : list string -> list string), (forall l, NoDup (order l) /\ forall s, In s (order l) <-> In s l) -> forall track v now c data pri ext (a : args E) x, new_image zero track v now data pri ext (err_arg c a) (dq_arg c a) (errh_arg c a) (dqh_arg c a) (hdus_arg c a) = Ok x -> fits is_nan c x -> sourced c a (i_ext x) ->
  exists y, new_as zero is_nan show order track v now c data pri ext a = Ok y.
Proof. exact (fun E zero is_nan show order ORDER => @new_as_can E zero is_nan show order ORDER). Qed.
Print Assumptions C65_make_can.
(** Every product made satisfies the invariant. *)
Theorem C65_made : forall E (zero : E) (is_nan : E -> bool) (show : hv -> string) (order : list string -> list string), (forall l, NoDup (order l) /\ forall s, In s (order l) <-> In s l) -> forall track v now c data pri ext (a : args E) y, new_as zero is_nan show order track v now c data pri ext a = Ok y -> p_cls y = c /\ sound is_nan track y.
Proof. exact (fun E zero is_nan show order ORDER => @new_sound E zero is_nan show order ORDER). Qed.
Print Assumptions C65_made.
(** Detector parameters from any dictionary. *)
Theorem C65_params : forall E (zero : E) (show : hv -> string), forall version now valid d, NoDup (map fst d) -> exists y, new_params zero show version now valid d = Ok y /\ params_made zero show version now valid d y.
Proof. exact (fun E zero show => @params_ok E zero show). Qed.
Print Assumptions C65_params.
(** They come back from disk. *)
Theorem C65_params_round : forall E (zero : E) (is_nan : E -> bool) (show : hv -> string), forall track version now valid d dir name (y y' : prod E) p f, NoDup (map fst d) -> new_params zero show version now valid d = Ok y -> save_prod dir name y = (y', Ok (p, f)) ->
  exists z, load_as zero is_nan track CParams p f = Ok z /\ autoload zero is_nan track p f = Ok z /\ came_bare zero y z /\ sound is_nan track z /\ splits p (i_dir (p_img z)) (i_file (p_img z)).
Proof. exact (fun E zero is_nan show => @params_round E zero is_nan show). Qed.
Print Assumptions C65_params_round.
(** Matrices: accepted exactly with shape 2 x 2 x 2, the default for an empty array. *)
Theorem C65_fpam : forall E (show : hv -> string), forall times0 (default : arr E) version now valid (data : arr E),
  (shp data = [] -> new_fpam show times0 default version now valid data = Raise TypeError)
  /\ forall n r m, shp data = n :: r -> m = (if Nat.eqb n 0 then default else data) ->
     (shp m = [2; 2; 2] -> exists y, new_fpam show times0 default version now valid data = Ok y /\ fpam_made times0 show version now valid m y)
     /\ (shp m <> [2; 2; 2] -> new_fpam show times0 default version now valid data = Raise ValueError).
Proof. exact (fun E show => @fpam_ok E show). Qed.
Print Assumptions C65_fpam.
(** They come back from disk. *)
Theorem C65_fpam_round : forall E (zero : E) (is_nan : E -> bool) (show : hv -> string), forall track times0 (default data : arr E) version now valid dir name (y y' : prod E) p f, new_fpam show times0 default version now valid data = Ok y -> save_prod dir name y = (y', Ok (p, f)) ->
  exists z, load_as zero is_nan track CFpam p f = Ok z /\ autoload zero is_nan track p f = Ok z /\ came_bare zero y z /\ sound is_nan track z /\ splits p (i_dir (p_img z)) (i_file (p_img z)).
Proof. exact (fun E zero is_nan show => @fpam_round E zero is_nan show). Qed.
Print Assumptions C65_fpam_round.

(** A flat field made from two frames, saved and read. *)
Definition pd_ord (l : list string) : list string := nodup string_dec l.
Lemma pd_ord_ok : forall l, NoDup (pd_ord l) /\ forall s, In s (pd_ord l) <-> In s l.
Proof. intros l. split; [apply NoDup_nodup|]. intros s. apply nodup_In. Qed.
Definition pd_show (v : hv) : string := match v with HS s => s | HZ z => decimal (Z.to_nat z) | _ => "x" end.
Definition pd_nan (z : Z) : bool := Z.eqb z (-1)%Z.
Definition pd_e (l : list (string * hv)) : hdr := mkh l [] [].
Definition pd_in : list parent := [mkpar "/in_a_L2b.fits" (pd_e [("DRPNFILE", HZ 2); ("FILE0", HS "r1"); ("FILE1", HS "r2")]); mkpar "b_L2b.fits" (pd_e [])].
Definition pd_args (i : option (list parent)) : args Z := mkargs None None None None None None None i.
Definition pd_new (c : cls) (data : arr Z) (ext : hdr) (a : args Z) : result (prod Z) := new_as 0%Z pd_nan pd_show pd_ord true "1.0" "now" c data (Some (pd_e [("VISITID", HS "7")])) (Some ext) a.
Definition pd_p (r : result (prod Z)) : prod Z := match r with Ok y => y | Raise _ => mkp CImage (mkim blank blank (mka [] []) (mka [] []) blank (mka [] []) blank [] [] "" "") MNone end.
Definition pd_x (r : result (image Z)) : image Z := match r with Ok y => y | Raise _ => mkim blank blank (mka [] []) (mka [] []) blank (mka [] []) blank [] [] "" "" end.
Definition pd_file (y : prod Z) : string * file Z := match snd (save_prod None None y) with Ok w => w | Raise _ => ("", mkfile blank []) end.
Definition pd_load (c : cls) (y : prod Z) : result (prod Z) := load_as 0%Z pd_nan true c (fst (pd_file y)) (snd (pd_file y)).
Definition pd_auto (y : prod Z) : result (prod Z) := autoload 0%Z pd_nan true (fst (pd_file y)) (snd (pd_file y)).
Definition pd_flat : result (prod Z) := pd_new CFlat (mka [1; 2] [5; 6]%Z) (pd_e [("EXPTIME", HZ 4)]) (pd_args (Some pd_in)).
Example C65_flat_example : exists y, pd_flat = Ok y /\ i_file (p_img y) = "b_FLT_CAL.fits" /\ get "DRPNFILE" (i_ext (p_img y)) = Some (HZ 4) /\ get "FILE1" (i_ext (p_img y)) = Some (HS "r1") /\ get "FILE3" (i_ext (p_img y)) = Some (HS "b_L2b.fits")
  /\ hist (i_ext (p_img y)) = ["Flat with exptime = 4 s created from 4 frames"] /\ get "DATATYPE" (i_ext (p_img y)) = Some (HS "FlatField")
  /\ exists z, pd_load CFlat y = Ok z /\ pd_auto y = Ok z /\ i_ext (p_img z) = i_ext (p_img y) /\ i_data (p_img z) = mka [1; 2] [5; 6]%Z /\ pd_load CDark y = Raise ValueError.
Proof. exists (pd_p pd_flat). split; [vm_compute; reflexivity|]. repeat (split; [vm_compute; reflexivity|]). exists (pd_p (pd_load CFlat (pd_p pd_flat))). repeat (split; [vm_compute; reflexivity|]). vm_compute; reflexivity. Qed.
(** The hypotheses of C65_make_can are met. *)
Example C65_can_example : exists x, new_image 0%Z true "1.0" "now" (mka [1; 2] [5; 6]%Z) (Some (pd_e [("VISITID", HS "7")])) (Some (pd_e [("EXPTIME", HZ 4)])) None None None None None = Ok x /\ fits pd_nan CFlat x /\ sourced CFlat (pd_args (Some pd_in)) (i_ext x) /\ made pd_show CFlat (pd_args (Some pd_in)) x (pd_p pd_flat).
Proof.
  assert (Q : new_as 0%Z pd_nan pd_show pd_ord true "1.0" "now" CFlat (mka [1; 2] [5; 6]%Z) (Some (pd_e [("VISITID", HS "7")])) (Some (pd_e [("EXPTIME", HZ 4)])) (pd_args (Some pd_in)) = Ok (pd_p pd_flat)) by (vm_compute; reflexivity).
  assert (NC : CFlat <> CImage) by discriminate. destruct (C65_make Z 0%Z pd_nan pd_show pd_ord pd_ord_ok _ _ _ _ _ _ _ _ _ NC Q) as (x & X & F & S & M). exists x. auto.
Qed.
Example C65_dark_example : exists y, pd_new CDark (mka [1; 2] [5; 6]%Z) (pd_e [("EXPTIME", HZ 4); ("EMGAIN_C", HZ 2); ("DRPNFILE", HZ 9)]) (pd_args None) = Ok y /\ i_file (p_img y) = "DRK_CAL.fits" /\ get "DRPNFILE" (i_ext (p_img y)) = Some (HZ 9) /\ get "PC_STAT" (i_ext (p_img y)) = Some (HS "analog master dark") /\ get "BUNIT" (i_ext (p_img y)) = Some (HS "detected electrons").
Proof. exists (pd_p (pd_new CDark (mka [1; 2] [5; 6]%Z) (pd_e [("EXPTIME", HZ 4); ("EMGAIN_C", HZ 2); ("DRPNFILE", HZ 9)]) (pd_args None))). repeat (split; [vm_compute; reflexivity|]). vm_compute; reflexivity. Qed.
Example C65_kgain_example : exists y z, pd_new CKGain (mka [1; 1] [8]%Z) (pd_e []) (mkargs (Some (mka [1; 1] [2]%Z)) None None None None (Some (mka [2; 2] [1; 2; 3; 4]%Z)) None (Some pd_in)) = Ok y /\ i_file (p_img y) = "b_KRN_CAL.fits"
  /\ get "RN" (i_ext (p_img y)) = Some (HS "") /\ pd_load CKGain y = Ok z /\ p_more z = p_more y /\ i_data (p_img z) = mka [1; 1] [8]%Z /\ i_err (p_img z) = mka [1; 1; 1] [2]%Z.
Proof. exists (pd_p (pd_new CKGain (mka [1; 1] [8]%Z) (pd_e []) (mkargs (Some (mka [1; 1] [2]%Z)) None None None None (Some (mka [2; 2] [1; 2; 3; 4]%Z)) None (Some pd_in)))). eexists. repeat (split; [vm_compute; reflexivity|]). vm_compute; reflexivity. Qed.
Example C65_params_example : exists y z, new_params 0%Z pd_show "1.0" "now" "2024" [("NEMGAIN", HZ 500); ("CMDGAIN", HZ 7)] = Ok y /\ (forall l, p_more y = MPars l -> In ("NEMGAIN", HZ 500) l /\ In ("TFACTOR", HZ 5) l) /\ get "EMGAIN_C" (i_ext (p_img y)) = Some (HZ 7)
  /\ i_file (p_img y) = "DetectorParams_2024.fits" /\ pd_load CParams y = Ok z /\ p_more z = p_more y /\ NoDup (map fst [("NEMGAIN", HZ 500); ("CMDGAIN", HZ 7)]).
Proof.
  exists (pd_p (new_params 0%Z pd_show "1.0" "now" "2024" [("NEMGAIN", HZ 500); ("CMDGAIN", HZ 7)])). eexists. split; [vm_compute; reflexivity|]. split; [intros l Q; vm_compute in Q; injection Q as <-; vm_compute; auto 20|]. repeat (split; [vm_compute; reflexivity|]).
  repeat (constructor; [cbn; intros H; repeat (destruct H as [H|H]; [discriminate|]); exact H|]). constructor.
Qed.
Example C65_fpam_example : exists y, new_fpam pd_show (Z.mul 0) (mka [2; 2; 2] (repeat 1%Z 8)) "1.0" "now" "2024" (mka [0] []) = Ok y /\ i_data (p_img y) = mka [2; 2; 2] (repeat 1%Z 8) /\ i_err (p_img y) = mka [2; 2; 2] (repeat 0%Z 8) /\ new_fpam pd_show (Z.mul 0) (mka [2; 2; 2] (repeat 1%Z 8)) "1.0" "now" "2024" (mka [2; 2] (repeat 1%Z 4)) = Raise ValueError.
Proof. exists (pd_p (new_fpam pd_show (Z.mul 0) (mka [2; 2; 2] (repeat 1%Z 8)) "1.0" "now" "2024" (mka [0] []))). repeat (split; [vm_compute; reflexivity|]). vm_compute; reflexivity. Qed.
Definition pd_nd : prod Z := pd_p (pd_new CNd (mka [1; 3] [2; 5; 6]%Z) (pd_e []) (pd_args (Some pd_in))).
(** A neutral density product is written under a label the table does not have: it cannot be loaded without naming its class. *)
Theorem C65_nd_refuted : pd_new CNd (mka [1; 3] [2; 5; 6]%Z) (pd_e []) (pd_args (Some pd_in)) = Ok pd_nd /\ pd_auto pd_nd = Raise KeyError /\ exists z, pd_load CNd pd_nd = Ok z.
Proof. split; [vm_compute; reflexivity|]. split; [vm_compute; reflexivity|]. eexists. vm_compute. reflexivity. Qed.
Print Assumptions C65_nd_refuted.
(** A file without DATATYPE whose first array is not an image ends in an unbound variable. *)
Theorem C65_untyped_refuted : autoload 0%Z pd_nan true "a.fits" (mkfile blank [mkhdu blank (mka [1; 1; 1] [3]%Z)]) = Raise UnboundLocalError.
Proof. vm_compute. reflexivity. Qed.
Print Assumptions C65_untyped_refuted.
Definition pd_bpm : prod Z := pd_p (pd_new CBpm (mka [1; 2] [0; 1]%Z) (pd_e []) (pd_args (Some pd_in))).
(** Each load of a bad pixel map adds a remark to its headers: loading and saving again and again does not settle. *)
Theorem C65_remark_refuted : pd_new CBpm (mka [1; 2] [0; 1]%Z) (pd_e []) (pd_args (Some pd_in)) = Ok pd_bpm /\ exists z w, pd_load CBpm pd_bpm = Ok z /\ pd_load CBpm z = Ok w /\ comm (i_dqh (p_img pd_bpm)) = [dq_remark] /\ comm (i_dqh (p_img z)) = [dq_remark; dq_remark] /\ comm (i_dqh (p_img w)) = [dq_remark; dq_remark; dq_remark].
Proof. split; [vm_compute; reflexivity|]. exists (pd_p (pd_load CBpm pd_bpm)), (pd_p (pd_load CBpm (pd_p (pd_load CBpm pd_bpm)))). repeat (split; [vm_compute; reflexivity|]). vm_compute; reflexivity. Qed.
Print Assumptions C65_remark_refuted.
(** The quality array of a gain is not written: a loaded one is zero. *)
Theorem C65_gain_refuted : exists y z, sound pd_nan true y /\ p_cls y = CKGain /\ i_dq (p_img y) = mka [1; 1] [4]%Z /\ pd_load CKGain y = Ok z /\ i_dq (p_img z) = mka [1; 1] [0]%Z.
Proof.
  set (f := mkfile blank [mkhdu (pd_e [("DATATYPE", HS "KGain")]) (mka [1; 1] [8]%Z); mkhdu (pd_e [("EXTNAME", HS "ERR")]) (mka [1; 1; 1] [2]%Z); mkhdu (pd_e [("EXTNAME", HS "DQ")]) (mka [1; 1] [4]%Z)]). assert (Q : load_as 0%Z pd_nan true CKGain "a.fits" f = Ok (pd_p (load_as 0%Z pd_nan true CKGain "a.fits" f))) by (vm_compute; reflexivity).
  destruct (C65_loaded _ _ _ _ _ _ _ _ Q) as (C & S). exists (pd_p (load_as 0%Z pd_nan true CKGain "a.fits" f)). eexists. split; [exact S|]. split; [exact C|]. split; [vm_compute; reflexivity|]. split; [vm_compute; reflexivity|]. vm_compute. reflexivity.
Qed.
Print Assumptions C65_gain_refuted.
(** An input without a level tag: a flat gets the name of its last input. *)
Theorem C65_same_name_refuted : exists y, pd_new CFlat (mka [1; 2] [5; 6]%Z) (pd_e [("EXPTIME", HZ 4)]) (pd_args (Some [mkpar "raw.fits" (pd_e [])])) = Ok y /\ i_file (p_img y) = "raw.fits".
Proof. exists (pd_p (pd_new CFlat (mka [1; 2] [5; 6]%Z) (pd_e [("EXPTIME", HZ 4)]) (pd_args (Some [mkpar "raw.fits" (pd_e [])])))). split; vm_compute; reflexivity. Qed.
Print Assumptions C65_same_name_refuted.
(** The tag takes one more character: after _L1 the dot of the suffix is eaten, or the underscore of the product code. *)
Theorem C65_dot_refuted : (exists y, pd_new CFlat (mka [1; 2] [5; 6]%Z) (pd_e [("EXPTIME", HZ 4)]) (pd_args (Some [mkpar "a_L1.fits" (pd_e [])])) = Ok y /\ i_file (p_img y) = "a_FLT_CALfits")
  /\ exists y, pd_new CTrap (mka [1; 2] [5; 6]%Z) (pd_e []) (pd_args (Some [mkpar "a_L1.fits" (pd_e [])])) = Ok y /\ i_file (p_img y) = "aTPU_CAL.fits".
Proof. split; [exists (pd_p (pd_new CFlat (mka [1; 2] [5; 6]%Z) (pd_e [("EXPTIME", HZ 4)]) (pd_args (Some [mkpar "a_L1.fits" (pd_e [])]))))|exists (pd_p (pd_new CTrap (mka [1; 2] [5; 6]%Z) (pd_e []) (pd_args (Some [mkpar "a_L1.fits" (pd_e [])]))))]; split; vm_compute; reflexivity. Qed.
Print Assumptions C65_dot_refuted.
(** A flux calibration and a bad pixel map without input frames, though their parents are recorded, fail with the wrong error. *)
Theorem C65_no_input_refuted : pd_new CFlux (mka [1; 1] [5]%Z) (pd_e [("FPAMNAME", HS "ND225"); ("CFAMNAME", HS "1F"); ("DRPNFILE", HZ 1); ("FILE0", HS "a")]) (pd_args None) = Raise UnboundLocalError
  /\ pd_new CBpm (mka [1; 1] [5]%Z) (pd_e [("DRPNFILE", HZ 1); ("FILE0", HS "a")]) (pd_args None) = Raise TypeError.
Proof. split; vm_compute; reflexivity. Qed.
Print Assumptions C65_no_input_refuted.
(** Every missing parameter of a file has a former keyword but one. *)
Theorem C65_overhead_refuted : exists e, In ("OVERHEAD", HZ 3, None) parameters /\ (forall k v o, In (k, v, Some o) parameters -> get o e <> None) /\ load_as 0%Z pd_nan true CParams "a.fits" (mkfile blank [mkhdu e (mka [1; 1] [0]%Z)]) = Raise KeyError.
Proof.
  exists (pd_e (("DATATYPE", HS "DetectorParams") :: flat_map (fun q => match snd q with Some o => [(o, snd (fst q))] | None => [] end) parameters)). split; [vm_compute; auto 20|]. split; [|vm_compute; reflexivity].
  intros k v o I. vm_compute in I. repeat (destruct I as [I|I]; [first [discriminate|injection I as <- <- <-; vm_compute; discriminate]|]). destruct I.
Qed.
Print Assumptions C65_overhead_refuted.
(** Detector parameters come back from disk with two extensions more than they had. *)
Theorem C65_bare_refuted : exists y z, new_params 0%Z pd_show "1.0" "now" "2024" [] = Ok y /\ pd_load CParams y = Ok z /\ List.length (i_list (p_img y)) = 0 /\ List.length (i_list (p_img z)) = 2.
Proof. exists (pd_p (new_params 0%Z pd_show "1.0" "now" "2024" [])). eexists. repeat (split; [vm_compute; reflexivity|]). vm_compute; reflexivity. Qed.
Print Assumptions C65_bare_refuted.
