(** Property theorems C30, C31 and C48. *)
From Coq Require Import List Arith Bool QArith ZArith String Reals Qreals Lia.
From Verif Require Import Base FloatModel CosmicModel DqModel GeomModel GeomSpec DarkModel DarkSpec DarkTradProofs DarkSynthProofs.
Import ListNotations.
Local Open Scope list_scope.
Local Open Scope nat_scope.

(** * C30: traditional master dark *)
Theorem C30_trad_dark : forall hidden rg a si, region_of rg "SCI" "image" a si -> fits a si -> forall lo hi t c k fs,
  fs <> [] -> Forall (fun f => has_key (k_hdr f) t c k) fs ->
  Forall (frame_shape (Z.to_nat (a_rows a)) (Z.to_nat (a_cols a))) fs ->
  Forall (image_clean si (Z.to_nat (a_rows a)) lo hi) fs ->
  exists d, build_trad_dark hidden (Some rg) (Some lo) (Some hi) true fs = Ok d
  /\ rect (dk_data d) (Z.to_nat (a_rows a)) (Z.to_nat (a_cols a)) /\ rect (dk_err d) (Z.to_nat (a_rows a)) (Z.to_nat (a_cols a))
  /\ rect (dk_dq d) (Z.to_nat (a_rows a)) (Z.to_nat (a_cols a))
  /\ (forall r c, r < Z.to_nat (a_rows a) -> c < Z.to_nat (a_cols a) -> trad_pixel fs (telem (Z.to_nat (a_rows a)) lo hi) d r c)
  /\ exists d', build_trad_dark hidden (Some rg) (Some lo) (Some hi) false fs = Ok d'
     /\ part_of (dk_data d) (s_r0 si) (s_c0 si) (s_rows si) (s_cols si) (dk_data d')
     /\ part_of (dk_err d) (s_r0 si) (s_c0 si) (s_rows si) (s_cols si) (dk_err d')
     /\ part_of (dk_dq d) (s_r0 si) (s_c0 si) (s_rows si) (s_cols si) (dk_dq d').
Proof. exact trad_spec. Qed.
Print Assumptions C30_trad_dark.

(** A telemetry row or a NaN in the image area of any frame: ValueError. *)
Theorem C30_rejects : forall hidden rg a si, region_of rg "SCI" "image" a si -> fits a si -> forall lo hi t c k fs,
  fs <> [] -> Forall (fun f => has_key (k_hdr f) t c k) fs ->
  Forall (frame_shape (Z.to_nat (a_rows a)) (Z.to_nat (a_cols a))) fs ->
  forall full f r c', In f fs -> inside si r c' -> (telem (Z.to_nat (a_rows a)) lo hi r \/ at2 (k_data f) r c' = Some NaN) ->
  build_trad_dark hidden (Some rg) (Some lo) (Some hi) full fs = Raise ValueError.
Proof. exact trad_rejects. Qed.
Print Assumptions C30_rejects.

(** Without a table the shipped one is used. *)
Theorem C30_default_table : forall hidden lo hi full fs,
  build_trad_dark hidden None lo hi full fs = build_trad_dark hidden (Some detector_areas) lo hi full fs.
Proof. reflexivity. Qed.
Print Assumptions C30_default_table.

(** The documented "half or more" is wrong at exactly half: no flag. *)
Theorem C30_half_refuted : forall hidden rg a si, region_of rg "SCI" "image" a si -> fits a si -> forall lo hi t c k fs,
  fs <> [] -> Forall (fun f => has_key (k_hdr f) t c k) fs ->
  Forall (frame_shape (Z.to_nat (a_rows a)) (Z.to_nat (a_cols a))) fs ->
  Forall (image_clean si (Z.to_nat (a_rows a)) lo hi) fs ->
  exists d, build_trad_dark hidden (Some rg) (Some lo) (Some hi) true fs = Ok d
  /\ forall r c, r < Z.to_nat (a_rows a) -> c < Z.to_nat (a_cols a) ->
       2 * List.length (good_values k_data r c fs) = List.length fs -> at2 (dk_dq d) r c = Some 0%N.
Proof. exact trad_half. Qed.
Print Assumptions C30_half_refuted.

Definition ex_area : area := mkarea 3 2 [("image"%string, sec 2 1 0 1)].
Definition ex_rg : regions := [("SCI"%string, ex_area)].
Definition ex_hdr : dkh := mkdh (mkcrh None (Some 0%Q) (Some 10%Q) None) (Some 5%Q) (Some 8%Q).
Definition ex_f (v : Q) (m : N) : dkf :=
  mkdk ex_hdr [[Fin v; Fin 2]; [Fin 3; Fin v]; [Fin v; NaN]] (repeat (repeat (Some 1%R) 2) 3) [[0%N; m]; [0%N; 0%N]; [m; 0%N]].
Example C30_example : let fs := [ex_f 1 0; ex_f 2 4] in
  region_of ex_rg "SCI" "image" ex_area (sec 2 1 0 1) /\ fits ex_area (sec 2 1 0 1)
  /\ Forall (fun f => has_key (k_hdr f) 5 10 8) fs
  /\ Forall (frame_shape 3 2) fs /\ Forall (image_clean (sec 2 1 0 1) 3 2 3) fs
  /\ good_values k_data 1 1 fs = [Fin 1; Fin 2] /\ good_values k_data 0 1 fs = [Fin 2] /\ telem 3 2 3 2
  /\ 2 * List.length (good_values k_data 0 1 fs) = List.length fs.
Proof.
  split; [split; reflexivity|]. split; [unfold fits; cbn; lia|]. split.
  { constructor; [|constructor; [|constructor]]; exists 5%Q, 10%Q, 8%Q; repeat (split; [reflexivity|]); reflexivity. }
  split; [constructor; [|constructor; [|constructor]]; (split; [|split]); (split; [reflexivity|repeat constructor])|].
  split.
  { constructor; [|constructor; [|constructor]]; intros r c H; unfold inside in H; cbn in H; (split; [unfold telem; cbn; lia|]);
      (destruct r as [|[|r]]; [| |lia]); (destruct c as [|[|c]]; [lia| |lia]); discriminate. }
  split; [reflexivity|]. split; [reflexivity|]. split; [unfold telem; cbn; lia|reflexivity].
Qed.

(** * C31: synthesized dark *)
Theorem C31_synthesized : forall rg a si, region_of rg "SCI" "image" a si -> fits a si ->
  forall F C D fe ce de fq cq dq nm t0 c k fs f0 rest, fs = f0 :: rest -> Forall (fun f => has_key (k_hdr f) t0 c k) fs ->
  forall g t, gain_is (h_cr (k_hdr f0)) g -> h_t (k_hdr f0) = Some t -> (1 <= g)%Q ->
  maps_shape (Z.to_nat (a_rows a)) (Z.to_nat (a_cols a)) nm F C D fe ce de fq cq dq ->
  (forall r c v, at2 D r c = Some v -> not_negative v) -> (forall r c v, at2 C r c = Some v -> not_negative v) ->
  exists d d', build_synthesized_dark rg nm true fs = Ok (d, g, t) /\ build_synthesized_dark rg nm false fs = Ok (d', g, t)
   /\ dark_shape (Z.to_nat (a_rows a)) (Z.to_nat (a_cols a)) d
   /\ (forall r c, r < Z.to_nat (a_rows a) -> c < Z.to_nat (a_cols a) -> synth_pixel g t F C D fe ce de fq cq dq d r c)
   /\ part_of (dk_data d) (s_r0 si) (s_c0 si) (s_rows si) (s_cols si) (dk_data d')
   /\ part_of (dk_err d) (s_r0 si) (s_c0 si) (s_rows si) (s_cols si) (dk_err d')
   /\ part_of (dk_dq d) (s_r0 si) (s_c0 si) (s_rows si) (s_cols si) (dk_dq d').
Proof. exact synth_spec. Qed.
Print Assumptions C31_synthesized.

(** Maps of another shape, negative dark current or charge, gain below 1. *)
Theorem C31_rejects : forall rg a nm full fs f0 rest F C D g t x,
  get_area rg "SCI" = Ok a -> nm_data nm = [F; C; D] -> fs = f0 :: rest -> unique_key fs = Ok x ->
  gain_is (h_cr (k_hdr f0)) g -> h_t (k_hdr f0) = Some t ->
  has_shape (a_rows a) (a_cols a) F = false \/ has_shape (a_rows a) (a_cols a) C = false \/ has_shape (a_rows a) (a_cols a) D = false
  \/ (exists r c v, at2 D r c = Some v /\ ~ not_negative v) \/ (exists r c v, at2 C r c = Some v /\ ~ not_negative v) \/ (g < 1)%Q ->
  build_synthesized_dark rg nm full fs = Raise TypeError.
Proof. exact synth_rejects. Qed.
Print Assumptions C31_rejects.

Definition ex_nm : noisemaps :=
  mknm [repeat (repeat (Fin 20) 2) 3; repeat (repeat (Fin 1) 2) 3; repeat (repeat (Fin 3) 2) 3]
       [repeat (repeat (Some 30%R) 2) 3; repeat (repeat (Some 4%R) 2) 3; repeat (repeat (Some 0%R) 2) 3]
       [repeat (repeat 1%N 2) 3; repeat (repeat 0%N 2) 3; repeat (repeat 4%N 2) 3].
Example C31_example :
  (match build_synthesized_dark ex_rg ex_nm false [ex_f 1 0] with
   | Ok (d, g, t) => (exists q, dk_data d = [[Fin q]; [Fin q]] /\ (q == 18)%Q) /\ (dk_dq d, g, t) = ([[5%N]; [5%N]], 10%Q, 5%Q)
   | Raise _ => False end)
  /\ maps_shape 3 2 ex_nm (repeat (repeat (Fin 20) 2) 3) (repeat (repeat (Fin 1) 2) 3) (repeat (repeat (Fin 3) 2) 3)
       (repeat (repeat (Some 30%R) 2) 3) (repeat (repeat (Some 4%R) 2) 3) (repeat (repeat (Some 0%R) 2) 3)
       (repeat (repeat 1%N 2) 3) (repeat (repeat 0%N 2) 3) (repeat (repeat 4%N 2) 3)
  /\ gain_is (h_cr ex_hdr) 10 /\ (1 <= 10)%Q.
Proof.
  split; [cbn; split; [eexists; split; reflexivity|reflexivity]|]. split; [unfold maps_shape, rect; cbn; repeat split; repeat constructor|].
  split; [right; split; [reflexivity|]; exists 0%Q; split; [reflexivity|right; split; [apply Qle_refl|reflexivity]]|]. discriminate.
Qed.

(** * C48: dark subtraction *)

(** A master dark is used iff it is analog and every frame has its exposure
    time, commanded gain and k gain; then it is subtracted from each frame. *)
Theorem C48_master_dark : forall rg a im pc h d fs nr nc,
  region_of (table rg) "SCI" "image" a im -> fs <> [] -> Forall (frame_shape nr nc) fs -> dark_shape nr nc d ->
  (exists out, dark_subtraction rg (ADark pc h d) fs = Ok (out, None) /\ Forall2 (subtracted nr nc d) fs out)
    /\ analog pc /\ (exists t c k, has_key h t c k /\ Forall (fun f => has_key (k_hdr f) t c k) fs)
  \/ (exists e, dark_subtraction rg (ADark pc h d) fs = Raise e)
    /\ ~ (analog pc /\ exists t c k, has_key h t c k /\ Forall (fun f => has_key (k_hdr f) t c k) fs).
Proof. exact dark_given. Qed.
Print Assumptions C48_master_dark.

Theorem C48_noise_maps : forall rg a si nm F C D fe ce de fq cq dq f0 rest t c k g t0 nr nc,
  region_of (table rg) "SCI" "image" a si -> fits a si ->
  maps_shape (Z.to_nat (a_rows a)) (Z.to_nat (a_cols a)) nm F C D fe ce de fq cq dq ->
  Forall (fun f => has_key (k_hdr f) t c k) (f0 :: rest) -> gain_is (h_cr (k_hdr f0)) g -> h_t (k_hdr f0) = Some t0 -> (1 <= g)%Q ->
  (forall r c v, at2 D r c = Some v -> not_negative v) -> (forall r c v, at2 C r c = Some v -> not_negative v) ->
  Forall (frame_shape nr nc) (f0 :: rest) ->
  (nr = Z.to_nat (a_rows a) /\ nc = Z.to_nat (a_cols a) ->
     exists d out, build_synthesized_dark (table rg) nm true (f0 :: rest) = Ok (d, g, t0)
       /\ dark_subtraction rg (AMaps nm) (f0 :: rest) = Ok (out, Some d) /\ Forall2 (subtracted nr nc d) (f0 :: rest) out)
  /\ (nr = Z.to_nat (s_rows si) /\ nc = Z.to_nat (s_cols si) -> ~ (s_rows si = a_rows a /\ s_cols si = a_cols a) ->
     exists d out, build_synthesized_dark (table rg) nm false (f0 :: rest) = Ok (d, g, t0)
       /\ dark_subtraction rg (AMaps nm) (f0 :: rest) = Ok (out, Some d) /\ Forall2 (subtracted nr nc d) (f0 :: rest) out)
  /\ (~ (nr = Z.to_nat (a_rows a) /\ nc = Z.to_nat (a_cols a)) -> ~ (nr = Z.to_nat (s_rows si) /\ nc = Z.to_nat (s_cols si)) -> 0 < nr ->
     dark_subtraction rg (AMaps nm) (f0 :: rest) = Raise PyException).
Proof. exact dark_maps. Qed.
Print Assumptions C48_noise_maps.

Theorem C48_other_type : forall rg fs, exists e, dark_subtraction rg AOther fs = Raise e.
Proof. exact dark_other. Qed.
Print Assumptions C48_other_type.

(** Frames of different settings are refused with any dark. *)
Theorem C48_mixed_settings : forall rg arg fs, fs <> [] -> ~ (exists t c k, Forall (fun f => has_key (k_hdr f) t c k) fs) ->
  exists e, dark_subtraction rg arg fs = Raise e.
Proof. exact dark_mixed. Qed.
Print Assumptions C48_mixed_settings.

(** A synthesized dark is stamped with the gain it was built for, measured or
    applied, as its commanded gain: saved and used again for the very frames it was made
    for, it is refused unless that equals their commanded gain. *)
Theorem C48_synth_reuse_refuted : forall rg a si pc d g t kk fs f0 rest nr nc,
  region_of (table rg) "SCI" "image" a si -> fs = f0 :: rest -> Forall (frame_shape nr nc) fs -> dark_shape nr nc d ->
  (exists gc, h_gc (h_cr (k_hdr f0)) = Some gc /\ ~ (gc == g)%Q) ->
  exists e, dark_subtraction rg (ADark pc (mkdh (mkcrh None None (Some g) None) (Some t) kk) d) fs = Raise e.
Proof. exact synth_reuse. Qed.
Print Assumptions C48_synth_reuse_refuted.

Example C48_example :
  (match dark_subtraction (Some ex_rg) (ADark None ex_hdr (mkdark (repeat (repeat (Fin 1) 2) 3) (repeat (repeat (Some 1%R) 2) 3) (repeat (repeat 2%N 2) 3))) [ex_f 1 0; ex_f 2 4] with
   | Ok (out, s) => map k_dq out = [[[2%N; 2%N]; [2%N; 2%N]; [2%N; 2%N]]; [[2%N; 6%N]; [2%N; 2%N]; [6%N; 2%N]]] /\ s = None
   | Raise _ => False end)
  /\ has_key ex_hdr 5 10 8 /\ analog None.
Proof.
  split; [cbn; split; reflexivity|]. split; [|left; reflexivity]. exists 5%Q, 10%Q, 8%Q. repeat (split; [reflexivity|]). reflexivity.
Qed.
