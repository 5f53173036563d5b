(** Property theorems C24 and C25. *)
From Coq Require Import List Arith ZArith String Bool Lia.
From Verif Require Import Base GeomModel GeomSpec GeomProofs GeomBiasProofs.
Import ListNotations.
Local Open Scope string_scope.
Local Open Scope list_scope.
Local Open Scope nat_scope.

(** * C24 *)

(** slice_section returns the region. *)
Theorem C24_slice : forall rg arr key a s, region_of rg arr key a s -> fits a s -> forall A (f : list (list A)), full_frame a f ->
  exists out, slice_section rg arr key f = Ok out /\ part_of f (s_r0 s) (s_c0 s) (s_rows s) (s_cols s) out.
Proof. exact slice_section_spec. Qed.
Print Assumptions C24_slice.

(** embed: the data in the region, the pad value elsewhere. *)
Theorem C24_embed : forall rg arr key a s, region_of rg arr key a s -> fits a s -> forall A (pad : A) d, sub_frame s d ->
  exists ff, embed rg arr key pad d = Ok ff /\ full_frame a ff
    /\ (forall r c, r < Z.to_nat (a_rows a) -> c < Z.to_nat (a_cols a) -> ~ inside s r c -> at2 ff r c = Some pad)
    /\ (forall r c, r < Z.to_nat (s_rows s) -> c < Z.to_nat (s_cols s) ->
          at2 ff (Z.to_nat (s_r0 s) + r) (Z.to_nat (s_c0 s) + c) = at2 d r c).
Proof. exact embed_spec. Qed.
Print Assumptions C24_embed.

Theorem C24_slice_embed : forall rg arr key a s, region_of rg arr key a s -> fits a s ->
  forall A (pad : A) d ff, sub_frame s d -> embed rg arr key pad d = Ok ff -> slice_section rg arr key ff = Ok d.
Proof. exact slice_embed. Qed.
Print Assumptions C24_slice_embed.

Theorem C24_embed_slice : forall rg arr key a s, region_of rg arr key a s -> fits a s ->
  forall A (pad : A) f d ff, full_frame a f -> slice_section rg arr key f = Ok d -> embed rg arr key pad d = Ok ff ->
  full_frame a ff /\ forall r c, inside s r c -> at2 ff r c = at2 f r c.
Proof. exact embed_slice. Qed.
Print Assumptions C24_embed_slice.

(** Data of another shape: a single row or column is repeated (numpy
    broadcasting), anything else raises. *)
Theorem C24_embed_shapes : forall rg arr key a s, region_of rg arr key a s -> fits a s ->
  forall A (pad : A) d dr dc, rect d dr dc -> 0 < dr ->
  ((dr = Z.to_nat (s_rows s) \/ dr = 1) /\ (dc = Z.to_nat (s_cols s) \/ dc = 1) ->
    exists ff, embed rg arr key pad d = Ok ff /\ full_frame a ff
      /\ (forall r c, r < Z.to_nat (a_rows a) -> c < Z.to_nat (a_cols a) -> ~ inside s r c -> at2 ff r c = Some pad)
      /\ (forall r c, r < Z.to_nat (s_rows s) -> c < Z.to_nat (s_cols s) ->
            at2 ff (Z.to_nat (s_r0 s) + r) (Z.to_nat (s_c0 s) + c)
            = at2 d (if dr =? Z.to_nat (s_rows s) then r else 0) (if dc =? Z.to_nat (s_cols s) then c else 0)))
  /\ (~ ((dr = Z.to_nat (s_rows s) \/ dr = 1) /\ (dc = Z.to_nat (s_cols s) \/ dc = 1)) -> embed rg arr key pad d = Raise PyException).
Proof. exact embed_gen. Qed.
Print Assumptions C24_embed_shapes.

(** A region beyond the frame raises instead of returning an empty array. *)
Theorem C24_slice_outside : forall rg arr key a s A (f : list (list A)) nr nc, region_of rg arr key a s -> rect f nr nc ->
  (Z.of_nat nr <= s_r0 s \/ Z.of_nat nc <= s_c0 s)%Z -> (0 <= s_r0 s /\ 0 <= s_c0 s /\ 0 <= s_rows s /\ 0 <= s_cols s)%Z ->
  slice_section rg arr key f = Raise PyException.
Proof. exact slice_outside. Qed.
Print Assumptions C24_slice_outside.

(** All regions of the shipped table lie in their frame. *)
Theorem C24_table_fits : forall arr key a s, region_of detector_areas arr key a s -> fits a s.
Proof. exact areas_fit. Qed.
Print Assumptions C24_table_fits.

Definition ex_rg : regions := [("SCI", mkarea 4 5 [("image", sec 2 3 1 2)])].
Example C24_example :
  embed ex_rg "SCI" "image" 0 [[1; 2; 3]; [4; 5; 6]] = Ok [[0; 0; 0; 0; 0]; [0; 0; 1; 2; 3]; [0; 0; 4; 5; 6]; [0; 0; 0; 0; 0]]
  /\ embed ex_rg "SCI" "image" 0 [[7]; [8]] = Ok [[0; 0; 0; 0; 0]; [0; 0; 7; 7; 7]; [0; 0; 8; 8; 8]; [0; 0; 0; 0; 0]]
  /\ embed ex_rg "SCI" "image" 0 [[1; 2]; [4; 5]] = Raise PyException
  /\ region_of ex_rg "SCI" "image" (mkarea 4 5 [("image", sec 2 3 1 2)]) (sec 2 3 1 2) /\ fits (mkarea 4 5 [("image", sec 2 3 1 2)]) (sec 2 3 1 2)
  /\ sub_frame (sec 2 3 1 2) [[1; 2; 3]; [4; 5; 6]].
Proof.
  split; [reflexivity|]. split; [reflexivity|]. split; [reflexivity|]. split; [split; reflexivity|].
  split; [unfold fits; cbn; lia|]. split; [reflexivity|repeat constructor].
Qed.

(** * C25 *)

(** Image area, shipped table: each image row is reduced by the median of the
    reliable prescan columns of its own detector row, less the offset; DQ and
    errors are those of the image area.  Not for ENG_CONV. *)
Theorem C25_image_area : forall V D (sub : V -> V -> V) (med sterr : list V -> V) arr a si sr offset (fs : list (@bframe V D)),
  region_of detector_areas arr "image" a si -> region_of detector_areas arr "prescan_reliable" a sr ->
  arr <> "ENG_CONV" -> Forall (frame_ok arr a) fs ->
  exists out, prescan_biassub sub med sterr None false false offset fs = Ok out
    /\ Forall2 (fun f o => bias_subtracted sub med sterr (b_data f) (s_r0 si) (s_c0 si) (s_rows si) (s_cols si)
            (fun r => Z.to_nat (s_r0 si) + r) (s_c0 sr) (s_c0 sr + s_cols sr) offset o
         /\ part_of (b_dq f) (s_r0 si) (s_c0 si) (s_rows si) (s_cols si) (o_dq o)
         /\ Forall2 (fun x y => part_of x (s_r0 si) (s_c0 si) (s_rows si) (s_cols si) y) (b_err f) (o_err o)) fs out.
Proof. exact @default_image. Qed.
Print Assumptions C25_image_area.

Theorem C25_full_frame : forall V D (sub : V -> V -> V) (med sterr : list V -> V) arr a sr offset imaging (fs : list (@bframe V D)),
  region_of detector_areas arr "prescan_reliable" a sr -> arr <> "ENG_CONV" -> Forall (frame_ok arr a) fs ->
  exists out, prescan_biassub sub med sterr None true imaging offset fs = Ok out
    /\ Forall2 (fun f o => bias_subtracted sub med sterr (b_data f) 0 0 (a_rows a) (a_cols a)
            (fun r => r) (s_c0 sr) (s_c0 sr + s_cols sr) offset o /\ o_dq o = b_dq f /\ o_err o = b_err f) fs out.
Proof. exact @default_full. Qed.
Print Assumptions C25_full_frame.

Theorem C25_imaging_area : forall V D (sub : V -> V -> V) (med sterr : list V -> V) arr a sr offset (fs : list (@bframe V D)),
  arr = "SCI" \/ arr = "ENG" -> region_of detector_areas arr "prescan_reliable" a sr -> Forall (frame_ok arr a) fs ->
  exists out, prescan_biassub sub med sterr None false true offset fs = Ok out
    /\ Forall2 (fun f o => bias_subtracted sub med sterr (b_data f) 0 1088 1037 1056 (fun r => r) (s_c0 sr) (s_c0 sr + s_cols sr) offset o
         /\ part_of (b_dq f) 0 1088 1037 1056 (o_dq o)
         /\ Forall2 (fun x y => part_of x 0 1088 1037 1056 y) (b_err f) (o_err o)) fs out.
Proof. exact @default_imaging. Qed.
Print Assumptions C25_imaging_area.

(** Any table, image area: the rows of the prescan are found with the image and
    prescan corners of the shipped table (gi, gp), not of the given one (si, sp). *)
Theorem C25_custom_image : forall V D (sub : V -> V -> V) (med sterr : list V -> V) rg arr a,
  In arr ["SCI"; "ENG"; "ENG_EM"; "ENG_CONV"] -> forall sp, region_of rg arr "prescan" a sp -> fits a sp ->
  forall st en, usable_cols sp st en -> forall si gi gp offset (f : @bframe V D),
  region_of rg arr "image" a si -> fits a si ->
  unpack_geom detector_areas arr "image" = Ok gi -> unpack_geom detector_areas arr "prescan" = Ok gp ->
  (0 <= s_r0 gi - s_r0 gp)%Z -> (s_r0 gi - s_r0 gp <= s_rows sp)%Z -> (0 <= s_rows gi)%Z ->
  Z.min (s_rows gi) (s_rows sp - (s_r0 gi - s_r0 gp)) = s_rows si ->
  frame_ok arr a f ->
  exists o, bias_frame sub med sterr rg false false offset f = Ok o
    /\ bias_subtracted sub med sterr (b_data f) (s_r0 si) (s_c0 si) (s_rows si) (s_cols si)
         (fun r => Z.to_nat (s_r0 sp) + (Z.to_nat (s_r0 gi - s_r0 gp) + r)) (s_c0 sp + st) (s_c0 sp + en) offset o
    /\ part_of (b_dq f) (s_r0 si) (s_c0 si) (s_rows si) (s_cols si) (o_dq o)
    /\ Forall2 (fun x y => part_of x (s_r0 si) (s_c0 si) (s_rows si) (s_cols si) y) (b_err f) (o_err o).
Proof. exact @bias_image. Qed.
Print Assumptions C25_custom_image.

(** Any table, full frame and imaging area: the right rows. *)
Theorem C25_custom_full : forall V D (sub : V -> V -> V) (med sterr : list V -> V) rg arr a,
  In arr ["SCI"; "ENG"; "ENG_EM"; "ENG_CONV"] -> forall sp, region_of rg arr "prescan" a sp -> fits a sp ->
  forall st en, usable_cols sp st en -> forall offset (f : @bframe V D) imaging,
  s_r0 sp = 0%Z -> s_rows sp = a_rows a -> frame_ok arr a f ->
  exists o, bias_frame sub med sterr rg true imaging offset f = Ok o
    /\ bias_subtracted sub med sterr (b_data f) 0 0 (a_rows a) (a_cols a) (fun r => r) (s_c0 sp + st) (s_c0 sp + en) offset o
    /\ o_dq o = b_dq f /\ o_err o = b_err f.
Proof. exact @bias_full. Qed.
Print Assumptions C25_custom_full.

Theorem C25_custom_imaging : forall V D (sub : V -> V -> V) (med sterr : list V -> V) rg arr a,
  In arr ["SCI"; "ENG"; "ENG_EM"; "ENG_CONV"] -> forall sp, region_of rg arr "prescan" a sp -> fits a sp ->
  forall st en, usable_cols sp st en -> forall offset (f : @bframe V D) rows cols r0 c0,
  imaging_area_geom rg arr = Ok (rows, cols, r0, c0) ->
  (0 <= r0)%Z -> (0 <= c0)%Z -> (0 <= rows)%Z -> (0 <= cols)%Z -> (r0 + rows <= a_rows a)%Z -> (c0 + cols <= a_cols a)%Z ->
  (s_r0 sp <= r0)%Z -> (r0 + rows <= s_r0 sp + s_rows sp)%Z -> frame_ok arr a f ->
  exists o, bias_frame sub med sterr rg false true offset f = Ok o
    /\ bias_subtracted sub med sterr (b_data f) r0 c0 rows cols (fun r => Z.to_nat r0 + r) (s_c0 sp + st) (s_c0 sp + en) offset o
    /\ part_of (b_dq f) r0 c0 rows cols (o_dq o)
    /\ Forall2 (fun x y => part_of x r0 c0 rows cols y) (b_err f) (o_err o).
Proof. exact @bias_imaging. Qed.
Print Assumptions C25_custom_imaging.

(** Unknown array types and frames of another size are rejected. *)
Theorem C25_rejects : forall V D (sub : V -> V -> V) (med sterr : list V -> V) rg full imaging offset (f : @bframe V D),
  (forall arr, b_arr f = Some arr -> ~ In arr ["SCI"; "ENG"; "ENG_EM"; "ENG_CONV"]
      \/ forall a, lookup arr rg = Some a -> ~ (zlen (b_data f) = a_rows a /\ Forall (fun row => zlen row = a_cols a) (b_data f))) ->
  exists e, bias_frame sub med sterr rg full imaging offset f = Raise e.
Proof. exact @bias_rejects. Qed.
Print Assumptions C25_rejects.

(** ENG_CONV with the shipped table: the bias is the median of no pixel at all
    (NaN in numpy), whatever the frame. *)
Theorem C25_eng_conv_refuted : forall V D (sub : V -> V -> V) (med sterr : list V -> V) a offset (f : @bframe V D) full imaging o,
  lookup "ENG_CONV" detector_areas = Some a -> frame_ok "ENG_CONV" a f ->
  bias_frame sub med sterr detector_areas full imaging offset f = Ok o ->
  Forall (fun b => b = sub (med []) offset) (o_bias o).
Proof. exact @conv_empty. Qed.
Print Assumptions C25_eng_conv_refuted.

(** The imaging area of ENG_EM and ENG_CONV starts at row -9: no pixel is left. *)
Theorem C25_tall_imaging_refuted : forall V D (sub : V -> V -> V) (med sterr : list V -> V) arr a offset (f : @bframe V D) o,
  arr = "ENG_EM" \/ arr = "ENG_CONV" -> lookup arr detector_areas = Some a -> frame_ok arr a f ->
  bias_frame sub med sterr detector_areas false true offset f = Ok o -> o_data o = [] /\ o_dq o = [].
Proof. exact tall_imaging_empty. Qed.
Print Assumptions C25_tall_imaging_refuted.

(** A table with the image 5 rows down: the frame whose value is its row number
    should give 0 everywhere, but row 5 is reduced by the bias of row 13. *)
Definition ex_tab : regions := [("SCI", mkarea 30 4 [("image", sec 17 2 5 2); ("prescan", mksec 30 2 0 0 (Some 0%Z) (Some 2%Z))])].
Definition ex_frame : @bframe Z nat :=
  mkb (Some "SCI") (map (fun i => repeat (Z.of_nat i) 4) (seq 0 30)) [] (repeat (repeat 0 4) 30).
Theorem C25_custom_rows_refuted : exists o, prescan_biassub Z.sub (hd 0%Z) (hd 0%Z) (Some ex_tab) false false 0%Z [ex_frame] = Ok [o]
  /\ hd [] (o_data o) = [-8; -8]%Z /\ hd 0%Z (o_bias o) = 13%Z.
Proof. eexists. split; [vm_compute; reflexivity|]. split; reflexivity. Qed.
Print Assumptions C25_custom_rows_refuted.

(** The hypotheses above are met by it and by the shipped table. *)
Example C25_example :
  (exists a si sp, region_of ex_tab "SCI" "image" a si /\ fits a si /\ region_of ex_tab "SCI" "prescan" a sp /\ fits a sp
     /\ usable_cols sp 0 2 /\ frame_ok "SCI" a ex_frame)
  /\ (exists a si sr, region_of detector_areas "ENG_EM" "image" a si /\ region_of detector_areas "ENG_EM" "prescan_reliable" a sr
     /\ s_r0 si = 13%Z /\ s_c0 sr = 800%Z).
Proof.
  split.
  - exists (mkarea 30 4 [("image", sec 17 2 5 2); ("prescan", mksec 30 2 0 0 (Some 0%Z) (Some 2%Z))]), (sec 17 2 5 2), (mksec 30 2 0 0 (Some 0%Z) (Some 2%Z)).
    split; [split; reflexivity|]. split; [unfold fits; cbn; lia|]. split; [split; reflexivity|]. split; [unfold fits; cbn; lia|].
    split; [unfold usable_cols; cbn; repeat split; lia|]. split; [reflexivity|].
    split; [split; [reflexivity|repeat constructor]|]. split; [split; [reflexivity|repeat constructor]|constructor].
  - eexists. eexists. eexists. split; [split; reflexivity|]. split; [split; reflexivity|]. split; reflexivity.
Qed.
