From Coq Require Import List Arith ZArith String Bool Lia.
From Verif Require Import Base BaseProofs DqModel DqProofs GeomModel GeomSpec GeomProofs.
Import ListNotations.
Local Open Scope string_scope.
Local Open Scope list_scope.
Local Open Scope nat_scope.

(** Slices with non-negative bounds, clipped at the end. *)
Lemma pyslice_clip_len : forall A (l : list A) lo hi, (0 <= lo <= hi)%Z -> (lo <= zlen l)%Z ->
  List.length (pyslice lo hi l) = Z.to_nat (Z.min (hi - lo) (zlen l - lo)).
Proof.
  intros A l lo hi H H2. destruct (Z.le_ge_cases hi (zlen l)) as [C|C].
  - rewrite pyslice_len by lia. f_equal. lia.
  - unfold pyslice. rewrite (norm_in _ lo) by lia.
    replace (norm_ix (zlen l) hi) with (zlen l) by (unfold norm_ix; destruct (Z.ltb_spec hi 0); lia).
    rewrite firstn_length, skipn_length. unfold zlen in *. lia.
Qed.
Lemma pyslice_clip_nth : forall A (l : list A) lo hi k, (0 <= lo <= hi)%Z -> (lo <= zlen l)%Z ->
  k < Z.to_nat (Z.min (hi - lo) (zlen l - lo)) -> nth_error (pyslice lo hi l) k = nth_error l (Z.to_nat lo + k).
Proof.
  intros A l lo hi k H H2 Hk. destruct (Z.le_ge_cases hi (zlen l)) as [C|C].
  - apply pyslice_nth; lia.
  - unfold pyslice. rewrite (norm_in _ lo) by lia.
    replace (norm_ix (zlen l) hi) with (zlen l) by (unfold norm_ix; destruct (Z.ltb_spec hi 0); lia).
    rewrite nth_error_firstn' by lia. apply nth_error_skipn'.
Qed.

Lemma bcast_rows_eq : forall W X Y (f : W -> X -> Y) rows col, List.length col = List.length rows ->
  bcast_rows f rows col = Ok (map (fun p => f (fst p) (snd p)) (combine rows col)).
Proof. intros W X Y f rows col H. unfold bcast_rows. rewrite H, Nat.eqb_refl. reflexivity. Qed.
Lemma combine_nth_error : forall A B (l : list A) (m : list B) i x y, nth_error l i = Some x -> nth_error m i = Some y ->
  nth_error (combine l m) i = Some (x, y).
Proof.
  induction l as [|a l IH]; intros [|b m] [|i] x y; cbn [nth_error combine]; try discriminate.
  - intros E1 E2. injection E1 as <-. injection E2 as <-. reflexivity.
  - apply IH.
Qed.

Section B.
Context {V D : Type}.
Variable sub : V -> V -> V.
Variable med sterr : list V -> V.

(** subtract_bias on an image and as many prescan rows *)
Lemma subtract_bias_spec : forall rg arr offset p st en im al nr nc,
  unpack_geom rg arr "prescan" = Ok p -> s_st p = Some st -> s_end p = Some en ->
  rect im nr nc -> List.length al = nr ->
  exists d bias term, subtract_bias sub med sterr rg arr offset im al = Ok (d, bias, term)
    /\ rect d nr nc /\ rect term nr nc /\ List.length bias = nr
    /\ forall r, r < nr -> exists row, nth_error al r = Some row
         /\ nth_error bias r = Some (sub (med (pyslice st en row)) offset)
         /\ forall c, c < nc ->
              at2 d r c = option_map (fun v => sub v (sub (med (pyslice st en row)) offset)) (at2 im r c)
              /\ at2 term r c = Some (sterr (pyslice st en row)).
Proof.
  intros rg arr offset p st en im al nr nc Ep Es Ee R La.
  unfold subtract_bias. rewrite Ep. cbn [bind]. rewrite Es, Ee. cbn [getkey bind].
  assert (Li : List.length im = nr) by (destruct R; assumption).
  rewrite bcast_rows_eq by (rewrite !map_length; lia). cbn [bind].
  rewrite bcast_rows_eq by (rewrite !map_length; lia). cbn [bind].
  eexists. eexists. eexists. split; [reflexivity|].
  assert (Row : forall r, r < nr -> exists row irow, nth_error al r = Some row /\ nth_error im r = Some irow /\ List.length irow = nc).
  { intros r Hr. destruct (nth_error al r) as [row|] eqn:E1; [|apply nth_error_None in E1; lia].
    destruct (nth_error im r) as [irow|] eqn:E2; [|apply nth_error_None in E2; lia].
    exists row, irow. split; [reflexivity|]. split; [reflexivity|]. exact (rect_row _ _ _ _ _ _ R E2). }
  assert (RM : forall X (f : list V -> X -> list V) (col : list X), (forall row x, List.length (f row x) = List.length row) ->
     List.length col = nr -> rect (map (fun pq => f (fst pq) (snd pq)) (combine im col)) nr nc).
  { intros X f col Hf Hc. split; [rewrite map_length, combine_length; lia|].
    apply Forall_forall. intros row I. apply in_map_iff in I. destruct I as ([irow x] & <- & I). cbn [fst snd]. rewrite Hf.
    apply in_combine_l in I. destruct R as [_ F]. exact (proj1 (Forall_forall _ _) F _ I). }
  split; [apply (RM V (fun row b => map (fun v => sub v b) row)); [intros; apply map_length|rewrite !map_length; exact La]|].
  split; [apply (RM V (fun row e => map (fun _ => e) row)); [intros; apply map_length|rewrite !map_length; exact La]|].
  split; [rewrite !map_length; exact La|].
  intros r Hr. destruct (Row r Hr) as (row & irow & E1 & E2 & L2). exists row. split; [exact E1|].
  split; [rewrite !nth_error_map, E1; reflexivity|].
  intros c Hc. destruct (nth_error irow c) as [v|] eqn:E3; [|apply nth_error_None in E3; lia]. split.
  - unfold at2. rewrite nth_error_map.
    rewrite (combine_nth_error _ _ _ _ r irow (sub (med (pyslice st en row)) offset)); [|exact E2|rewrite !nth_error_map, E1; reflexivity].
    cbn [option_map fst snd]. rewrite nth_error_map, E2, E3. reflexivity.
  - unfold at2. rewrite nth_error_map.
    rewrite (combine_nth_error _ _ _ _ r irow (sterr (pyslice st en row))); [|exact E2|rewrite !nth_error_map, E1; reflexivity].
    cbn [option_map fst snd]. rewrite nth_error_map, E3. reflexivity.
Qed.


(** A row of the sliced prescan gives the detector's row. *)
Lemma prescan_row : forall (f : list (list V)) sp st en pre k row, part_of f (s_r0 sp) (s_c0 sp) (s_rows sp) (s_cols sp) pre ->
  (0 <= s_r0 sp)%Z -> (0 <= s_c0 sp)%Z -> (0 <= st <= en)%Z -> (en <= s_cols sp)%Z -> nth_error pre k = Some row ->
  row_values f (Z.to_nat (s_r0 sp) + k) (s_c0 sp + st) (s_c0 sp + en) (pyslice st en row).
Proof.
  intros f sp st en pre k row [R P] H0 H0' H1 H2 E.
  assert (L := rect_row _ _ _ _ _ _ R E).
  assert (Hk : k < Z.to_nat (s_rows sp)) by (destruct R as [Lp _]; rewrite <- Lp; apply nth_error_Some; rewrite E; discriminate).
  replace (s_c0 sp + en - (s_c0 sp + st))%Z with (en - st)%Z by lia.
  assert (Lz : zlen row = s_cols sp) by (unfold zlen; rewrite L; lia).
  split; [replace (s_c0 sp + en - (s_c0 sp + st))%Z with (en - st)%Z by lia; apply pyslice_len; lia|].
  intros j Hj. replace (s_c0 sp + en - (s_c0 sp + st))%Z with (en - st)%Z in Hj by lia.
  rewrite pyslice_nth by lia.
  assert (T := P k (Z.to_nat st + j) Hk ltac:(lia)). unfold at2 at 1 in T. rewrite E in T. rewrite T. f_equal. lia.
Qed.

Section Regions.
Variable rg : regions.
Variable arr : string.
Variable a : area.
Hypothesis Harr : In arr ["SCI"; "ENG"; "ENG_EM"; "ENG_CONV"].
Variable sp : section.
Hypothesis RP : region_of rg arr "prescan" a sp.
Hypothesis FP : fits a sp.
Variable st en : Z.
Hypothesis UC : usable_cols sp st en.

Lemma known : existsb (String.eqb arr) ["SCI"; "ENG"; "ENG_EM"; "ENG_CONV"] = true.
Proof. apply existsb_exists. exists arr. split; [exact Harr|apply String.eqb_refl]. Qed.

Lemma shape_ok : forall A (f : list (list A)), full_frame a f ->
  negb (Z.eqb (a_rows a) (zlen f) && forallb (fun row => Z.eqb (a_cols a) (zlen row)) f) = false.
Proof.
  intros A f [L F]. destruct FP as (F1 & F2 & F3 & F4 & F5 & F6). apply negb_false_iff. apply andb_true_intro. split.
  - apply Z.eqb_eq. unfold zlen. lia.
  - apply forallb_forall. intros row I. apply Z.eqb_eq. unfold zlen. rewrite (proj1 (Forall_forall _ _) F row I). lia.
Qed.


Lemma mapR_slice : forall key s (l : list (list (list V))), region_of rg arr key a s -> fits a s -> Forall (full_frame a) l ->
  exists out, mapR (slice_section rg arr key) l = Ok out /\ Forall2 (fun f o => part_of f (s_r0 s) (s_c0 s) (s_rows s) (s_cols s) o) l out.
Proof.
  intros key s l RS FS F. induction F as [|f l Hf F IH]; [exists []; split; [reflexivity|constructor]|].
  cbn [mapR]. destruct (slice_section_spec rg arr key a s RS FS V f Hf) as (o & E & P). rewrite E. cbn [bind].
  destruct IH as (out & E' & P'). rewrite E'. exists (o :: out). split; [reflexivity|]. constructor; assumption.
Qed.

(** Image mode, any table. *)
Lemma bias_image : forall si gi gp offset (f : @bframe V D),
  region_of rg arr "image" a si -> fits a si ->
  unpack_geom detector_areas arr "image" = Ok gi -> unpack_geom detector_areas arr "prescan" = Ok gp ->
  (0 <= s_r0 gi - s_r0 gp)%Z -> (s_r0 gi - s_r0 gp <= s_rows sp)%Z -> (0 <= s_rows gi)%Z ->
  Z.min (s_rows gi) (s_rows sp - (s_r0 gi - s_r0 gp)) = s_rows si ->
  frame_ok arr a f ->
  exists o, bias_frame sub med sterr rg false false offset f = Ok o
    /\ bias_subtracted sub med sterr (b_data f) (s_r0 si) (s_c0 si) (s_rows si) (s_cols si)
         (fun r => Z.to_nat (s_r0 sp) + (Z.to_nat (s_r0 gi - s_r0 gp) + r)) (s_c0 sp + st) (s_c0 sp + en) offset o
    /\ part_of (b_dq f) (s_r0 si) (s_c0 si) (s_rows si) (s_cols si) (o_dq o)
    /\ Forall2 (fun x y => part_of x (s_r0 si) (s_c0 si) (s_rows si) (s_cols si) y) (b_err f) (o_err o).
Proof.
  intros si gi gp offset f RI FI EI EP H1 H2 H2' H3 (Ea & Fd & Fq & Fe).
  destruct UC as (U1 & U2 & U3 & U4).
  unfold bias_frame. rewrite Ea. cbn [getkey bind]. rewrite known. rewrite (area_ok _ _ _ _ _ RP). cbn [bind].
  rewrite (shape_ok _ _ Fd).
  destruct (slice_section_spec _ _ _ _ _ RP FP V _ Fd) as (pre & E1 & P1). rewrite E1. cbn [bind].
  destruct (slice_section_spec _ _ _ _ _ RI FI V _ Fd) as (im & E2 & P2). rewrite E2. cbn [bind].
  destruct (slice_section_spec _ _ _ _ _ RI FI D _ Fq) as (dq & E3 & P3). rewrite E3. cbn [bind].
  destruct (mapR_slice _ _ _ RI FI Fe) as (er & E4 & P4). rewrite E4. cbn [bind].
  rewrite EI, EP. cbn [bind].
  set (al := pyslice _ _ pre).
  assert (Lpre : zlen pre = s_rows sp) by (unfold zlen; destruct P1 as [[L _] _]; destruct FP as (Q1 & Q2 & Q3 & Q4 & Q5 & Q6); rewrite L; lia).
  assert (Lal : List.length al = Z.to_nat (s_rows si)).
  { unfold al. rewrite pyslice_clip_len by lia. f_equal. lia. }
  destruct (subtract_bias_spec rg arr offset sp st en im al _ _ (unpack_ok _ _ _ _ _ RP) U1 U2 (proj1 P2) Lal)
    as (d & bias & term & E5 & R1 & R2 & R3 & Q).
  rewrite E5. cbn [bind fst snd]. eexists. split; [reflexivity|]. cbn [o_dq o_err]. split; [|split; assumption].
  unfold bias_subtracted. cbn [o_data o_term o_bias].
  split; [exact R1|]. split; [exact R2|]. split; [exact R3|].
  intros r Hr. destruct (Q r Hr) as (row & Er & Eb & Pc). exists (pyslice st en row).
  assert (Er' : nth_error pre (Z.to_nat (s_r0 gi - s_r0 gp) + r) = Some row).
  { unfold al in Er. rewrite pyslice_clip_nth in Er; [exact Er|lia|lia|rewrite Lpre; lia]. }
  split; [|split; [exact Eb|]].
  - destruct FP as (Q1 & Q2 & Q3 & Q4 & Q5 & Q6). apply (prescan_row _ _ _ _ _ _ _ P1); assumption.
  - intros c Hc. destruct (Pc c Hc) as [A B]. split; [|exact B]. rewrite A. rewrite (proj2 P2) by assumption. reflexivity.
Qed.

(** Full-frame mode. *)
Lemma bias_full : forall offset (f : @bframe V D) imaging, s_r0 sp = 0%Z -> s_rows sp = a_rows a -> frame_ok arr a f ->
  exists o, bias_frame sub med sterr rg true imaging offset f = Ok o
    /\ bias_subtracted sub med sterr (b_data f) 0 0 (a_rows a) (a_cols a) (fun r => r) (s_c0 sp + st) (s_c0 sp + en) offset o
    /\ o_dq o = b_dq f /\ o_err o = b_err f.
Proof.
  intros offset f imaging H1 H2 (Ea & Fd & Fq & Fe).
  destruct UC as (U1 & U2 & U3 & U4).
  unfold bias_frame. rewrite Ea. cbn [getkey bind]. rewrite known. rewrite (area_ok _ _ _ _ _ RP). cbn [bind].
  rewrite (shape_ok _ _ Fd).
  destruct (slice_section_spec _ _ _ _ _ RP FP V _ Fd) as (pre & E1 & P1). rewrite E1. cbn [bind].
  destruct (subtract_bias_spec rg arr offset sp st en (b_data f) pre _ _ (unpack_ok _ _ _ _ _ RP) U1 U2 Fd)
    as (d & bias & term & E5 & R1 & R2 & R3 & Q).
  { destruct P1 as [[L _] _]. rewrite L, H2. reflexivity. }
  rewrite E5. cbn [bind fst snd]. eexists. split; [reflexivity|]. cbn [o_dq o_err]. split; [|split; reflexivity].
  unfold bias_subtracted. cbn [o_data o_term o_bias].
  split; [exact R1|]. split; [exact R2|]. split; [exact R3|].
  intros r Hr. destruct (Q r Hr) as (row & Er & Eb & Pc). exists (pyslice st en row).
  split; [|split; [exact Eb|]].
  - destruct FP as (Q1 & Q2 & Q3 & Q4 & Q5 & Q6).
    assert (T := prescan_row _ _ _ _ _ _ _ P1 Q1 Q2 U3 U4 Er). rewrite H1 in T. exact T.
  - intros c Hc. exact (Pc c Hc).
Qed.

(** Imaging-area mode. *)
Lemma imaging_part : forall A (x : list (list A)) rows cols r0 c0, imaging_area_geom rg arr = Ok (rows, cols, r0, c0) ->
  (0 <= r0)%Z -> (0 <= c0)%Z -> (0 <= rows)%Z -> (0 <= cols)%Z -> (r0 + rows <= a_rows a)%Z -> (c0 + cols <= a_cols a)%Z -> full_frame a x ->
  exists o, imaging_slice rg arr x = Ok o /\ part_of x r0 c0 rows cols o.
Proof.
  intros A x rows cols r0 c0 E H1 H2 H3 H4 H5 H6 R. unfold imaging_slice. rewrite E. cbn [bind].
  eexists. split; [reflexivity|]. apply (slice2_part _ _ _ _ _ _ _ _ R); lia.
Qed.

Lemma bias_imaging : forall offset (f : @bframe V D) rows cols r0 c0, imaging_area_geom rg arr = Ok (rows, cols, r0, c0) ->
  (0 <= r0)%Z -> (0 <= c0)%Z -> (0 <= rows)%Z -> (0 <= cols)%Z -> (r0 + rows <= a_rows a)%Z -> (c0 + cols <= a_cols a)%Z ->
  (s_r0 sp <= r0)%Z -> (r0 + rows <= s_r0 sp + s_rows sp)%Z -> frame_ok arr a f ->
  exists o, bias_frame sub med sterr rg false true offset f = Ok o
    /\ bias_subtracted sub med sterr (b_data f) r0 c0 rows cols (fun r => Z.to_nat r0 + r) (s_c0 sp + st) (s_c0 sp + en) offset o
    /\ part_of (b_dq f) r0 c0 rows cols (o_dq o)
    /\ Forall2 (fun x y => part_of x r0 c0 rows cols y) (b_err f) (o_err o).
Proof.
  intros offset f rows cols r0 c0 EG H1 H2 H3 H4 H5 H6 H7 H8 (Ea & Fd & Fq & Fe).
  destruct UC as (U1 & U2 & U3 & U4).
  unfold bias_frame. rewrite Ea. cbn [getkey bind]. rewrite known. rewrite (area_ok _ _ _ _ _ RP). cbn [bind].
  rewrite (shape_ok _ _ Fd).
  destruct (slice_section_spec _ _ _ _ _ RP FP V _ Fd) as (pre & E1 & P1). rewrite E1. cbn [bind].
  destruct (imaging_part V (b_data f) rows cols r0 c0 EG H1 H2 H3 H4 H5 H6 Fd) as (im & E2 & P2). rewrite E2. cbn [bind].
  destruct (imaging_part D (b_dq f) rows cols r0 c0 EG H1 H2 H3 H4 H5 H6 Fq) as (dq & E3 & P3). rewrite E3. cbn [bind].
  assert (E4 : exists er, mapR (imaging_slice rg arr) (b_err f) = Ok er /\ Forall2 (fun x y => part_of x r0 c0 rows cols y) (b_err f) er).
  { clear -Fe EG H1 H2 H3 H4 H5 H6. induction Fe as [|x l Hx F IH]; [exists []; split; [reflexivity|constructor]|].
    cbn [mapR]. destruct (imaging_part V x rows cols r0 c0 EG H1 H2 H3 H4 H5 H6 Hx) as (o & E & P). rewrite E. cbn [bind].
    destruct IH as (er & E' & P'). rewrite E'. exists (o :: er). split; [reflexivity|]. constructor; assumption. }
  destruct E4 as (er & E4 & P4). rewrite E4. cbn [bind]. rewrite EG. cbn [bind]. rewrite (unpack_ok _ _ _ _ _ RP). cbn [bind].
  set (al := pyslice _ _ pre).
  assert (Lpre : zlen pre = s_rows sp) by (unfold zlen; destruct P1 as [[L _] _]; destruct FP as (Q1 & Q2 & Q3 & Q4 & Q5 & Q6); rewrite L; lia).
  assert (Lal : List.length al = Z.to_nat rows).
  { unfold al. rewrite pyslice_len by lia. f_equal. lia. }
  destruct (subtract_bias_spec rg arr offset sp st en im al _ _ (unpack_ok _ _ _ _ _ RP) U1 U2 (proj1 P2) Lal)
    as (d & bias & term & E5 & R1 & R2 & R3 & Q).
  rewrite E5. cbn [bind fst snd]. eexists. split; [reflexivity|]. cbn [o_dq o_err]. split; [|split; assumption].
  unfold bias_subtracted. cbn [o_data o_term o_bias].
  split; [exact R1|]. split; [exact R2|]. split; [exact R3|].
  destruct FP as (Q1 & Q2 & Q3 & Q4 & Q5 & Q6).
  intros r Hr. destruct (Q r Hr) as (row & Er & Eb & Pc). exists (pyslice st en row).
  assert (Er' : nth_error pre (Z.to_nat (r0 - s_r0 sp) + r) = Some row).
  { unfold al in Er. rewrite pyslice_nth in Er; [exact Er|lia|lia|lia|lia]. }
  split; [|split; [exact Eb|]].
  - assert (T := prescan_row _ _ _ _ _ _ _ P1 Q1 Q2 U3 U4 Er').
    replace (Z.to_nat (s_r0 sp) + (Z.to_nat (r0 - s_r0 sp) + r)) with (Z.to_nat r0 + r) in T by lia. exact T.
  - intros c Hc. destruct (Pc c Hc) as [A B]. split; [|exact B]. rewrite A. rewrite (proj2 P2) by assumption. reflexivity.
Qed.
End Regions.

(** Several frames. *)
Lemma mapR_forall2 : forall A B (g : A -> result B) (P : A -> B -> Prop) l, (forall x, In x l -> exists y, g x = Ok y /\ P x y) ->
  exists out, mapR g l = Ok out /\ Forall2 P l out.
Proof.
  intros A B g P l. induction l as [|x l IH]; intros H; [exists []; split; [reflexivity|constructor]|].
  cbn [mapR]. destruct (H x (or_introl eq_refl)) as (y & E & Py). rewrite E. cbn [bind].
  destruct IH as (out & E' & P'); [intros z Hz; apply H; right; exact Hz|]. rewrite E'. exists (y :: out). split; [reflexivity|].
  constructor; assumption.
Qed.
Lemma same_shapes_rect : forall (l : list (@oframe V D)) nr nc, Forall (fun o => rect (o_data o) nr nc) l -> same_shapes l = true.
Proof.
  intros [|o l] nr nc F; [reflexivity|]. inversion F as [|? ? Ho Fl]; subst. cbn [same_shapes].
  assert (Sh : forall p : @oframe V D, rect (o_data p) nr nc -> shape (o_data p) = (nr, match nr with 0 => 0 | S _ => nc end)).
  { intros p [L R]. unfold shape. rewrite L. f_equal. destruct (o_data p) as [|row t]; cbn [List.length] in L; [subst; reflexivity|].
    inversion R; subst. reflexivity. }
  apply forallb_forall. intros p I. assert (Hp := proj1 (Forall_forall _ _) Fl p I). cbn beta in Hp.
  rewrite (Sh o Ho), (Sh p Hp). rewrite !Nat.eqb_refl. reflexivity.
Qed.

Lemma prescan_frames : forall rgo full imaging offset fs (P : bframe -> oframe -> Prop) nr nc,
  (forall f, In f fs -> exists o, bias_frame sub med sterr (match rgo with Some r => r | None => detector_areas end) full imaging offset f = Ok o
     /\ rect (o_data o) nr nc /\ P f o) ->
  exists out, prescan_biassub sub med sterr rgo full imaging offset fs = Ok out /\ @Forall2 (@bframe V D) oframe P fs out.
Proof.
  intros rgo full imaging offset fs P nr nc H. unfold prescan_biassub.
  destruct (mapR_forall2 _ _ _ (fun f o => rect (o_data o) nr nc /\ P f o) fs H) as (out & E & F). rewrite E. cbn [bind].
  assert (F1 : Forall (fun o => rect (o_data o) nr nc) out) by (clear E H; induction F as [|f o fs out [A _] F IH]; constructor; assumption).
  rewrite (same_shapes_rect out nr nc F1). exists out. split; [reflexivity|].
  clear E H F1. induction F as [|f o fs out [_ A] F IH]; constructor; assumption.
Qed.

(** ** The shipped table *)
Lemma arr_cases : forall arr key a s, region_of detector_areas arr key a s -> In arr ["SCI"; "ENG"; "ENG_EM"; "ENG_CONV"].
Proof.
  intros arr key a s [E _]. apply lookup_in in E. change ["SCI"; "ENG"; "ENG_EM"; "ENG_CONV"] with (map fst detector_areas).
  apply (in_map fst) in E. exact E.
Qed.


(** The image-area, full and imaging-area results for the shipped table. *)
Lemma default_image : forall arr a si sr offset (fs : list (@bframe V D)), region_of detector_areas arr "image" a si -> region_of detector_areas arr "prescan_reliable" a sr ->
  arr <> "ENG_CONV" -> Forall (frame_ok arr a) fs ->
  exists out, prescan_biassub sub med sterr None false false offset fs = Ok out
    /\ Forall2 (fun f o => bias_subtracted sub med sterr (b_data f) (s_r0 si) (s_c0 si) (s_rows si) (s_cols si)
            (fun r => Z.to_nat (s_r0 si) + r) (s_c0 sr) (s_c0 sr + s_cols sr) offset o
         /\ part_of (b_dq f) (s_r0 si) (s_c0 si) (s_rows si) (s_cols si) (o_dq o)
         /\ Forall2 (fun x y => part_of x (s_r0 si) (s_c0 si) (s_rows si) (s_cols si) y) (b_err f) (o_err o)) fs out.
Proof.
  intros arr a si sr offset fs RI RR N F.
  assert (FI := areas_fit _ _ _ _ RI).
  assert (Hin := arr_cases _ _ _ _ RI).
  destruct (lookup "prescan" (a_secs a)) as [sp|] eqn:EP.
  2:{ exfalso. destruct RI as [E1 _]. apply lookup_in in E1. cbn [In detector_areas] in E1.
      repeat (destruct E1 as [E1|E1]; [injection E1 as <- <-; discriminate EP|]). contradiction. }
  assert (RP : region_of detector_areas arr "prescan" a sp) by (split; [exact (proj1 RI)|exact EP]).
  assert (FP := areas_fit _ _ _ _ RP).
  assert (K : s_c0 sr = (s_c0 sp + 800)%Z /\ s_cols sr = 200%Z /\ usable_cols sp 800 1000
     /\ s_r0 sp = 0%Z /\ (0 <= s_r0 si)%Z /\ (0 < s_rows si)%Z /\ (s_r0 si + s_rows si <= s_rows sp)%Z).
  { destruct RI as [E1 E2]. destruct RR as [_ E3]. apply lookup_in in E1. cbn [In detector_areas] in E1.
    repeat (destruct E1 as [E1|E1]; [injection E1 as <- <-; first [contradiction N; reflexivity|
      injection E2 as <-; injection E3 as <-; injection EP as <-; unfold usable_cols; cbn; repeat split; lia]|]). contradiction. }
  destruct K as (K1 & K2 & K3 & K4 & K5 & K6 & K7).
  apply (prescan_frames None false false offset fs _ (Z.to_nat (s_rows si)) (Z.to_nat (s_cols si))).
  intros f If. assert (Hf := proj1 (Forall_forall _ _) F f If). cbn beta in Hf.
  destruct (bias_image detector_areas arr a Hin sp RP FP 800 1000 K3 si si sp offset f RI FI (unpack_ok _ _ _ _ _ RI) (unpack_ok _ _ _ _ _ RP)) as (o & E & B & Q1 & Q2);
    [lia|lia|lia|lia|exact Hf|].
  exists o. split; [exact E|]. split; [exact (proj1 B)|]. split; [|split; assumption].
  rewrite K1, K2. replace (s_c0 sp + 800 + 200)%Z with (s_c0 sp + 1000)%Z by lia.
  unfold bias_subtracted in *. destruct B as (B1 & B2 & B3 & B4). split; [exact B1|]. split; [exact B2|]. split; [exact B3|].
  intros r Hr. destruct (B4 r Hr) as (l & RV & B5 & B6). exists l. split; [|split; assumption].
  rewrite K4 in RV. replace (Z.to_nat 0 + (Z.to_nat (s_r0 si - 0) + r)) with (Z.to_nat (s_r0 si) + r) in RV by lia. exact RV.
Qed.

Lemma default_full : forall arr a sr offset imaging (fs : list (@bframe V D)), region_of detector_areas arr "prescan_reliable" a sr ->
  arr <> "ENG_CONV" -> Forall (frame_ok arr a) fs ->
  exists out, prescan_biassub sub med sterr None true imaging offset fs = Ok out
    /\ Forall2 (fun f o => bias_subtracted sub med sterr (b_data f) 0 0 (a_rows a) (a_cols a)
            (fun r => r) (s_c0 sr) (s_c0 sr + s_cols sr) offset o /\ o_dq o = b_dq f /\ o_err o = b_err f) fs out.
Proof.
  intros arr a sr offset imaging fs RR N F.
  assert (Hin := arr_cases _ _ _ _ RR).
  destruct (lookup "prescan" (a_secs a)) as [sp|] eqn:EP.
  2:{ exfalso. destruct RR as [E1 _]. apply lookup_in in E1. cbn [In detector_areas] in E1.
      repeat (destruct E1 as [E1|E1]; [injection E1 as <- <-; discriminate EP|]). contradiction. }
  assert (RP : region_of detector_areas arr "prescan" a sp) by (split; [exact (proj1 RR)|exact EP]).
  assert (FP := areas_fit _ _ _ _ RP).
  assert (K : s_c0 sr = (s_c0 sp + 800)%Z /\ s_cols sr = 200%Z /\ usable_cols sp 800 1000 /\ s_r0 sp = 0%Z /\ s_rows sp = a_rows a).
  { destruct RR as [E1 E3]. apply lookup_in in E1. cbn [In detector_areas] in E1.
    repeat (destruct E1 as [E1|E1]; [injection E1 as <- <-; first [contradiction N; reflexivity|
      injection E3 as <-; injection EP as <-; unfold usable_cols; cbn; repeat split; lia]|]). contradiction. }
  destruct K as (K1 & K2 & K3 & K4 & K5).
  apply (prescan_frames None true imaging offset fs _ (Z.to_nat (a_rows a)) (Z.to_nat (a_cols a))).
  intros f If. assert (Hf := proj1 (Forall_forall _ _) F f If). cbn beta in Hf.
  destruct (bias_full detector_areas arr a Hin sp RP FP 800 1000 K3 offset f imaging K4 K5 Hf) as (o & E & B & Q1 & Q2).
  exists o. split; [exact E|]. split; [exact (proj1 B)|]. split; [|split; assumption].
  rewrite K1, K2. replace (s_c0 sp + 800 + 200)%Z with (s_c0 sp + 1000)%Z by lia. exact B.
Qed.

(** ENG_CONV: the declared columns are relative to the prescan, so none is left. *)
Lemma conv_empty : forall a offset (f : @bframe V D) full imaging o, lookup "ENG_CONV" detector_areas = Some a -> frame_ok "ENG_CONV" a f ->
  bias_frame sub med sterr detector_areas full imaging offset f = Ok o ->
  Forall (fun b => b = sub (med []) offset) (o_bias o).
Proof.
  intros a offset f full imaging o EA (Ea & Fd & Fq & Fe) E.
  assert (RP : region_of detector_areas "ENG_CONV" "prescan" a (mksec 2200 1128 0 1072 (Some 1200%Z) (Some 1400%Z))).
  { split; [exact EA|]. cbn [lookup detector_areas String.eqb] in EA. cbn in EA. injection EA as <-. reflexivity. }
  assert (FP := areas_fit _ _ _ _ RP).
  assert (G : forall im al x, Forall (fun row : list V => List.length row = Z.to_nat 1128) al ->
     subtract_bias sub med sterr detector_areas "ENG_CONV" offset im al = Ok x -> Forall (fun b => b = sub (med []) offset) (snd (fst x))).
  { intros im al x Fa. unfold subtract_bias. rewrite (unpack_ok _ _ _ _ _ RP). cbn [bind s_st s_end getkey].
    destruct (bcast_rows (fun row e => map (fun _ => e) row) im _) as [t|]; cbn [bind]; [|discriminate].
    destruct (bcast_rows (fun row b => map (fun v => sub v b) row) im _) as [t'|]; cbn [bind]; [|discriminate].
    intros X. injection X as <-. cbn [fst snd]. apply Forall_forall. intros b I. apply in_map_iff in I. destruct I as (l & <- & I).
    apply in_map_iff in I. destruct I as (row & <- & I). rewrite pyslice_empty; [reflexivity|].
    assert (L := proj1 (Forall_forall _ _) Fa row I). cbn beta in L. unfold zlen. rewrite L. rewrite Z2Nat.id by lia. reflexivity. }
  assert (Sub : forall lo hi (l : list (list V)) row, In row (pyslice lo hi l) -> In row l).
  { intros lo hi l row I. unfold pyslice in I. apply (In_nth_error) in I. destruct I as [i Ei].
    assert (T : i < List.length (firstn (Z.to_nat (norm_ix (zlen l) hi - norm_ix (zlen l) lo)) (skipn (Z.to_nat (norm_ix (zlen l) lo)) l))) by (apply nth_error_Some; rewrite Ei; discriminate).
    rewrite firstn_length in T. rewrite nth_error_firstn' in Ei by lia. rewrite nth_error_skipn' in Ei. exact (nth_error_In _ _ Ei). }
  unfold bias_frame in E. rewrite Ea in E. cbn [getkey bind] in E. rewrite known in E by (right; right; right; left; reflexivity).
  rewrite (area_ok _ _ _ _ _ RP) in E. cbn [bind] in E. rewrite (shape_ok _ _ FP _ _ Fd) in E.
  destruct (slice_section_spec _ _ _ _ _ RP FP V _ Fd) as (pre & E1 & P1). rewrite E1 in E. cbn [bind] in E.
  assert (Fp : Forall (fun row => List.length row = Z.to_nat 1128) pre) by (destruct P1 as [[_ F] _]; exact F).
  destruct full.
  - destruct (subtract_bias sub med sterr detector_areas "ENG_CONV" offset (b_data f) pre) as [x|] eqn:Ex; cbn [bind] in E; [|discriminate].
    injection E as <-. cbn [o_bias]. exact (G _ _ _ Fp Ex).
  - destruct imaging.
    + destruct (imaging_slice _ _ (b_data f)) as [im|]; cbn [bind] in E; [|discriminate].
      destruct (imaging_slice _ _ (b_dq f)) as [dq|]; cbn [bind] in E; [|discriminate].
      destruct (mapR _ (b_err f)) as [er|]; cbn [bind] in E; [|discriminate].
      destruct (imaging_area_geom _ _) as [[[[pr pc] ir] ic]|]; cbn [bind] in E; [|discriminate].
      rewrite (unpack_ok _ _ _ _ _ RP) in E. cbn [bind] in E.
      destruct (subtract_bias _ _ _ _ _ _ _ _) as [x|] eqn:Ex; cbn [bind] in E; [|discriminate].
      injection E as <-. cbn [o_bias]. apply (G _ _ _) in Ex; [exact Ex|].
      apply Forall_forall. intros row I. apply Sub in I. exact (proj1 (Forall_forall _ _) Fp _ I).
    + destruct (slice_section _ _ _ (b_data f)) as [im|]; cbn [bind] in E; [|discriminate].
      destruct (slice_section _ _ _ (b_dq f)) as [dq|]; cbn [bind] in E; [|discriminate].
      destruct (mapR _ (b_err f)) as [er|]; cbn [bind] in E; [|discriminate].
      destruct (unpack_geom detector_areas "ENG_CONV" "image") as [gi|]; cbn [bind] in E; [|discriminate].
      rewrite (unpack_ok _ _ _ _ _ RP) in E. cbn [bind] in E.
      destruct (subtract_bias _ _ _ _ _ _ _ _) as [x|] eqn:Ex; cbn [bind] in E; [|discriminate].
      injection E as <-. cbn [o_bias]. apply (G _ _ _) in Ex; [exact Ex|].
      apply Forall_forall. intros row I. apply Sub in I. exact (proj1 (Forall_forall _ _) Fp _ I).
Qed.

(** Rejected frames. *)
Lemma bias_rejects : forall rg full imaging offset (f : @bframe V D),
  (forall arr, b_arr f = Some arr -> ~ In arr ["SCI"; "ENG"; "ENG_EM"; "ENG_CONV"]
      \/ forall a, lookup arr rg = Some a -> ~ (zlen (b_data f) = a_rows a /\ Forall (fun row => zlen row = a_cols a) (b_data f))) ->
  exists e, bias_frame sub med sterr rg full imaging offset f = Raise e.
Proof.
  intros rg full imaging offset f H. unfold bias_frame.
  destruct (b_arr f) as [arr|]; cbn [getkey bind]; [|eexists; reflexivity].
  specialize (H arr eq_refl).
  destruct (existsb (String.eqb arr) ["SCI"; "ENG"; "ENG_EM"; "ENG_CONV"]) eqn:E; [|eexists; reflexivity].
  destruct H as [H|H].
  { apply existsb_exists in E. destruct E as (x & I & Ex). apply String.eqb_eq in Ex. subst x. contradiction. }
  unfold get_area. destruct (lookup arr rg) as [a|] eqn:EA; cbn [getkey bind]; [|eexists; reflexivity].
  destruct (Z.eqb (a_rows a) (zlen (b_data f)) && forallb (fun row => Z.eqb (a_cols a) (zlen row)) (b_data f)) eqn:ES; [|eexists; reflexivity].
  exfalso. apply (H a eq_refl). apply andb_prop in ES. destruct ES as [S1 S2]. apply Z.eqb_eq in S1. split; [symmetry; exact S1|].
  apply Forall_forall. intros row I. rewrite forallb_forall in S2. apply S2 in I. apply Z.eqb_eq in I. symmetry. exact I.
Qed.
End B.

(** The imaging area of the two tall array types starts at a negative row: the
    slice is empty. *)
Lemma imaging_negative : imaging_area_geom detector_areas "ENG_EM" = Ok (2070, 1056, -9, 1088)%Z
  /\ imaging_area_geom detector_areas "ENG_CONV" = Ok (2070, 1056, -9, 48)%Z.
Proof. split; reflexivity. Qed.
Lemma imaging_empty : forall A arr a (f : list (list A)), (arr = "ENG_EM" \/ arr = "ENG_CONV") -> lookup arr detector_areas = Some a ->
  full_frame a f -> imaging_slice detector_areas arr f = Ok [].
Proof.
  intros A arr a f H E [L _]. unfold imaging_slice.
  assert (AR : a_rows a = 2200%Z) by (destruct H as [->| ->]; cbn in E; injection E as <-; reflexivity).
  assert (L' : zlen f = 2200%Z) by (unfold zlen; rewrite L, AR; rewrite Z2Nat.id by lia; reflexivity).
  destruct H as [->| ->]; [rewrite (proj1 imaging_negative)|rewrite (proj2 imaging_negative)]; cbn [bind]; unfold slice2;
    (rewrite pyslice_empty; [reflexivity|rewrite L'; vm_compute; discriminate]).
Qed.
Lemma imaging_good : imaging_area_geom detector_areas "SCI" = Ok (1037, 1056, 0, 1088)%Z
  /\ imaging_area_geom detector_areas "ENG" = Ok (1037, 1056, 0, 1088)%Z.
Proof. split; reflexivity. Qed.
Lemma default_imaging : forall V D (sub : V -> V -> V) (med sterr : list V -> V) arr a sr offset (fs : list (@bframe V D)),
  arr = "SCI" \/ arr = "ENG" -> region_of detector_areas arr "prescan_reliable" a sr -> Forall (frame_ok arr a) fs ->
  exists out, prescan_biassub sub med sterr None false true offset fs = Ok out
    /\ Forall2 (fun f o => bias_subtracted sub med sterr (b_data f) 0 1088 1037 1056 (fun r => r) (s_c0 sr) (s_c0 sr + s_cols sr) offset o
         /\ part_of (b_dq f) 0 1088 1037 1056 (o_dq o)
         /\ Forall2 (fun x y => part_of x 0 1088 1037 1056 y) (b_err f) (o_err o)) fs out.
Proof.
  intros V D sub med sterr arr a sr offset fs H RR F.
  assert (Hin := arr_cases _ _ _ _ RR).
  assert (G : imaging_area_geom detector_areas arr = Ok (1037, 1056, 0, 1088)%Z) by (destruct H as [->| ->]; reflexivity).
  destruct (lookup "prescan" (a_secs a)) as [sp|] eqn:EP.
  2:{ exfalso. destruct RR as [E1 _]. destruct H as [->| ->]; cbn in E1; injection E1 as <-; discriminate EP. }
  assert (RP : region_of detector_areas arr "prescan" a sp) by (split; [exact (proj1 RR)|exact EP]).
  assert (FP := areas_fit _ _ _ _ RP).
  assert (K : s_c0 sr = (s_c0 sp + 800)%Z /\ s_cols sr = 200%Z /\ usable_cols sp 800 1000 /\ s_r0 sp = 0%Z /\ (1037 <= s_rows sp)%Z
     /\ (1037 <= a_rows a)%Z /\ (2144 <= a_cols a)%Z).
  { destruct RR as [E1 E3]. destruct H as [->| ->]; cbn in E1; injection E1 as <-; injection E3 as <-; injection EP as <-;
      unfold usable_cols; cbn; repeat split; lia. }
  destruct K as (K1 & K2 & K3 & K4 & K5 & K6 & K7).
  apply (prescan_frames sub med sterr None false true offset fs _ (Z.to_nat 1037) (Z.to_nat 1056)).
  intros f If. assert (Hf := proj1 (Forall_forall _ _) F f If). cbn beta in Hf.
  destruct (bias_imaging sub med sterr detector_areas arr a Hin sp RP FP 800 1000 K3 offset f _ _ _ _ G) as (o & E & B & Q1 & Q2); try lia; [exact Hf|].
  exists o. split; [exact E|]. split; [exact (proj1 B)|]. split; [|split; assumption].
  rewrite K1, K2. replace (s_c0 sp + 800 + 200)%Z with (s_c0 sp + 1000)%Z by lia. exact B.
Qed.
(** Imaging mode of the tall array types: the result has no pixel. *)
Lemma tall_imaging_empty : forall V D (sub : V -> V -> V) (med sterr : list V -> V) arr a offset (f : @bframe V D) o,
  arr = "ENG_EM" \/ arr = "ENG_CONV" -> lookup arr detector_areas = Some a -> frame_ok arr a f ->
  bias_frame sub med sterr detector_areas false true offset f = Ok o -> o_data o = [] /\ o_dq o = [].
Proof.
  intros V D sub med sterr arr a offset f o H EA (Ea & Fd & Fq & Fe) E.
  unfold bias_frame in E. rewrite Ea in E. cbn [getkey bind] in E.
  destruct (existsb _ _); [|discriminate]. unfold get_area in E at 1. rewrite EA in E. cbn [getkey bind] in E.
  destruct (negb _); [discriminate|].
  assert (Geom : exists c, imaging_area_geom detector_areas arr = Ok (2070, 1056, -9, c)%Z) by (destruct H as [->| ->]; eexists; reflexivity).
  destruct Geom as [c Geom].
  assert (Pre : exists p, unpack_geom detector_areas arr "prescan" = Ok p /\ s_r0 p = 0%Z /\ s_rows p = 2200%Z /\ region_of detector_areas arr "prescan" a p).
  { destruct H as [->| ->]; cbn in EA; injection EA as <-; eexists; (split; [reflexivity|split; [reflexivity|split; [reflexivity|split; reflexivity]]]). }
  destruct Pre as (p & Ep & P0 & P1 & RP).
  destruct (slice_section_spec _ _ _ _ _ RP (areas_fit _ _ _ _ RP) V _ Fd) as (pre & E1 & [[Lp _] _]).
  rewrite E1 in E. cbn [bind] in E.
  rewrite (imaging_empty _ arr a _ H EA Fd), (imaging_empty _ arr a _ H EA Fq) in E. cbn [bind] in E.
  destruct (mapR _ (b_err f)) as [er|]; cbn [bind] in E; [|discriminate].
  rewrite Geom in E. cbn [bind] in E. rewrite Ep in E. cbn [bind] in E.
  rewrite (pyslice_empty _ pre) in E.
  2:{ rewrite P0. unfold zlen. rewrite Lp, P1. rewrite Z2Nat.id by lia. vm_compute. discriminate. }
  unfold subtract_bias in E. rewrite Ep in E. cbn [bind] in E.
  destruct (s_st p); cbn [getkey bind] in E; [|discriminate]. destruct (s_end p); cbn [getkey bind] in E; [|discriminate].
  cbn in E. injection E as <-. split; reflexivity.
Qed.
