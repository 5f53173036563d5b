(** Property theorems C26, C27 and the part of C28 on saturation limits. *)
From Coq Require Import List Arith Bool QArith NArith String Sorted Lia.
From Verif Require Import Base BaseProofs CosmicModel CosmicSpec CosmicProofs.
Import ListNotations.
Local Open Scope nat_scope.
Local Open Scope list_scope.

(** * C27 *)

(** find_plateaus is None exactly when no column is saturated, and otherwise
    the strictly increasing list of the plateau starts. *)
Theorem C27_plateaus : forall row fwc st pt cf,
  match find_plateaus row fwc st pt cf with
  | None => forall i, ~ sat_col row (st * fwc)%Q cf i
  | Some l => (exists i, sat_col row (st * fwc)%Q cf i) /\ StronglySorted lt l
              /\ forall s, In s l <-> starts row fwc st pt cf s
  end.
Proof. exact find_plateaus_spec. Qed.
Print Assumptions C27_plateaus.

(** The start belonging to a column is determined. *)
Theorem C27_start_unique : forall row t i s s', run_start row t i s -> run_start row t i s' -> s = s'.
Proof. exact run_start_unique. Qed.
Print Assumptions C27_start_unique.

(** Every column of the row has one. *)
Theorem C27_start_exists : forall row t i, i < List.length row -> exists s, run_start row t i s.
Proof. exact (fun row t i H => ex_intro _ _ (plateau_beg_spec row t i H)). Qed.
Print Assumptions C27_start_exists.

(** The filter is the median filter: its value reaches a threshold exactly when
    enough pixels of the window do. *)
Theorem C27_filter_rank : forall row sat cf i, In i (saturated row sat cf) <-> sat_col row sat cf i.
Proof. exact saturated_spec. Qed.
Print Assumptions C27_filter_rank.

(** Two plateaus, the second with its ledge below saturation, and a lone bright
    pixel that is not a plateau. *)
Definition ex_row : list Q := [1; 10; 10; 10; 2; 1; 10; 1; 9; 10; 10; 10; 1]%Q.
Example C27_example :
  find_plateaus ex_row 10%Q 1%Q (9 # 10)%Q 2 = Some [1; 8]
  /\ find_plateaus [1; 10; 1]%Q 10%Q 1%Q (9 # 10)%Q 2 = None
  /\ find_plateaus [10; 1; 10; 10; 1]%Q 10%Q 1%Q (9 # 10)%Q 2 = Some [0; 2]
  /\ starts ex_row 10%Q 1%Q (9 # 10)%Q 2 8.
Proof.
  split; [reflexivity|]. split; [reflexivity|]. split; [reflexivity|].
  pose proof (find_plateaus_spec ex_row 10%Q 1%Q (9 # 10)%Q 2) as FP.
  change (find_plateaus ex_row 10%Q 1%Q (9 # 10)%Q 2) with (Some [1; 8]) in FP.
  apply FP. right. left. reflexivity.
Qed.

(** A saturated column can itself lie below the plateau threshold (a gap of one
    pixel between two bright ones): the "start" is then the pixel after it. *)
Example C27_gap : find_plateaus [1; 10; 1; 10; 1]%Q 10%Q 1%Q (9 # 10)%Q 2 = Some [3].
Proof. reflexivity. Qed.

(** * C26 *)

(** Image mode: exactly the segments and boxes of the hits. *)
Theorem C26_image : forall im nr nc fwc st pt cf cb ct frame r c,
  r < nr -> c < nc -> List.length frame = nr ->
  (flag_cosmics ImageMode im nr nc fwc st pt cf cb ct frame r c = true <->
   exists i s, hit frame 0 (nr - 1) 0 (nc - 1) fwc st pt cf i s /\ (in_tail nc cf ct i s r c \/ in_box cb i s r c)).
Proof. exact flag_image. Qed.
Print Assumptions C26_image.

(** Full mode: hits in the image area and in the row and column after it; boxes
    cut to that extended area; and the continuation of an over-long tail, which
    covers the pixels after the end of the row up to, but not including, the
    last one of the tail. *)
Theorem C26_full : forall im nr nc fwc st pt cf cb ct frame r c,
  r < nr -> c < nc -> List.length frame = nr ->
  (flag_cosmics FullMode im nr nc fwc st pt cf cb ct frame r c = true <->
   exists i s, hit frame (g_r0 im) (g_r0 im + g_rows im) (g_c0 im) (g_c0 im + g_cols im) fwc st pt cf i s /\
     (in_tail nc cf ct i s r c
      \/ (in_box cb i s r c /\ g_r0 im <= r <= g_r0 im + g_rows im /\ g_c0 im <= c <= g_c0 im + g_cols im)
      \/ (s + cf + ct + 1 > nc /\ (i + 1) * nc - 1 <= r * nc + c /\ r * nc + c + 1 < i * nc + (s + cf + ct + 1)))).
Proof. exact flag_full. Qed.
Print Assumptions C26_full.

Definition ex_image : list (list Q) :=
  [[1; 1; 1; 1; 1; 1]; [1; 10; 10; 10; 1; 1]; [1; 1; 1; 1; 1; 1]]%Q.
Example C26_example :
  let m := flag_cosmics ImageMode (mkregion 0 0 0 0) 3 6 10%Q 1%Q (9 # 10)%Q 2 1 1 ex_image in
  map (fun r => map (m r) (seq 0 6)) (seq 0 3)
  = [[true; true; true; false; false; false]; [true; true; true; true; true; false]; [true; true; true; false; false; false]].
Proof. reflexivity. Qed.

(** Full mode does not keep boxes inside the image area: the first column and
    row beyond it can be flagged.  Image area: rows 1-2, columns 1-3. *)
Definition ex_full : list (list Q) :=
  [[1; 1; 1; 1; 1; 1; 1]; [1; 1; 1; 1; 1; 1; 1]; [1; 1; 1; 10; 10; 10; 1]; [1; 1; 1; 1; 1; 1; 1]; [1; 1; 1; 1; 1; 1; 1]]%Q.
Theorem C26_box_outside_image_refuted :
  exists im nr nc fwc st pt cf cb ct frame r c,
    r < nr /\ c < nc /\ List.length frame = nr
    /\ flag_cosmics FullMode im nr nc fwc st pt cf cb ct frame r c = true
    /\ g_r0 im + g_rows im <= r /\ g_c0 im + g_cols im <= c
    /\ (forall i s, hit frame 0 (nr - 1) 0 (nc - 1) fwc st pt cf i s -> ~ in_tail nc cf ct i s r c).
Proof.
  exists (mkregion 2 3 1 1), 5, 7, 10%Q, 1%Q, (9 # 10)%Q, 2, 1, 0, ex_full, 3, 4.
  split; [lia|]. split; [lia|]. split; [reflexivity|]. split; [reflexivity|]. cbn [g_r0 g_rows g_c0 g_cols]. split; [lia|]. split; [lia|].
  intros i s (row & Hi & _ & _ & Hs) (<- & _). cbn in Hi. injection Hi as <-.
  pose proof (find_plateaus_spec [1; 1; 1; 1; 1; 1; 1]%Q 10%Q 1%Q (9 # 10)%Q 2) as FP.
  change (find_plateaus [1; 1; 1; 1; 1; 1; 1]%Q 10%Q 1%Q (9 # 10)%Q 2) with (@None (list nat)) in FP.
  destruct Hs as (j & Hj & _). exact (FP j Hj).
Qed.
Print Assumptions C26_box_outside_image_refuted.

(** The tail that continues on the next row misses its last pixel. *)
Theorem C26_wrap_short_refuted :
  exists im nr nc fwc st pt cf cb ct frame i s r c,
    r < nr /\ c < nc /\ List.length frame = nr
    /\ hit frame (g_r0 im) (g_r0 im + g_rows im - 1) (g_c0 im) (g_c0 im + g_cols im - 1) fwc st pt cf i s
    /\ r * nc + c = i * nc + (s + cf + ct)
    /\ nc <= s + cf + ct
    /\ flag_cosmics FullMode im nr nc fwc st pt cf cb ct frame r c = false.
Proof.
  exists (mkregion 3 5 1 1), 5, 7, 10%Q, 1%Q, (9 # 10)%Q, 2, 0, 3, ex_full, 2, 3, 3, 1.
  split; [lia|]. split; [lia|]. split; [reflexivity|]. split.
  - exists [1; 1; 1; 10; 10; 10; 1]%Q. split; [reflexivity|]. cbn [g_r0 g_rows g_c0 g_cols]. split; [lia|]. split; [lia|].
    pose proof (find_plateaus_spec [1; 1; 1; 10; 10; 10; 1]%Q 10%Q 1%Q (9 # 10)%Q 2) as FP.
    change (find_plateaus [1; 1; 1; 10; 10; 10; 1]%Q 10%Q 1%Q (9 # 10)%Q 2) with (Some [3]) in FP.
    apply FP. left. reflexivity.
  - split; [reflexivity|]. split; [lia|]. reflexivity.
Qed.
Print Assumptions C26_wrap_short_refuted.

(** * C28: detect_cosmic_rays *)

(** When no frame has a measured gain, each frame gets its own saturation limit
    and exactly the saturation and cosmic ray bits described. *)
Theorem C28_saturation : forall regions md nr nc kg pp em st pt cf cb ct frames res,
  (forall f, In f frames -> h_gm (cr_hdr f) = None) ->
  detect_cosmic_rays regions md nr nc kg pp em st pt cf cb ct frames = Ok res ->
  List.length res = List.length frames /\
  forall i f, nth_error frames i = Some f -> exists g a im dq',
    gain_of (cr_hdr f) g /\ h_arr (cr_hdr f) = Some a /\ (md = FullMode -> regions a = Some im)
    /\ nth_error res i = Some (dq', (st * qmin (g * (pp / kg)) (em / kg))%Q)
    /\ forall r c b, N.testbit (dq' r c) b = true <->
         N.testbit (cr_dq f r c) b = true
         \/ (b = 5%N /\ exists row x, nth_error (cr_data f) r = Some row /\ nth_error row c = Some x /\ (st * qmin (g * (pp / kg)) (em / kg) <= x)%Q)
         \/ (b = 7%N /\ flag_cosmics md im nr nc (em / kg)%Q st pt cf cb ct (cr_data f) r c = true).
Proof. exact detect_spec. Qed.
Print Assumptions C28_saturation.

Theorem C28_lower_capacity : forall a b, (qmin a b <= a)%Q /\ (qmin a b <= b)%Q /\ (qmin a b = a \/ qmin a b = b).
Proof. exact qmin_spec. Qed.
Print Assumptions C28_lower_capacity.

Definition ex_cr (gm : option Q) (ga : Q) : cr_frame :=
  mkcrf ex_image (fun _ _ => 1%N) (mkcrh gm (Some ga) (Some 2%Q) (Some "SCI"%string)).
Example C28_example :
  match detect_cosmic_rays (fun _ => None) ImageMode 3 6 1%Q 4%Q 10%Q 1%Q (9 # 10)%Q 2 1 1 [ex_cr None 3%Q; ex_cr None 0%Q] with
  | Ok [(d1, s1); (d2, s2)] => (s1 == 10)%Q /\ (s2 == 8)%Q /\ d1 1 1 = 161%N /\ d1 0 0 = 129%N /\ d1 0 5 = 1%N
  | _ => False end.
Proof. repeat split. Qed.

(** A measured gain is never used: with measured gains only, the step fails;
    with exactly one frame lacking it, that frame's gain is used for all; with
    any other mixture the step fails. *)
Theorem C28_measured_gain_refuted : forall regions md nr nc kg pp em st pt cf cb ct frames,
  frames <> [] -> (forall f, In f frames -> h_gm (cr_hdr f) <> None) ->
  detect_cosmic_rays regions md nr nc kg pp em st pt cf cb ct frames = Raise ValueError.
Proof. exact detect_measured. Qed.
Print Assumptions C28_measured_gain_refuted.

Theorem C28_one_unmeasured_refuted : forall regions md nr nc kg pp em st pt cf cb ct frames res g0,
  gain_list (map cr_hdr frames) = Ok [g0] ->
  detect_cosmic_rays regions md nr nc kg pp em st pt cf cb ct frames = Ok res ->
  forall i dq' s, nth_error res i = Some (dq', s) -> s = (st * qmin (g0 * (pp / kg)) (em / kg))%Q.
Proof. exact detect_mixed. Qed.
Print Assumptions C28_one_unmeasured_refuted.

(** The gain list has one entry per frame lacking a measured gain. *)
Theorem C28_gain_list_length : forall hs l, gain_list hs = Ok l ->
  List.length l = List.length (filter (fun h => match h_gm h with Some _ => false | None => true end) hs).
Proof. exact gain_list_length. Qed.
Print Assumptions C28_gain_list_length.

Theorem C28_mixture_refuted : forall regions md nr nc kg pp em st pt cf cb ct frames gs,
  gain_list (map cr_hdr frames) = Ok gs -> List.length gs <> List.length frames -> List.length gs <> 1 ->
  detect_cosmic_rays regions md nr nc kg pp em st pt cf cb ct frames = Raise ValueError.
Proof. exact detect_some_measured. Qed.
Print Assumptions C28_mixture_refuted.

(** Frame 0 has measured gain 1 (limit 4), frame 1 applied gain 2: both get the
    limit of gain 2. *)
Example C28_mixture_example :
  match detect_cosmic_rays (fun _ => None) ImageMode 3 6 1%Q 4%Q 10%Q 1%Q (9 # 10)%Q 2 1 1 [ex_cr (Some 1%Q) 3%Q; ex_cr None 2%Q] with
  | Ok [(_, s1); (_, s2)] => (s1 == 8)%Q /\ (s2 == 8)%Q
  | _ => False end
  /\ detect_cosmic_rays (fun _ => None) ImageMode 3 6 1%Q 4%Q 10%Q 1%Q (9 # 10)%Q 2 1 1 [ex_cr (Some 1%Q) 3%Q] = Raise ValueError.
Proof. repeat split. Qed.
