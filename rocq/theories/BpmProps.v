(** C37: the bad pixel map. *)
From Coq Require Import List Arith Reals ZArith NArith Lia Lra.
From Verif Require Import Base FloatModel DqModel DqSpec BpmModel BpmSpec BpmProofs.
Import ListNotations.
Local Open Scope R_scope.

(** Bit 3 is set exactly at the hot pixels, bit 2 exactly at the dead ones, and
    no other bit anywhere. *)
Theorem C37_map : forall nr nc dark flat k f w bpm, (0 < nr)%nat -> rect nr nc dark -> rect nr nc flat ->
  (create_bad_pixel_map (Master dark) flat k f w = Ok bpm <-> is_map dark flat nr nc k f w bpm).
Proof. exact map_iff. Qed.
Print Assumptions C37_map.
(** With noise maps, the same for the synthesized dark. *)
Theorem C37_noise_map : forall synth flat k f w, create_bad_pixel_map (NoiseMap synth) flat k f w = bind synth (fun d => create_bad_pixel_map (Master d) flat k f w).
Proof. exact noise_map_same. Qed.
Print Assumptions C37_noise_map.
(** Shapes that differ are refused. *)
Theorem C37_shapes : forall nr nc nr' nc' dark flat k f w, (0 < nr)%nat -> (0 < nr')%nat -> rect nr nc dark -> rect nr' nc' flat -> (nr, nc) <> (nr', nc') -> create_bad_pixel_map (Master dark) flat k f w = Raise IndexError.
Proof. exact shapes_differ. Qed.
Print Assumptions C37_shapes.
(** The box holds its pixel; an empty box flags nothing. *)
Theorem C37_box : forall w nr nc r c, (0 < w)%Z -> (r < nr /\ c < nc)%nat -> in_box w nr nc r c r c.
Proof. exact box_has_pixel. Qed.
Print Assumptions C37_box.
Theorem C37_no_box : forall flat nr nc f w r c, (w <= 0)%Z -> ~ dead flat nr nc f w r c.
Proof. exact no_box. Qed.
Print Assumptions C37_no_box.
(** At most one pixel in [k] squared is hot. *)
Theorem C37_few_hot : forall nr nc dark k ps, rect nr nc dark -> 0 < k -> NoDup ps -> (forall r c, In (r, c) ps -> hot dark k r c) -> INR (List.length ps) * k ^ 2 <= INR (nr * nc).
Proof. exact few_hot. Qed.
Print Assumptions C37_few_hot.
(** Neither the units of the dark nor its zero matter, nor the units of the flat. *)
Theorem C37_units : forall a b dark k r c, 0 < a -> (hot (rescaled a b dark) k r c <-> hot dark k r c).
Proof. exact hot_rescaled. Qed.
Print Assumptions C37_units.
Theorem C37_flat_units : forall a flat nr nc f w r c, 0 < a -> (dead (rescaled a 0 flat) nr nc f w r c <-> dead flat nr nc f w r c).
Proof. exact dead_rescaled. Qed.
Print Assumptions C37_flat_units.
(** With the correction of bad pixels: a pixel is lost exactly when it is hot,
    dead, or flagged in the low byte before, and the flags say which. *)
Theorem C37_in_use : forall nr nc dark flat k f w bpm fs fs', (0 < nr)%nat -> rect nr nc dark -> rect nr nc flat -> create_bad_pixel_map (Master dark) flat k f w = Ok bpm -> correct_bad_pixels (List.concat bpm) fs = Ok fs' ->
  each (fun g g' => forall r c v q, (r < nr /\ c < nc)%nat -> nth_error (f_px g) (r * nc + c)%nat = Some (v, q) ->
     exists (v' : fl) (q' : N), nth_error (f_px g') (r * nc + c)%nat = Some (v', q') /\
       (hot dark k r c \/ dead flat nr nc f w r c \/ (exists i, (i < 8)%N /\ N.testbit q i = true) -> v' = NaN /\ (hot dark k r c -> N.testbit q' 3 = true) /\ (dead flat nr nc f w r c -> N.testbit q' 2 = true) /\ N.testbit q' 1 = true)
       /\ (~ (hot dark k r c \/ dead flat nr nc f w r c \/ exists i, (i < 8)%N /\ N.testbit q i = true) -> v' = v /\ q' = 0%N)) fs fs'.
Proof. exact in_use. Qed.
Print Assumptions C37_in_use.

Definition ex_dark : list (list (option R)) := [[Some 0; Some 0; Some 0; Some 0; Some 10]].
Definition ex_flat : list (list (option R)) := [[Some 1; Some 1; Some (1 / 10); Some 1; Some 1]].
Lemma ex_hot : hot ex_dark 1 0 4.
Proof.
  exists 10, [0; 0; 0; 0; 10], 2, 4. split; [eexists; split; reflexivity|]. split; [repeat constructor|]. split; [|lra]. split; [discriminate|]. cbn. split; [lra|]. split; [lra|]. ring.
Qed.
Lemma ex_dead : dead ex_flat 1 5 (8 / 10) 3 0 2.
Proof.
  exists (1 / 10), [(0, 1); (0, 2); (0, 3)]%nat, [1; 1 / 10; 1]. split; [eexists; split; reflexivity|]. split; [repeat constructor; cbn; intuition congruence|]. split.
  - intros i j. unfold in_box. change (3 / 2)%Z with 1%Z. cbn [In]. split; [intros [E | [E | [E | []]]]; injection E as <- <-; cbn; lia|]. intros ((I & J) & _ & B). assert (i = 0%nat) by lia. subst i. assert (j = 1 \/ j = 2 \/ j = 3)%nat as [-> | [-> | ->]] by (cbn in B; lia); tauto.
  - split; [repeat constructor; (eexists; split; reflexivity)|]. split; [discriminate|]. cbn. lra.
Qed.
Example C37_map_case : exists bpm b c, create_bad_pixel_map (Master ex_dark) ex_flat 1 (8 / 10) 3 = Ok bpm /\ cell bpm 0 4 b /\ N.testbit b 3 = true /\ cell bpm 0 2 c /\ N.testbit c 2 = true /\ N.testbit c 3 = false.
Proof.
  assert (RD : rect 1 5 ex_dark) by (split; [reflexivity|intros row [<-|[]]; reflexivity]). assert (RF : rect 1 5 ex_flat) by (split; [reflexivity|intros row [<-|[]]; reflexivity]).
  pose proof (the_map_ok 1 5 ex_dark ex_flat 1 (8 / 10) 3 ltac:(lia) RD RF) as M. set (bpm := the_map ex_dark ex_flat 1 (8 / 10) 3) in *.
  destruct (proj2 (cell_in _ 1 5 bpm 0 4 (proj1 M)) ltac:(lia)) as (b & B). destruct (proj2 (cell_in _ 1 5 bpm 0 2 (proj1 M)) ltac:(lia)) as (c & C0).
  exists bpm, b, c. split; [apply (C37_map 1 5); [lia|assumption|assumption|exact M]|]. split; [exact B|]. split; [apply (proj1 (proj2 M 0%nat 4%nat b B)); exact ex_hot|]. split; [exact C0|]. destruct (proj2 M 0%nat 2%nat c C0) as (M3 & M2 & _). split; [apply M2; exact ex_dead|].
  destruct (N.testbit c 3); [|reflexivity]. destruct (proj1 M3 eq_refl) as (v & xs & m & s & (row & R0 & V) & N0 & (_ & MO & P & _) & LT).
  injection R0 as <-. injection V as <-. unfold numbers in N0. cbn in N0. repeat match goal with H : Forall2 _ _ _ |- _ => inversion H; clear H; subst end. repeat match goal with H : Some _ = Some _ |- _ => injection H as <- end. cbn in MO. lra.
Qed.

(** One NaN in the dark and no pixel is hot; a NaN in the flat and no pixel whose
    box holds it is dead, not even itself. *)
Theorem C37_nan_dark_refuted : forall dark k r c r' c', cell dark r' c' None -> ~ hot dark k r c.
Proof. exact nan_hides_hot. Qed.
Print Assumptions C37_nan_dark_refuted.
Theorem C37_nan_flat_refuted : forall flat nr nc f w r c r' c', cell flat r' c' None -> in_box w nr nc r c r' c' -> ~ dead flat nr nc f w r c.
Proof. exact nan_hides_dead. Qed.
Print Assumptions C37_nan_flat_refuted.
Example C37_nan_case : cell [[Some 0; None; Some 1000]] 0 1 None /\ in_box 32 1 3 0 0 0 1.
Proof. split; [eexists; split; reflexivity|]. unfold in_box. change (32 / 2)%Z with 16%Z. lia. Qed.
