(** Specification of the sorting of pupil-imaging frames. *)
From Coq Require Import List Arith QArith ZArith String Ascii Sorted Permutation.
From Verif Require Import Base SortModel.
Import ListNotations.
Local Open Scope Z_scope.
Local Open Scope list_scope.

(** ** File names *)
(** [numeral ds z]: the non-empty digit string [ds] reads [z] in base ten. *)
Definition figure (c : ascii) (d : Z) : Prop := 0 <= d <= 9 /\ Z.of_nat (nat_of_ascii c) = 48 + d.
Inductive numeral : list ascii -> Z -> Prop :=
| num_one : forall c d, figure c d -> numeral [c] d
| num_more : forall ds z c d, numeral ds z -> figure c d -> numeral (ds ++ [c]) (10 * z + d).

(** The frame number: the digits between the last underscore and the last
    period, or the end of the name when it has no period. *)
Definition frame_number (name : string) (z : Z) : Prop :=
  exists pre ds post, list_ascii_of_string name = pre ++ "_"%char :: ds ++ post /\ numeral ds z
    /\ ((post = [] /\ ~ In "."%char pre) \/ exists e, post = "."%char :: e /\ ~ In "."%char e /\ ~ In "_"%char e).

(** ** Frames *)
Definition has_gain (g : Q) (f : sfr) : Prop := exists q, s_gain f = Some q /\ (q == g)%Q.
Definition has_exp (e : Q) (f : sfr) : Prop := exists q, s_exp f = Some q /\ (q == e)%Q.

(** [l] lists, in increasing order, the positions of the frames with property [P]. *)
Definition positions (fs : list sfr) (P : sfr -> Prop) (l : list nat) : Prop :=
  StronglySorted lt l /\ forall i, In i l <-> exists f, nth_error fs i = Some f /\ P f.

(** ** Mean frames *)
(** The exposure time [e] of most unity-gain frames, the shortest on a tie. *)
Definition most_populated (fs : list sfr) (e : Q) (l : list nat) : Prop :=
  let group e l := positions fs (fun f => has_gain 1 f /\ has_exp e f) l in
  group e l /\ l <> [] /\ forall e' l', group e' l' -> (List.length l' <= List.length l)%nat /\ ((e' < e)%Q -> (List.length l' < List.length l)%nat).

Definition consecutive (l : list Z) : Prop := forall i a b, nth_error l i = Some a -> nth_error l (S i) = Some b -> b = a + 1.

(** The first longest stretch of consecutive integers among the sorted ids. *)
Definition longest_run (ids run : list Z) : Prop :=
  exists s pre post, Permutation ids s /\ StronglySorted Z.le s /\ s = pre ++ run ++ post /\ consecutive run
    /\ forall pre' run' post', s = pre' ++ run' ++ post' -> consecutive run' -> run' <> [] ->
         (List.length run' <= List.length run)%nat /\ ((List.length pre' < List.length pre)%nat -> (List.length run' < List.length run)%nat).

Definition numbered (fs : list sfr) (i : nat) (z : Z) : Prop := exists f, nth_error fs i = Some f /\ frame_number (s_name f) z.
Definition mean_frames (fs : list sfr) (e : Q) (m : list nat) : Prop :=
  exists l ids run, most_populated fs e l /\ Forall2 (numbered fs) l ids /\ longest_run ids run
    /\ StronglySorted lt m /\ forall i, In i m <-> In i l /\ exists z, numbered fs i z /\ In z run.

(** ** Frames in time order *)
(** A row (id, exposure time, path) describes the frame at a position. *)
Definition describes (fs : list sfr) (i : nat) (r : Z * Q * string) : Prop :=
  exists f, nth_error fs i = Some f /\ frame_number (s_name f) (rid r) /\ s_exp f = Some (rexp r) /\ s_path f = snd r.
Definition in_order (fs : list sfr) (P : sfr -> Prop) (s : list (Z * Q * string)) : Prop :=
  exists l rows, positions fs P l /\ Forall2 (describes fs) l rows /\ Permutation rows s /\ StronglySorted (fun a b => rid a < rid b) s.

(** ** K-gain *)
(** [G] cuts [s] into its stretches of equal exposure time. *)
Definition same_exp (g g' : list (Z * Q * string)) : Prop := forall a b, In a g -> In b g' -> (rexp a == rexp b)%Q.
Definition shorter (g g' : list (Z * Q * string)) : Prop := exists a b, In a g /\ In b g' /\ (rexp a < rexp b)%Q.
Definition stretches (s : list (Z * Q * string)) (G : list (list (Z * Q * string))) : Prop :=
  s = List.concat G /\ (forall g, In g G -> g <> [] /\ same_exp g g)
  /\ forall i g g', nth_error G i = Some g -> nth_error G (S i) = Some g' -> ~ same_exp g g'.

(** Stretch [j] continues a sequence: as many frames as the one before, all ids
    of the two consecutive, longer exposures. *)
Definition step (G : list (list (Z * Q * string))) (j : nat) : Prop :=
  exists i g g', j = S i /\ nth_error G i = Some g /\ nth_error G j = Some g' /\ List.length g' = List.length g
    /\ consecutive (map rid (g ++ g')) /\ shorter g g'.
(** Stretch [j] turns back to an exposure time already used. *)
Definition turn (G : list (list (Z * Q * string))) (j : nat) : Prop :=
  exists i g g' k h, j = S i /\ nth_error G i = Some g /\ nth_error G j = Some g' /\ shorter g' g
    /\ (k < j)%nat /\ nth_error G k = Some h /\ same_exp h g'.
(** The first stretch and the steps before [j] all have different exposure times. *)
Definition distinct_steps (G : list (list (Z * Q * string))) (j : nat) : Prop :=
  forall i i' g g', (i < i' < j)%nat -> (i = O \/ step G i) -> step G i' -> nth_error G i = Some g -> nth_error G i' = Some g' -> ~ same_exp g g'.

(** The selected paths: everything up to the only turn. *)
Definition kgain_rows (s sel : list (Z * Q * string)) : Prop :=
  exists G j, stretches s G /\ turn G j /\ (forall j', turn G j' -> j' = j) /\ distinct_steps G j /\ sel = List.concat (firstn (S j) G).

(** ** Non-linearity *)
(** Rows p..q: a maximal non-decreasing stretch p..q-1 followed by a drop at q,
    which is strictly increasing and contains the exposure time of q. *)
Definition rises_falls (s : list (Z * Q * string)) (p q : nat) : Prop :=
  (p < q)%nat /\
  (p = O \/ exists i a b, p = S i /\ nth_error s i = Some a /\ nth_error s p = Some b /\ (rexp b < rexp a)%Q)
  /\ (forall i a b, (p <= i)%nat -> (S i < q)%nat -> nth_error s i = Some a -> nth_error s (S i) = Some b -> (rexp a < rexp b)%Q)
  /\ (exists i a b, q = S i /\ nth_error s i = Some a /\ nth_error s q = Some b /\ (rexp b < rexp a)%Q)
  /\ (exists i a b, (p <= i < q)%nat /\ nth_error s i = Some a /\ nth_error s q = Some b /\ (rexp a == rexp b)%Q).
(** The first longest of them, or nothing. *)
Definition nonlin_rows (s sel : list (Z * Q * string)) : Prop :=
  (sel = [] /\ forall p q, ~ rises_falls s p q)
  \/ exists p q, rises_falls s p q /\ sel = firstn (S q - p) (skipn p s)
     /\ forall p' q', rises_falls s p' q' -> (q' - p' <= q - p)%nat /\ ((p' < p)%nat -> (q' - p' < q - p)%nat).

(** ** Everything *)
(** The frames whose path is one of those of [sel]; each has a visit type. *)
Definition picked (fs : list sfr) (sel : list (Z * Q * string)) (l : list nat) : Prop :=
  positions fs (fun f => exists r, In r sel /\ snd r = s_path f) l
  /\ forall i f, In i l -> nth_error fs i = Some f -> s_vis f <> None.
Definition other_gains (fs : list sfr) (gs : list Q) : Prop :=
  StronglySorted Qlt gs /\ (forall g, In g gs -> ~ (g == 1)%Q /\ exists f, In f fs /\ has_gain g f)
  /\ forall f q, In f fs -> s_gain f = Some q -> ~ (q == 1)%Q -> exists g, In g gs /\ (g == q)%Q.
Definition nonlin_picks (fs : list sfr) (ns : list nat) : Prop :=
  exists gs xs, other_gains fs gs /\ ns = List.concat xs
    /\ Forall2 (fun g x => exists s sel, in_order fs (has_gain g) s /\ nonlin_rows s sel /\ picked fs sel x) gs xs.

Definition kgain_picks (fs : list sfr) (e : Q) (ks : list nat) : Prop :=
  exists s sel, in_order fs (fun f => has_gain 1 f /\ ~ has_exp e f) s /\ kgain_rows s sel /\ picked fs sel ks.

(** The calibration types accepted, in any letter case. *)
Definition any_case (x y : ascii) : Prop :=
  x = y \/ (65 <= nat_of_ascii x <= 90 /\ nat_of_ascii y = nat_of_ascii x + 32)%nat.
Definition spells (l : list ascii) (w : string) : Prop := Forall2 any_case l (list_ascii_of_string w).
Definition is_type (ty : string) (t : caltype) : Prop :=
  let l := list_ascii_of_string ty in
  match t with
  | KGain => spells l "k-gain" \/ spells l "kgain"
  | NonLin => exists a b, l = a ++ b /\ (spells a "non-lin" \/ spells a "nonlin")
  end.

(** Frames of one gain have different ids. *)
Definition distinct_ids (fs : list sfr) : Prop :=
  forall i j f f' q q' z, nth_error fs i = Some f -> nth_error fs j = Some f' -> s_gain f = Some q -> s_gain f' = Some q' -> (q == q')%Q ->
    frame_number (s_name f) z -> frame_number (s_name f') z -> i = j.
Definition distinct_paths (fs : list sfr) : Prop := NoDup (map s_path fs).

Definition sorted_frames (ty : string) (fs : list sfr) (m ks ns : list nat) : Prop :=
  (forall f, In f fs -> s_gain f <> None) /\ (forall f, In f fs -> has_gain 1 f -> s_exp f <> None)
  /\ exists t e, is_type ty t /\ mean_frames fs e m /\ kgain_picks fs e ks
     /\ match t with KGain => ns = [] | NonLin => nonlin_picks fs ns end.
