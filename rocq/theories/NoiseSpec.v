(** Specification of the noise maps. *)
From Coq Require Import List Arith Bool Reals ZArith String Sorting.Sorted.
From Verif Require Import Base CombineModel CombineSpec ComboSpec GeomModel GeomSpec FlatModel FlatSpec NoiseModel.
Import ListNotations.
Local Open Scope R_scope.

(** ** Sub-stacks: the frames of one exposure time, commanded gain and k gain, in the order of these *)
Definition alike (f g : frame) : Prop := f_time f = f_time g /\ f_gain f = f_gain g /\ f_kgain f = f_kgain g.
Definition before (f g : frame) : Prop :=
  f_time f < f_time g \/ f_time f = f_time g /\ (f_gain f < f_gain g \/ f_gain f = f_gain g /\ f_kgain f < f_kgain g).
Definition splits (fs : list frame) (ss : list (list frame)) : Prop :=
  Forall (fun s => exists f, In f s /\ sieve (alike f) fs s) ss
  /\ (forall f, In f fs -> exists s, In s ss /\ In f s)
  /\ StronglySorted (fun s s' => forall f f', In f s -> In f' s' -> before f f') ss.

Section Spec.
Variable rg : regions.
Variable tel : Z * option Z.

(** ** Rows and regions *)
Definition telemetry (n r : nat) : Prop := within n (fst tel) (match snd tel with Some h => h | None => Z.of_nat n end) r.
Definition in_box (nr nc : nat) (r0 c0 h w : Z) (p : nat * nat) : Prop := within nr r0 (r0 + h) (fst p) /\ within nc c0 (c0 + w) (snd p).
Definition in_section (nr nc : nat) (s : section) : nat * nat -> Prop := in_box nr nc (s_r0 s) (s_c0 s) (s_rows s) (s_cols s).
(** The image area with its shielded pixels. *)
Definition shielded (a : area) (r0 c0 h w : Z) : Prop := exists pre ser par im,
  lookup "prescan" (a_secs a) = Some pre /\ lookup "serial_overscan" (a_secs a) = Some ser /\ lookup "parallel_overscan" (a_secs a) = Some par /\ lookup "image" (a_secs a) = Some im
  /\ (h = a_rows a - s_rows par /\ w = a_cols a - s_cols pre - s_cols ser /\ r0 = s_r0 im + s_rows im - h /\ c0 = s_c0 im)%Z.

(** ** One sub-stack at one pixel: of the frames in which it is not flagged *)
Definition used (s : list frame) (r c : nat) (gs : list frame) : Prop := sieve (fun f => f_dq f r c = 0%Z) s gs.
Definition read (r c : nat) (f : frame) (v : val) : Prop := telemetry (rows (f_img f)) r /\ v = Some 0 \/ ~ telemetry (rows (f_img f)) r /\ v = pix (f_img f) r c.
(** The mean, 0 if there are none. *)
Definition stack_mean (s : list frame) (r c : nat) (v : val) : Prop := exists gs vs, used s r c gs /\ Forall2 (read r c) gs vs /\
  match v with
  | Some m => gs = [] /\ m = 0 \/ exists xs, vs = map Some xs /\ is_mean xs m
  | None => In None vs
  end.
(** The square of the error is the mean of those of the frames and the variance of the mean. *)
Definition stack_err (s : list frame) (r c : nat) (v : val) : Prop := exists gs vs, used s r c gs /\ Forall2 (read r c) gs vs /\
  match v with
  | Some e => 0 <= e /\ (gs = [] /\ e = 0 \/ exists xs ys m q u, vs = map Some xs /\ map (fun f => f_err f r c) gs = map Some ys
      /\ is_mean xs m /\ is_mean (map (fun x => (x - m) ^ 2) xs) q /\ is_mean (map (fun y => y ^ 2) ys) u /\ e ^ 2 = u + q / INR (List.length gs))
  | None => In None vs \/ In None (map (fun f => f_err f r c) gs)
  end.

(** ** Least squares.  A triple holds fixed pattern, clock-induced charge and dark current; a sub-stack has a gain and an exposure time. *)
Definition predicted (p : R * R) (q : R * R * R) : R := fst (fst q) + fst p * snd (fst q) + fst p * snd p * snd q.
Definition misfit (gts : list (R * R)) (ys : list R) (q : R * R * R) : R := fold_right Rplus 0 (map (fun o => (snd o - predicted (fst o) q) ^ 2) (combine gts ys)).
Definition best (gts : list (R * R)) (ys : list R) (q : R * R * R) : Prop := forall q', misfit gts ys q <= misfit gts ys q'.
(** The settings determine the triple. *)
Definition determined (gts : list (R * R)) : Prop := forall q, (forall p, In p gts -> predicted p q = 0) -> q = (0, 0, 0).
(** How the fitted number [k] follows the means: its variance for means of variance 1. *)
Definition response (gts : list (R * R)) (k : R * R * R -> R) (v : R) : Prop := exists ws, List.length ws = List.length gts
  /\ (forall ys q, List.length ys = List.length gts -> best gts ys q -> k q = fold_right Rplus 0 (map (fun o => fst o * snd o) (combine ws ys)))
  /\ v = fold_right Rplus 0 (map (fun w => w ^ 2) ws).
(** Standard deviation of the fitted number [k]. *)
Definition spread (gts : list (R * R)) (ys : list R) (k : R * R * R -> R) (e : R) : Prop :=
  0 <= e /\ exists q v, best gts ys q /\ response gts k v /\ e ^ 2 = misfit gts ys q / (INR (List.length gts) - 3) * v.

(** The fit at a pixel and its standard deviations. *)
Definition fitted (nr : nat) (gts : list (R * R)) (ss : list (list frame)) (r c : nat) (x : option ((R * R * R) * (R * R * R))) : Prop :=
  match x with
  | Some (q, e) => ~ telemetry nr r /\ exists ys, Forall2 (fun s y => stack_mean s r c (Some y)) ss ys /\ best gts ys q
      /\ spread gts ys (fun q => fst (fst q)) (fst (fst e)) /\ spread gts ys (fun q => snd (fst q)) (snd (fst e)) /\ spread gts ys (fun q => snd q) (snd e)
  | None => telemetry nr r \/ exists s, In s ss /\ stack_mean s r c None
  end.
(** The error of the frames, taken together. *)
Definition pooled (ss : list (list frame)) (r c : nat) (v : val) : Prop :=
  match v with
  | Some e => 0 <= e /\ exists es, Forall2 (fun s x => stack_err s r c (Some x)) ss es /\ e ^ 2 * sqrt (INR (List.length ss)) = fold_right Rplus 0 (map (fun x => x ^ 2) es)
  | None => exists s, In s ss /\ stack_err s r c None
  end.

(** ** Flags: 1 for pixels flagged in every frame of all sub-stacks but three at most, else 256 for those flagged in more than half of the frames of
    all sub-stacks but three at most *)
Definition lost (r c : nat) (s : list frame) : Prop := used s r c [].
Definition poor (r c : nat) (s : list frame) : Prop := exists gs, used s r c gs /\ (2 * List.length gs < List.length s)%nat.
Definition all_but_three (P : list frame -> Prop) (ss : list (list frame)) : Prop := exists l, sieve P ss l /\ (List.length ss <= List.length l + 3)%nat.
Definition flagged (ss : list (list frame)) (r c : nat) (v : Z) : Prop :=
  all_but_three (lost r c) ss /\ v = 1%Z \/ ~ all_but_three (lost r c) ss /\ all_but_three (poor r c) ss /\ v = 256%Z \/ ~ all_but_three (lost r c) ss /\ ~ all_but_three (poor r c) ss /\ v = 0%Z.

(** ** Settings *)
Definition gain_is (f : frame) (g : R) : Prop :=
  f_measured f = Some g \/ f_measured f = None /\ exists a, f_applied f = Some a /\ (0 < a /\ g = a \/ a <= 0 /\ g = f_gain f).
Definition settings (ss : list (list frame)) (gts : list (R * R)) (ks : list R) : Prop :=
  Forall2 (fun s p => exists f t, s = f :: t /\ gain_is f (fst p) /\ snd p = f_time f) ss gts /\ Forall2 (fun s k => exists f t, s = f :: t /\ k = f_kgain f) ss ks.
Definition readable (si : section) (f : frame) : Prop :=
  (exists p, in_section (rows (f_img f)) (cols (f_img f)) si p)
  /\ forall p, in_section (rows (f_img f)) (cols (f_img f)) si p -> ~ telemetry (rows (f_img f)) (fst p) /\ pix (f_img f) (fst p) (snd p) <> None.
Definition admissible (gts : list (R * R)) (ks : list R) : Prop :=
  (exists p q, In p gts /\ In q gts /\ fst p <> fst q) /\ (exists p q, In p gts /\ In q gts /\ snd p <> snd q)
  /\ Forall (fun p => 1 <= fst p /\ 0 <= snd p) gts /\ Forall (fun k => 0 < k) ks /\ NoDup gts.
(** The first sub-stack with the least product of gain and time does not have the largest gain. *)
Definition gain_above (gts : list (R * R)) : Prop := exists l p m q, gts = l ++ p :: m /\ Forall (fun x => fst p * snd p < fst x * snd x) l /\ Forall (fun x => fst p * snd p <= fst x * snd x) m
  /\ In q gts /\ fst p < fst q.

(** ** Bias offset: the mean over the sub-stacks of the median, over the prescan, of what the fit leaves, in DN.  With [d] = 1 or -1 all errors push it up or down. *)
Definition leaves (x : option ((R * R * R) * (R * R * R))) (y : val) (p : R * R) (v : val) : Prop :=
  match x, y with Some (q, _), Some m => v = Some (m - predicted p q) | _, _ => v = None end.
Definition leaves_by (d : R) (x : option ((R * R * R) * (R * R * R))) (err y : val) (p : R * R) (v : val) : Prop :=
  match x, err, y with
  | Some (q, e), Some u, Some m => v = Some (m - predicted p q + d * (u + predicted p e))
  | _, _, _ => v = None
  end.
Definition offset (left : nat * nat -> val -> R * R -> val -> Prop) (ps : list (nat * nat)) (ss : list (list frame)) (gts : list (R * R)) (ks : list R) (b : R) : Prop :=
  exists os, is_mean os b /\ Forall2 (fun z o => exists vs m, Forall2 (fun p v => exists y, stack_mean (fst (fst z)) (fst p) (snd p) y /\ left p y (snd (fst z)) v) ps vs
                                                            /\ median_of vs (Some m) /\ o = m / snd z) (combine (combine ss gts) ks) os.

Definition floor0 (x : val) : val := option_map (Rmax 0) x.

(** ** The product *)
Definition noise_maps (fs : list frame) (m : maps) : Prop := exists ss a si sp gts ks r0 c0 h w (fits : nat -> nat -> option ((R * R * R) * (R * R * R))) (pool : nat -> nat -> val) ps up low,
  splits fs ss /\ (3 < List.length ss)%nat
  /\ lookup "SCI" rg = Some a /\ lookup "image" (a_secs a) = Some si /\ lookup "prescan" (a_secs a) = Some sp /\ shielded a r0 c0 h w
  /\ (forall s s', In s ss -> In s' ss -> List.length s = List.length s')
  /\ Forall (fun f => readable si f /\ Z.of_nat (rows (f_img f)) = a_rows a /\ Z.of_nat (cols (f_img f)) = a_cols a) fs
  /\ settings ss gts ks /\ admissible gts ks /\ gain_above gts /\ determined gts
  /\ Z.of_nat (m_rows m) = a_rows a /\ Z.of_nat (m_cols m) = a_cols a
  /\ (forall r c, fitted (m_rows m) gts ss r c (fits r c)) /\ (forall r c, pooled ss r c (pool r c))
  /\ (forall r c, m_fpn m r c = option_map (fun x => fst (fst (fst x))) (fits r c))
  /\ (forall r c, m_cic m r c = floor0 (option_map (fun x => snd (fst (fst x))) (fits r c)))
  /\ (forall r c, in_box (m_rows m) (m_cols m) r0 c0 h w (r, c) -> m_dc m r c = floor0 (option_map (fun x => snd (fst x)) (fits r c)) /\ e_dc m r c = option_map (fun x => snd (snd x)) (fits r c))
  /\ (forall r c, ~ in_box (m_rows m) (m_cols m) r0 c0 h w (r, c) -> (telemetry (m_rows m) r -> m_dc m r c = None) /\ (~ telemetry (m_rows m) r -> m_dc m r c = Some 0) /\ e_dc m r c = Some 0)
  /\ (forall r c, e_fpn m r c = option_map (fun x => fst (fst (snd x))) (fits r c))
  /\ (forall r c, match fits r c, pool r c with Some x, Some e => exists u, e_cic m r c = Some u /\ 0 <= u /\ u ^ 2 = snd (fst (snd x)) ^ 2 + e ^ 2 | _, _ => e_cic m r c = None end)
  /\ (forall r c, flagged ss r c (m_dq m r c))
  /\ sieve (in_section (m_rows m) (m_cols m) sp) (list_prod (seq 0 (m_rows m)) (seq 0 (m_cols m))) ps /\ ps <> []
  /\ offset (fun p y g v => leaves (fits (fst p) (snd p)) y g v) ps ss gts ks (m_off m)
  /\ offset (fun p y g v => leaves_by 1 (fits (fst p) (snd p)) (pool (fst p) (snd p)) y g v) ps ss gts ks up
  /\ offset (fun p y g v => leaves_by (-1) (fits (fst p) (snd p)) (pool (fst p) (snd p)) y g v) ps ss gts ks low
  /\ m_off_err m = Rmax (up - m_off m) (m_off m - low).

(** ** Datasets the function takes: the bias offset needs a prescan pixel outside the telemetry rows at which every sub-stack has an error *)
Definition workable (fs : list frame) : Prop := exists ss a si sp gts ks r0 c0 h w p,
  splits fs ss /\ (3 < List.length ss)%nat
  /\ lookup "SCI" rg = Some a /\ lookup "image" (a_secs a) = Some si /\ lookup "prescan" (a_secs a) = Some sp /\ shielded a r0 c0 h w
  /\ (forall s s', In s ss -> In s' ss -> List.length s = List.length s')
  /\ Forall (fun f => readable si f /\ Z.of_nat (rows (f_img f)) = a_rows a /\ Z.of_nat (cols (f_img f)) = a_cols a) fs
  /\ settings ss gts ks /\ admissible gts ks /\ gain_above gts /\ determined gts
  /\ in_section (Z.to_nat (a_rows a)) (Z.to_nat (a_cols a)) sp p /\ ~ telemetry (Z.to_nat (a_rows a)) (fst p)
  /\ forall s, In s ss -> exists e, stack_err s (fst p) (snd p) (Some e).

(** Every unflagged frame reads F + g C + g t D at the pixel, and every setting has one. *)
Definition obeys (fs : list frame) (r c : nat) (F C0 D : R) : Prop := exists ss gts ks, splits fs ss /\ settings ss gts ks
  /\ Forall2 (fun s p => ~ lost r c s /\ forall f, In f s -> f_dq f r c = 0%Z -> pix (f_img f) r c = Some (predicted p (F, C0, D))) ss gts.
End Spec.

(** Equal maps, pixel by pixel. *)
Definition same_maps (p q : maps) : Prop := m_rows p = m_rows q /\ m_cols p = m_cols q /\ (forall r c, m_fpn p r c = m_fpn q r c /\ m_cic p r c = m_cic q r c /\ m_dc p r c = m_dc q r c
  /\ e_fpn p r c = e_fpn q r c /\ e_cic p r c = e_cic q r c /\ e_dc p r c = e_dc q r c /\ m_dq p r c = m_dq q r c) /\ m_off p = m_off q /\ m_off_err p = m_off_err q.

(** The fixed pattern raised by [k], the rest equal. *)
Definition shifted_maps (k : nat -> nat -> R) (p q : maps) : Prop := m_rows p = m_rows q /\ m_cols p = m_cols q /\ (forall r c, m_fpn q r c = option_map (fun x => x + k r c) (m_fpn p r c) /\ m_cic p r c = m_cic q r c /\ m_dc p r c = m_dc q r c
  /\ e_fpn p r c = e_fpn q r c /\ e_cic p r c = e_cic q r c /\ e_dc p r c = e_dc q r c /\ m_dq p r c = m_dq q r c) /\ m_off p = m_off q /\ m_off_err p = m_off_err q.
(** ** Changes of a dataset *)
(** The same frames but for the values at flagged pixels (not NaN). *)
Definition same_but_flagged (f g : frame) : Prop := rows (f_img f) = rows (f_img g) /\ cols (f_img f) = cols (f_img g) /\ f_dq f = f_dq g /\ f_time f = f_time g /\ f_gain f = f_gain g /\ f_kgain f = f_kgain g
  /\ f_measured f = f_measured g /\ f_applied f = f_applied g
  /\ forall r c, (f_dq f r c = 0%Z -> f_err f r c = f_err g r c /\ pix (f_img f) r c = pix (f_img g) r c) /\ (pix (f_img f) r c = None <-> pix (f_img g) r c = None).
(** Every value raised by [k r c]. *)
Definition raised (k : nat -> nat -> R) (f : frame) : frame :=
  mkframe (mkimg (rows (f_img f)) (cols (f_img f)) (fun r c => option_map (fun x => x + k r c) (pix (f_img f) r c))) (f_err f) (f_dq f) (f_time f) (f_gain f) (f_kgain f) (f_measured f) (f_applied f).
(** Gains that agree within a setting. *)
Definition gains_agree (fs : list frame) : Prop := forall f g, In f fs -> In g fs -> alike f g -> f_measured f = f_measured g /\ f_applied f = f_applied g.

(** ** Small datasets *)
(** Two rows and columns: prescan on the left, image top right, telemetry at the bottom. *)
Definition tiny : regions := [("SCI"%string, mkarea 2 2 [("image"%string, sec 1 1 0 1); ("prescan"%string, sec 2 1 0 0); ("parallel_overscan"%string, sec 1 1 1 1); ("serial_overscan"%string, sec 2 0 0 2)])].
Definition bottom : Z * option Z := ((-1)%Z, None).
Definition shot (v : nat -> nat -> val) (q : nat -> nat -> Z) (p : R * R) : frame := mkframe (mkimg 2 2 v) (fun _ _ => Some 1) q (snd p) (fst p) 1 None (Some (fst p)).
(** One frame for each gain and time. *)
Definition shots (l : list (R * R)) (v : R * R -> nat -> nat -> val) (q : R * R -> nat -> nat -> Z) : list frame := map (fun p => shot (v p) (q p) p) l.
Definition five : list (R * R) := [(1, 0); (2, 0); (1, 1); (2, 1); (3, 1)].
Definition all_same (x : R) (p : R * R) (r c : nat) : val := Some x.
Definition no_flag (p : R * R) (r c : nat) : Z := 0%Z.
(** The pixel at row 0 and column 1 flagged in the frame of gain 3. *)
Definition flag_last (p : R * R) (r c : nat) : Z := if Nat.eqb r 0 && Nat.eqb c 1 then (if Req_EM_T (fst p) 3 then 4%Z else 0%Z) else 0%Z.
(** Values that follow the fitted form. *)
Definition linear (F C0 D : R) (p : R * R) (r c : nat) : val := Some (predicted p (F, C0, D)).
(** NaN there. *)
Definition one_nan (p : R * R) (r c : nat) : val := if Nat.eqb r 0 && Nat.eqb c 1 then (if Req_EM_T (fst p) 3 then None else Some 6) else Some 6.
(** Settings: the least product of gain and time at the largest gain; products in line with the gains. *)
Definition steep : list (R * R) := [(3, 0); (1, 1); (2, 1); (1, 2)].
Definition in_line : list (R * R) := [(1, 1); (2, 3 / 2); (3, 5 / 3); (4, 7 / 4)].
