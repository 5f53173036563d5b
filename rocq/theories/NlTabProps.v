(** C78: the table of nonlinearity. *)
From Coq Require Import List Arith Bool Reals ZArith String Sorted Lra Lia.
From Verif Require Import Base DqModel CombineModel ComboSpec FindModel FlatModel FlatSpec CtModel CtSpec NlTabModel NlTabSpec NlTabProofs NlTabColProofs NlTabLawProofs NlTabCaseProofs.
Import ListNotations.
Local Open Scope R_scope.

(** Which dictionaries of settings are accepted. *)
Theorem C78_names : forall d, check_nonlin_params d = Ok tt <-> all_named d /\ all_numeric d.
Proof. exact (@params_iff). Qed.
Print Assumptions C78_names.
(** And with what the others are refused: a missing name before one that is no number. *)
Theorem C78_names_refused : forall d e, check_nonlin_params d = Raise e <-> (~ all_named d /\ e = ValueError) \/ (all_named d /\ ~ all_numeric d /\ e = TypeError).
Proof. exact (@params_fail). Qed.
Print Assumptions C78_names_refused.
(** Which other settings are accepted; a comparison with NaN does not hold, so that NaN is never refused. *)
Theorem C78_settings : forall o z, checks o = Ok z <-> valid o z.
Proof. exact (@checks_iff). Qed.
Print Assumptions C78_settings.
(** With which exception the others are refused, in the order of the checks. *)
Theorem C78_settings_refused : forall o e, checks o = Raise e <-> invalid o e.
Proof. exact (@checks_fail). Qed.
Print Assumptions C78_settings_refused.
(** The table: a row of gains, then a row for every count within the limits with one over the gain at the count, relative to the gain at the norm. *)
Theorem C78_table : forall (hist : list val -> num -> result (list (R * nat))) (fit : list R -> list val -> result (val * val)) (lowess : num -> list val -> list val -> result (list val)) (interp : list val -> list val -> result (R -> val)) (drift : list (R * R * val) -> result (list R * list val)), forall d o means sets T, no_negative d -> (calibrate_nonlin hist fit lowess interp drift d o means sets = Ok T <-> tabulated hist fit lowess interp drift d o means sets T).
Proof. exact (@table_iff). Qed.
Print Assumptions C78_table.
(** When there is no table, and which exception is raised. *)
Theorem C78_refused : forall (hist : list val -> num -> result (list (R * nat))) (fit : list R -> list val -> result (val * val)) (lowess : num -> list val -> list val -> result (list val)) (interp : list val -> list val -> result (R -> val)) (drift : list (R * R * val) -> result (list R * list val)), forall d o means sets e, no_negative d -> (calibrate_nonlin hist fit lowess interp drift d o means sets = Raise e <-> not_tabulated hist fit lowess interp drift d o means sets e).
Proof. exact (@table_fails). Qed.
Print Assumptions C78_refused.
(** The counts of a table ascend, and are the multiples of 20 from 20 to 14000 within the limits; every row has an entry for every gain. *)
Theorem C78_counts : forall (hist : list val -> num -> result (list (R * nat))) (fit : list R -> list val -> result (val * val)) (lowess : num -> list val -> list val -> result (list val)) (interp : list val -> list val -> result (R -> val)) (drift : list (R * R * val) -> result (list R * list val)), forall d o means sets T, no_negative d -> calibrate_nonlin hist fit lowess interp drift d o means sets = Ok T ->
    exists cs, map (hd None) T = None :: map (fun c => Some (IZR c)) cs /\ StronglySorted Z.lt cs /\ (forall c, In c cs <-> gridded c /\ within o c) /\
      hd [] T = None :: map (fun s => Some (fst s)) sets /\ Forall (fun r => List.length r = S (List.length sets)) T.
Proof. exact (@counts_law). Qed.
Print Assumptions C78_counts.
(** Every entry is one over the interpolated gain relative to that at the norm. *)
Theorem C78_entries : forall (hist : list val -> num -> result (list (R * nat))) (fit : list R -> list val -> result (val * val)) (lowess : num -> list val -> list val -> result (list val)) (interp : list val -> list val -> result (R -> val)) (drift : list (R * R * val) -> result (list R * list val)), forall d o means sets T z, no_negative d -> calibrate_nonlin hist fit lowess interp drift d o means sets = Ok T -> n_norm o = NInt z ->
    gridded z /\ exists fs, List.length fs = List.length sets /\ (forall c vs, row_for T c vs -> vs = map (fun f => quot (Some 1) (quot (f (IZR c)) (f (IZR z)))) fs) /\
      exists g m, set_out d g /\ masked hist d g means m /\ Forall2 (fun s f => (snd s <> [] -> ~ some_empty (g_row1 g) (g_col1 g) (g_row2 g) (g_col2 g)) /\ exists sg ts ys, signals m g (snd s) sg /\ drift sg = Ok (ts, ys) /\ gains_of fit lowess interp o ts ys f) sets fs.
Proof. exact (@entry_law). Qed.
Print Assumptions C78_entries.
(** There is a row of the norm, and its entries are 1 unless the gain there is 0 or no number. *)
Theorem C78_norm : forall (hist : list val -> num -> result (list (R * nat))) (fit : list R -> list val -> result (val * val)) (lowess : num -> list val -> list val -> result (list val)) (interp : list val -> list val -> result (R -> val)) (drift : list (R * R * val) -> result (list R * list val)), forall d o means sets T z, no_negative d -> calibrate_nonlin hist fit lowess interp drift d o means sets = Ok T -> n_norm o = NInt z -> limits_known o ->
    (exists vs, row_for T z vs) /\ forall vs, row_for T z vs -> List.length vs = List.length sets /\ Forall one_or_none vs.
Proof. exact (@norm_law). Qed.
Print Assumptions C78_norm.
(** Another norm divides every column by its entry at that norm, and does nothing else. *)
Theorem C78_renorm : forall (hist : list val -> num -> result (list (R * nat))) (fit : list R -> list val -> result (val * val)) (lowess : num -> list val -> list val -> result (list val)) (interp : list val -> list val -> result (R -> val)) (drift : list (R * R * val) -> result (list R * list val)), forall d o o' means sets T T' z', no_negative d -> calibrate_nonlin hist fit lowess interp drift d o means sets = Ok T -> calibrate_nonlin hist fit lowess interp drift d o' means sets = Ok T' -> same_but_norm o o' -> n_norm o' = NInt z' ->
    forall ws j w, row_for T z' ws -> nth_error ws j = Some (Some w) ->
    forall c vs vs' v, row_for T c vs -> row_for T' c vs' -> nth_error vs j = Some v -> nth_error vs' j = Some (quot v (Some w)).
Proof. exact (@renorm_law). Qed.
Print Assumptions C78_renorm.
(** A linear detector is left as it is, if the fit finds the line and smoothing and interpolation keep a gain of 1. *)
Theorem C78_linear : forall (hist : list val -> num -> result (list (R * nat))) (fit : list R -> list val -> result (val * val)) (lowess : num -> list val -> list val -> result (list val)) (interp : list val -> list val -> result (R -> val)) (drift : list (R * R * val) -> result (list R * list val)), forall d o means sets T, no_negative d -> calibrate_nonlin hist fit lowess interp drift d o means sets = Ok T -> ideal fit lowess interp -> (exists a, counts_as (n_low o) (Some a) /\ 0 < a) ->
    (forall g m s sg ts ys, set_out d g -> masked hist d g means m -> In s sets -> signals m g (snd s) sg -> drift sg = Ok (ts, ys) -> linear ts ys) ->
    forall c vs, row_for T c vs -> ones vs.
Proof. exact (@linear_law). Qed.
Print Assumptions C78_linear.
(** Smoothed gains come in the order of the signals and are taken to be in the order of the exposure times: with signals that do not ascend with exposure time the entry at 40 is 4 instead of 1/4. *)
Theorem C78_order_refuted : exists T, table0 d0 (o0 20 (NFloat (Some 20)) (NFloat (Some 40))) = Ok T /\
  (forall n, lowess0 n [Some 2; Some (1 / 2)] [Some 40; Some 20] = Ok [Some (1 / 2); Some 2]) /\
  (forall a b, exists f, interp0 [Some 40; Some 20] [a; b] = Ok f /\ f 40 = a /\ f 20 = b) /\
  on_line (Some 20, Some 0) 1 = Some 20 /\ on_line (Some 20, Some 0) 2 = Some 40 /\
  row_for T 20 [Some 1] /\ row_for T 40 [Some 4] /\ quot (Some 1) (quot (quot (Some 40) (Some 20)) (quot (Some 20) (Some 40))) = Some (1 / 4).
Proof. exact (@order_false). Qed.
Print Assumptions C78_order_refuted.
(** A limit that is NaN is accepted, and gives a table without any count. *)
Theorem C78_nan_refuted : valid (o0 20 (NFloat None) (NFloat (Some 40))) 20 /\ table0 d0 (o0 20 (NFloat None) (NFloat (Some 40))) = Ok [[None; Some 1]].
Proof. exact (@nan_false). Qed.
Print Assumptions C78_nan_refuted.
(** A norm of 14020 within accepted limits raises IndexError. *)
Theorem C78_norm_refuted : valid (o0 14020 (NFloat (Some 800)) (NFloat (Some 15000))) 14020 /\ table0 d0 (o0 14020 (NFloat (Some 800)) (NFloat (Some 15000))) = Raise IndexError.
Proof. exact (@norm_false). Qed.
Print Assumptions C78_norm_refuted.
(** A table for the limits 810 and 15000 starts at 820 and ends at 14000. *)
Theorem C78_start_refuted : exists T, table0 d0 (o0 3000 (NFloat (Some 810)) (NFloat (Some 15000))) = Ok T /\ (forall vs, ~ row_for T 810 vs) /\ (forall vs, ~ row_for T 14020 vs) /\ (exists vs, row_for T 820 vs) /\ exists vs, row_for T 14000 vs.
Proof. exact (@start_false). Qed.
Print Assumptions C78_start_refuted.
(** A float for a row is accepted by the checks and raises TypeError later. *)
Theorem C78_float_refuted : check_nonlin_params d1 = Ok tt /\ valid (o0 3000 (NFloat (Some 800)) (NFloat (Some 10000))) 3000 /\ table0 d1 (o0 3000 (NFloat (Some 800)) (NFloat (Some 10000))) = Raise TypeError.
Proof. exact (@float_false). Qed.
Print Assumptions C78_float_refuted.

(** Settings that are accepted, and a table with a row for 40; two tables that differ by the norm. *)
Example C78_case : no_negative d0 /\ exists T, table0 d0 (o0 20 (NFloat (Some 20)) (NFloat (Some 40))) = Ok T /\ limits_known (o0 20 (NFloat (Some 20)) (NFloat (Some 40))) /\ row_for T 40 [Some 4].
Proof. exact case_ok. Qed.
Example C78_norms : same_but_norm (o0 20 (NFloat (Some 20)) (NFloat (Some 40))) (o0 40 (NFloat (Some 20)) (NFloat (Some 40))) /\ exists T', table0 d0 (o0 40 (NFloat (Some 20)) (NFloat (Some 40))) = Ok T'.
Proof.
  split; [repeat split; reflexivity|]. destruct (limits0 40 20 40) as (L & B); [lra|lra|lra|]. destruct (table0 d0 (o0 40 (NFloat (Some 20)) (NFloat (Some 40)))) as [T|e] eqn:E; [eauto|]. apply (table0_iff 40 _ _ _ ltac:(lia) ltac:(exists 2%Z; reflexivity) L B) in E. destruct E as [(_ & T & Q & _)|(NG & _)]; [discriminate|]. exfalso. apply NG. exists 2%Z. lia.
Qed.
(** A linear detector, tools that find it so, and its table. *)
Example C78_straight : exists T, calibrate_nonlin hist0 fit1 lowess1 interp1 drift1 d0 (o0 20 (NFloat (Some 20)) (NFloat (Some 40))) [frame0] sets0 = Ok T /\ row_for T 40 [Some 1] /\ linear [1; 2] [Some 20; Some 40] /\ ideal fit1 lowess1 interp1.
Proof. exact case_linear. Qed.
