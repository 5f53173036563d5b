(** A calibration whose prescan is outside of the bins. *)
From Coq Require Import List Arith Bool Reals ZArith Lia Lra String.
From Verif Require Import Base CombineModel CombineSpec ComboSpec FlatModel FlatSpec ThruModel ThruSpec KgainModel KgainSpec KgainProofs KgainRunProofs KgainLawProofs KgainTopProofs RnHistModel RnHistSpec RnHistProofs RnHistMainProofs RnHistLawProofs.
Import ListNotations.
Local Open Scope R_scope.

(** The settings of KgainTopProofs with the bins from 1 to 4; the prescan is 0 *)
Definition dict1 (k : string) : option setting :=
  if String.eqb k "rn_bins1" then Some (Whole 1) else if String.eqb k "rn_bins2" then Some (Whole 5) else dict0 k.
Definition params1 : params := mkparams (p_box params0) (1, 5)%Z (p_top params0) (p_bins params0).
Definition still : Fit := fun _ _ p => Ok p.
Lemma reads1 : reads_as dict1 params1.
Proof. apply read_iff. reflexivity. Qed.
Lemma outside1 : forall f v, In v (prescan0 f) -> ~ InRange 1 5 v.
Proof. intros f v [<-|[<-|[]]] (x & E & H); injection E as <-; lra. Qed.
Lemma width1 : forall f, rn_width still (prescan0 f) (1, 5)%Z = Ok 10.
Proof. intros f. apply width_nothing; [intros x y p _; reflexivity|lia|apply outside1]. Qed.
Lemma set1 : forall w good fs pts rn, set_of prescan0 width0 params0 w good fs pts rn ->
  set_of prescan0 (fun ab f => rn_width still (prescan0 f) ab) params1 w good fs pts (map (fun _ => 10 / sqrt 2) rn).
Proof.
  intros w good fs pts rn (frames & diffs & f & whole & a & b & k & avs & devs & H1 & H2 & H3 & H4).
  exists frames, diffs, f, whole, a, b, k, avs, devs. split; [exact H1|]. split; [exact H2|]. split; [|exact H4].
  clear -H3. induction H3; constructor; auto. exists 10. split; [apply width1|]. field. assert (0 < sqrt 2) by (apply sqrt_lt_R0; lra). lra.
Qed.
Lemma spread_same : forall (rn : list R) u, rn <> [] -> spread (map (fun _ => u) rn) u 0.
Proof.
  intros rn u N. assert (S : forall v, fold_right Rplus 0 (map (fun _ : R => v) rn) = v * INR (List.length rn)).
  { intros v. induction rn as [|x rn IH]; [simpl; ring|]. cbn [map fold_right List.length]. rewrite S_INR. destruct rn; [simpl; ring|]. rewrite IH by discriminate. ring. }
  split; [|split; [lra|]].
  - split; [destruct rn; [congruence|discriminate]|]. now rewrite map_length, S.
  - rewrite map_map. split; [destruct rn; [congruence|discriminate]|]. rewrite map_length, S. ring.
Qed.
Lemma calibrated1 : exists out, calibrated prescan0 (fun ab f => rn_width still (prescan0 f) ab) dict1 [frames0] [plate 100 0] 1 1 1 (Whole 105) (Whole 190) (Whole 10) out.
Proof.
  destruct run0 as (out & R & _). apply (calibrate_iff prescan0 width0 _ _ _ _ _ _ _ _ _ _ 11 11) in R.
  2:{ split; [intros s f [<-|[]] F|intros f F]; repeat (destruct F as [<-|F]; [split; reflexivity|]); destruct F. }
  destruct R as (p & a & b & w & m & good & per & t & ks & pts & rn & RP & AC & M & G & FS & CU & GA & NE & PO).
  assert (p = params0) by (apply (reads_fun dict0); [exact RP|apply read_iff; reflexivity]). subst p.
  destruct PO as (c & m0 & r & s & P1 & P2 & P3 & P4 & P5 & P6).
  assert (N : rn <> []) by (destruct P5 as [[N _] _]; exact N).
  set (u := 10 / sqrt 2).
  exists (mkproduct (k_gain out) (k_err out) (k_ptc out) (u * k_gain out) (sqrt ((k_gain out * 0) ^ 2 + (u * k_err out) ^ 2))).
  exists params1, a, b, w, m, good, (map (fun q => (fst q, map (fun _ => u) (snd q))) per), t, ks, pts, (map (fun _ => u) rn).
  split; [exact reads1|]. split; [exact AC|]. split; [exact M|]. split; [exact G|]. split.
  { clear -FS. induction FS as [|fs q l per H FS IH]; cbn [map]; constructor; auto. cbn [fst snd]. apply set1. exact H. }
  split; [rewrite map_map; exact CU|]. split; [exact GA|]. split; [now rewrite nth_error_map, NE|].
  exists c, m0, u, 0. cbn [k_gain k_err k_ptc k_rn k_rn_err]. split; [exact P1|]. split; [exact P2|]. split; [exact P3|]. split; [exact P4|].
  split; [now apply spread_same|]. split; [reflexivity|]. split; [apply sqrt_pos|].
  rewrite <- Rsqr_pow2, Rsqr_sqrt; [reflexivity|]. pose proof (pow2_ge_0 (k_gain out * 0)). pose proof (pow2_ge_0 (u * k_err out)). lra.
Qed.
