(** Proofs about save_data and run_recipe. *)
From Coq Require Import List Arith Bool QArith String Ascii Lia.
From Verif Require Import Base WalkModel WalkSpec WalkStrProofs WalkProofs.
Import ListNotations.
Local Open Scope string_scope.
Local Open Scope list_scope.
Local Open Scope nat_scope.

Section Run.
Context {Dt Cal : Type}.
Notation frame := (frame Dt).
Notation cur := (cur Dt).
Notation event := (event Dt Cal).
Notation wst := (wst Dt Cal).
Lemma moved_iff : forall dir n (f f' : frame), moved dir n f f' <-> f' = set_path dir n f.
Proof.
  intros dir n [h a d c r x] [h' a' d' c' r' x']. unfold moved, set_path. cbn. split.
  - intros (-> & -> & -> & -> & -> & ->). reflexivity.
  - intros H. injection H as -> -> -> -> -> ->. repeat split.
Qed.
Definition newname (suffix : string) (f : frame) : string := if Nat.eqb (String.length suffix) 0 then f_name f else suffixed suffix (f_name f).
Lemma names_eq : forall suffix (l : list frame), (if Nat.ltb 0 (String.length suffix) then map (fun f => suffixed suffix (f_name f)) l else map (@f_name Dt) l) = map (newname suffix) l.
Proof.
  intros suffix l. unfold newname. destruct (String.length suffix) as [|n] eqn:E; cbn [Nat.ltb Nat.leb Nat.eqb]; reflexivity.
Qed.
Notation good dir suffix := (fun f f' => moved dir (newname suffix f) f f' /\ f_name f' <> EmptyString).
Lemma length0 : forall s, Nat.eqb (String.length s) 0 = true <-> s = EmptyString.
Proof. intros [|c t]; cbn; split; congruence. Qed.
Lemma save_frames_ok : forall dir suffix (l l' : list frame) ev, @save_frames Dt Cal dir (map (newname suffix) l) l = (l', ev, None) <-> Forall2 (good dir suffix) l l' /\ ev = map EWrite l'.
Proof.
  intros dir suffix. induction l as [|f l IH]; intros l' ev; cbn [map save_frames].
  - split; [intros H; injection H as <- <-; split; [constructor|reflexivity]|intros [H ->]; inversion H; reflexivity].
  - destruct (Nat.eqb (String.length (newname suffix f)) 0) eqn:E0.
    + apply length0 in E0. split; [discriminate|]. intros [H _]. inversion H as [|? f' ? ? [M N] F]; subst. apply moved_iff in M. subst f'. cbn in N. contradiction.
    + assert (N0 : newname suffix f <> "") by (intros X; apply length0 in X; congruence). destruct (save_frames dir (map (newname suffix) l) l) as [[t' ev'] e] eqn:Es. split.
      * intros H. injection H as <- <- ->. destruct (proj1 (IH t' ev') eq_refl) as [F ->]. split; [constructor; [split; [apply moved_iff; reflexivity|exact N0]|exact F]|reflexivity].
      * intros [H ->]. inversion H as [|? f' ? t0 [M N] F]; subst. apply moved_iff in M. subst f'. assert (X : (t', ev', e) = (t0, map EWrite t0, None)) by (apply IH; split; [exact F|reflexivity]). injection X as -> -> ->. reflexivity.
Qed.
Lemma save_frames_fail : forall dir suffix (l l' : list frame) ev e, @save_frames Dt Cal dir (map (newname suffix) l) l = (l', ev, Some e) <->
  e = ValueError /\ exists pre pre' f f' post, l = pre ++ f :: post /\ l' = pre' ++ f' :: post /\ Forall2 (good dir suffix) pre pre' /\ moved dir (newname suffix f) f f' /\ f_name f' = EmptyString /\ ev = map EWrite pre'.
Proof.
  intros dir suffix. induction l as [|f l IH]; intros l' ev e; cbn [map save_frames].
  - split; [discriminate|]. intros (_ & [|] & ? & ? & ? & ? & H & _); discriminate.
  - destruct (Nat.eqb (String.length (newname suffix f)) 0) eqn:E0.
    + apply length0 in E0. split.
      * intros H. injection H as <- <- <-. split; [reflexivity|]. exists [], [], f, (set_path dir (newname suffix f) f), l. split; [reflexivity|]. split; [reflexivity|]. split; [constructor|]. split; [apply moved_iff; reflexivity|]. split; [exact E0|reflexivity].
      * intros (-> & pre & pre' & f0 & f' & post & H & -> & F & M & N & ->). destruct pre as [|p pre]; cbn in H; injection H as <- ->.
        -- inversion F; subst. apply moved_iff in M. subst f'. reflexivity.
        -- inversion F as [|? p' ? ? [M1 N1] F1]; subst. apply moved_iff in M1. subst p'. cbn in N1. contradiction.
    + assert (N0 : newname suffix f <> "") by (intros X; apply length0 in X; congruence). destruct (save_frames dir (map (newname suffix) l) l) as [[t' ev'] e'] eqn:Es. split.
      * intros H. injection H as <- <- ->. destruct (proj1 (IH t' ev' e) eq_refl) as (-> & pre & pre' & f0 & f' & post & -> & -> & F & M & N & ->). split; [reflexivity|].
        exists (f :: pre), (set_path dir (newname suffix f) f :: pre'), f0, f', post. split; [reflexivity|]. split; [reflexivity|]. split; [constructor; [split; [apply moved_iff; reflexivity|exact N0]|exact F]|]. split; [exact M|]. split; [exact N|reflexivity].
      * intros (-> & pre & pre' & f0 & f' & post & H & -> & F & M & N & ->). destruct pre as [|p pre]; cbn in H; injection H as <- ->.
        -- apply moved_iff in M. subst f'. cbn in N. contradiction.
        -- inversion F as [|? p' ? t0 [M1 N1] F1]; subst. apply moved_iff in M1. subst p'. assert (X : (t', ev', e') = (t0 ++ f' :: post, map EWrite t0, Some ValueError)). { apply IH. split; [reflexivity|]. exists pre, t0, f0, f', post. repeat (split; [first [reflexivity|assumption]|]). reflexivity. }
           injection X as -> -> ->. reflexivity.
Qed.
Lemma Forall2_one : forall {A B} (P : A -> B -> Prop) x l, Forall2 P [x] l -> exists y, l = [y] /\ P x y.
Proof. intros A B P x l H. inversion H as [|? y ? t Hp H']; subst. inversion H'; subst. exists y. split; [reflexivity|exact Hp]. Qed.
Lemma saved_unfold : forall dir suffix (c c' : cur) (ev : list event), saved dir suffix c c' ev <->
  same_kind c c' /\ Forall2 (good dir suffix) (frames_of c) (frames_of c') /\ ev = map EWrite (frames_of c') ++ map ERegister (filter (@is_cal Dt) (frames_of c')).
Proof. intros. reflexivity. Qed.
Lemma half_unfold : forall dir suffix (c c' : cur) (ev : list event), half_saved dir suffix c c' ev <->
  same_kind c c' /\ exists pre pre' f f' post, frames_of c = pre ++ f :: post /\ frames_of c' = pre' ++ f' :: post /\ Forall2 (good dir suffix) pre pre' /\ moved dir (newname suffix f) f f' /\ f_name f' = EmptyString /\ ev = map EWrite pre'.
Proof. intros. reflexivity. Qed.
Lemma kind_data : forall (l : list frame) c', same_kind (CData l) c' <-> exists l', c' = CData l'.
Proof. intros l [|l'|f']; cbn; split; try tauto; try (intros [x X]; discriminate); intros _; exists l'; reflexivity. Qed.
Lemma kind_img : forall (f : frame) c', same_kind (CImg f) c' <-> exists f', c' = CImg f'.
Proof. intros f [|l'|f']; cbn; split; try tauto; try (intros [x X]; discriminate); intros _; exists f'; reflexivity. Qed.
Lemma save_ok : forall dir suffix (c c' : cur) (ev : list event), save_data dir suffix c = (c', ev, None) <-> saved dir suffix c c' ev.
Proof.
  intros dir suffix c c' ev. rewrite saved_unfold. unfold save_data. destruct c as [|l|f].
  - split; [discriminate|]. cbn. tauto.
  - rewrite names_eq, kind_data. destruct (save_frames dir (map (newname suffix) l) l) as [[l' ev'] [e|]] eqn:E; split.
    + discriminate.
    + intros ([l0 ->] & F & ->). assert (X := proj2 (save_frames_ok dir suffix l l0 (map EWrite l0)) (conj F eq_refl)). congruence.
    + intros H. injection H as <- <-. apply save_frames_ok in E. destruct E as [F ->]. split; [exists l'; reflexivity|]. split; [exact F|reflexivity].
    + intros ([l0 ->] & F & ->). assert (X := proj2 (save_frames_ok dir suffix l l0 (map EWrite l0)) (conj F eq_refl)). rewrite E in X. injection X as -> ->. reflexivity.
  - rewrite names_eq, kind_img. destruct (save_frames dir (map (newname suffix) [f]) [f]) as [[l' ev'] [e|]] eqn:E; split.
    + discriminate.
    + intros ([f' ->] & F & ->). assert (X := proj2 (save_frames_ok dir suffix [f] [f'] (map EWrite [f'])) (conj F eq_refl)). congruence.
    + intros H. injection H as <- <-. apply save_frames_ok in E. destruct E as [F ->]. destruct (Forall2_one _ _ _ F) as (f' & -> & G). cbn [map_cur frames_of]. split; [exists f'; reflexivity|]. split; [constructor; [exact G|constructor]|reflexivity].
    + intros ([f' ->] & F & ->). assert (X := proj2 (save_frames_ok dir suffix [f] [f'] (map EWrite [f'])) (conj F eq_refl)). rewrite E in X. injection X as -> ->. reflexivity.
Qed.
Lemma save_fail : forall dir suffix (c c' : cur) (ev : list event) e, save_data dir suffix c = (c', ev, Some e) <->
  (c = CNone /\ c' = CNone /\ ev = [] /\ e = AttributeError) \/ (e = ValueError /\ half_saved dir suffix c c' ev).
Proof.
  intros dir suffix c c' ev e. rewrite half_unfold. unfold save_data. destruct c as [|l|f].
  - split; [intros H; injection H as <- <- <-; left; repeat split|]. intros [(_ & -> & -> & ->)|(_ & X & _)]; [reflexivity|destruct X].
  - rewrite names_eq, kind_data. destruct (save_frames dir (map (newname suffix) l) l) as [[l' ev'] [e0|]] eqn:E; split.
    + intros H. injection H as <- <- ->. right. apply save_frames_fail in E. destruct E as [-> E]. split; [reflexivity|]. split; [exists l'; reflexivity|exact E].
    + intros [(X & _)|(-> & [l0 ->] & H)]; [discriminate|]. cbn [frames_of] in H. assert (X := proj2 (save_frames_fail dir suffix l l0 ev ValueError) (conj eq_refl H)). rewrite E in X. injection X as -> -> ->. reflexivity.
    + discriminate.
    + intros [(X & _)|(-> & [l0 ->] & H)]; [discriminate|]. cbn [frames_of] in H. assert (X := proj2 (save_frames_fail dir suffix l l0 ev ValueError) (conj eq_refl H)). congruence.
  - rewrite names_eq, kind_img. destruct (save_frames dir (map (newname suffix) [f]) [f]) as [[l' ev'] [e0|]] eqn:E; split.
    + intros H. injection H as <- <- ->. right. apply save_frames_fail in E. destruct E as [-> E]. split; [reflexivity|].
      assert (L : exists f', l' = [f']). { destruct E as (pre & pre' & f0 & f' & post & H1 & -> & F & _). destruct pre as [|p [|? ?]]; try discriminate. inversion F; subst. cbn in H1. injection H1 as <- <-. exists f'. reflexivity. }
      destruct L as [f' ->]. cbn [map_cur frames_of]. split; [exists f'; reflexivity|exact E].
    + intros [(X & _)|(-> & [f0 ->] & H)]; [discriminate|]. cbn [frames_of] in H. assert (X := proj2 (save_frames_fail dir suffix [f] [f0] ev ValueError) (conj eq_refl H)). rewrite E in X. injection X as -> -> ->. reflexivity.
    + discriminate.
    + intros [(X & _)|(-> & [f0 ->] & H)]; [discriminate|]. cbn [frames_of] in H. assert (X := proj2 (save_frames_fail dir suffix [f] [f0] ev ValueError) (conj eq_refl H)). congruence.
Qed.

(** * Loading calibrations *)
Variable known : string -> bool.
Variable lookup : list frame -> refr Dt -> string -> result string.
Variable cal_load : string -> string -> result Cal.
Variable sem : string -> option (cur -> list (option Cal) -> list (string * kv) -> result cur).
Lemma load_ok : forall l args, load_cals known cal_load l = Ok args <-> Forall2 (cal_arg known cal_load) l args.
Proof.
  induction l as [|[k v] t IH]; intros args; cbn [load_cals].
  - split; [intros H; injection H as <-; constructor|intros H; inversion H; reflexivity].
  - destruct (known k) eqn:Ek; cbn [negb]; [|split; [discriminate|intros H; inversion H as [|? ? ? ? C]; subst; inversion C; congruence]].
    assert (R : forall c, (do r <- load_cals known cal_load t; Ok (c :: r)) = Ok args <-> exists r, args = c :: r /\ Forall2 (cal_arg known cal_load) t r).
    { intros c. destruct (load_cals known cal_load t) as [r|e] eqn:E; cbn [bind].
      - split; [intros H; injection H as <-; exists r; split; [reflexivity|apply IH; reflexivity]|]. intros (r' & -> & F). apply IH in F. injection F as <-. reflexivity.
      - split; [discriminate|]. intros (r' & _ & F). apply IH in F. discriminate. }
    destruct v as [p|]; cbn [bind].
    + destruct (cal_load k p) as [x|e] eqn:Ec; cbn [bind].
      * rewrite R. split; [intros (r & -> & F); constructor; [constructor; assumption|exact F]|]. intros H. inversion H as [|? y ? r C F]; subst. exists r. split; [|exact F]. f_equal. inversion C; congruence.
      * split; [discriminate|]. intros H. inversion H as [|? y ? r C F]; subst. inversion C; congruence.
    + rewrite R. split; [intros (r & -> & F); constructor; [constructor; assumption|exact F]|]. intros H. inversion H as [|? y ? r C F]; subst. exists r. split; [|exact F]. f_equal. inversion C; congruence.
Qed.
Lemma load_fail : forall l e, load_cals known cal_load l = Raise e <-> exists pre args x post, l = pre ++ x :: post /\ Forall2 (cal_arg known cal_load) pre args /\ bad_arg known cal_load x e.
Proof.
  induction l as [|[k v] t IH]; intros e; cbn [load_cals].
  - split; [discriminate|]. intros ([|] & ? & ? & ? & H & _); discriminate.
  - destruct (known k) eqn:Ek; cbn [negb].
    + assert (R : forall c, cal_arg known cal_load (k, v) c -> ((do r <- load_cals known cal_load t; Ok (c :: r)) = Raise e <-> exists pre args x post, (k, v) :: t = pre ++ x :: post /\ Forall2 (cal_arg known cal_load) pre args /\ bad_arg known cal_load x e)).
      { intros c C. destruct (load_cals known cal_load t) as [r|e'] eqn:E; cbn [bind].
        - split; [discriminate|]. intros (pre & args & x & post & H & F & B). destruct pre as [|q pre]; cbn in H; injection H as <- ->; [inversion C; inversion B; subst; congruence|].
          inversion F as [|? ? ? args' _ F']; subst. assert (X : Ok r = Raise e); [|discriminate]. apply IH. exists pre, args', x, post. split; [reflexivity|]. split; assumption.
        - split.
          + intros H. injection H as ->. destruct (proj1 (IH e) eq_refl) as (pre & args & x & post & -> & F & B). exists ((k, v) :: pre), (c :: args), x, post. split; [reflexivity|]. split; [constructor; assumption|exact B].
          + intros (pre & args & x & post & H & F & B). destruct pre as [|q pre]; cbn in H; injection H as <- ->; [inversion C; inversion B; subst; congruence|].
            inversion F as [|? ? ? args' _ F']; subst. assert (X : @Raise (list (option Cal)) e' = Raise e); [|congruence]. apply IH. exists pre, args', x, post. split; [reflexivity|]. split; assumption. }
      destruct v as [p|]; cbn [bind].
      * destruct (cal_load k p) as [x|e'] eqn:Ec; cbn [bind]; [apply R; constructor; assumption|]. split.
        -- intros H. injection H as ->. exists [], [], (k, Some p), t. split; [reflexivity|]. split; [constructor|]. constructor; assumption.
        -- intros (pre & args & x & post & H & F & B). destruct pre as [|q pre]; cbn in H; injection H as <- ->; [inversion B; subst; congruence|]. inversion F as [|? ? ? ? C]; subst. inversion C; subst; congruence.
      * apply R. constructor. exact Ek.
    + split.
      * intros H. injection H as <-. exists [], [], (k, v), t. split; [reflexivity|]. split; [constructor|]. constructor. exact Ek.
      * intros (pre & args & x & post & H & F & B). destruct pre as [|q pre]; cbn in H; injection H as <- ->; [inversion B; subst; congruence|]. inversion F as [|? ? ? ? C]; subst. inversion C; subst; congruence.
Qed.

(** * One step *)
Lemma suffix_cases : forall s, (exists x, suffix_of s x) \/ exists kw v, s_kw s = Some kw /\ assoc "suffix" kw = Some (KOther v).
Proof.
  intros s. unfold suffix_of. destruct (s_kw s) as [kw|]; [|left; exists ""; reflexivity]. destruct (assoc "suffix" kw) as [[x|v]|] eqn:E.
  - left. exists x. left. reflexivity.
  - right. exists kw, v. split; [reflexivity|exact E].
  - left. exists "". right. split; reflexivity.
Qed.
Lemma suffix_fun : forall s x y, suffix_of s x -> suffix_of s y -> x = y.
Proof. intros s x y. unfold suffix_of. destruct (s_kw s) as [kw|]; [|congruence]. intros [H|[H ->]] [H'|[H' ->]]; congruence. Qed.
Lemma run_save : forall g db0 mk s (w : wst) x, is_save s -> suffix_of s x ->
  run_step known lookup cal_load sem g db0 mk s w = let '(c, ev, e) := save_data (r_out (mk s)) x (w_cur w) in (s, mkw c (w_ev w ++ ev), e).
Proof.
  intros g db0 mk s w x I SX. unfold run_step. rewrite I, String.eqb_refl. unfold suffix_of in SX. destruct (s_kw s) as [kw|]; [|subst x; reflexivity].
  destruct SX as [->|[-> ->]]; reflexivity.
Qed.
Lemma run_save_bad : forall g db0 mk s (w : wst) kw v, is_save s -> s_kw s = Some kw -> assoc "suffix" kw = Some (KOther v) -> run_step known lookup cal_load sem g db0 mk s w = (s, w, Some TypeError).
Proof. intros g db0 mk s w kw v I K A. unfold run_step. rewrite I, String.eqb_refl, K, A. reflexivity. Qed.

Definition before (g : gcfg) (db0 : list frame) (mk : step -> recipe) (s : step) (w : wst) : step * wst * option exn :=
  if negb (fill_now (r_cfg (mk s)) g) then
    let db := db0 ++ registered (w_ev w) in
    match w_cur w with
    | CData [] => (s, w, Some IndexError)
    | c => let rf := match c with CNone => RList | CData (f :: _) => RFrame f | CImg f => RFrame f | CData [] => RList end in
           let '(s1, e) := fill_step known (g "skip_missing_cal_steps") (lookup db rf) s in
           match e with
           | Some x => (s1, w, Some x)
           | None => match c with
                     | CNone => (s1, w, Some AttributeError)
                     | _ => (s1, mkw (map_cur (map (set_recipe (mk s1))) c) (w_ev w), None)
                     end
           end
    end
  else (s, w, None).
Lemma fill_calibs : forall sm find s s1 e, fill_step known sm find s = (s1, e) -> s_calibs s <> None -> s_calibs s1 <> None.
Proof. intros sm find s s1 e. unfold fill_step. destruct (s_calibs s) as [l|]; [|tauto]. destruct (fill_list known sm find l) as [[l' b] e']. intros H _. injection H as <- _. discriminate. Qed.
Lemma before_ok : forall g db0 mk s c ev s1 (w1 : wst), before g db0 mk s (mkw c ev) = (s1, w1, None) <-> exists c1, w1 = mkw c1 ev /\ resolved known lookup (negb (fill_now (r_cfg (mk s)) g)) g (db0 ++ registered ev) mk s s1 c c1.
Proof.
  intros g db0 mk s c ev s1 w1. unfold before, resolved. destruct (negb (fill_now (r_cfg (mk s)) g)); cbn [w_cur w_ev].
  - destruct c as [|[|f l]|f]; cbn [frames_of hd_error].
    + destruct (fill_step known (g "skip_missing_cal_steps") (lookup (db0 ++ registered ev) RList) s) as [s2 [e|]]; (split; [discriminate|]); intros (c1 & _ & f & X & _); discriminate.
    + split; [discriminate|]. intros (c1 & _ & f & X & _). discriminate.
    + destruct (fill_step known (g "skip_missing_cal_steps") (lookup (db0 ++ registered ev) (RFrame f)) s) as [s2 [e|]] eqn:E; split.
      * discriminate.
      * intros (c1 & _ & f' & X & Fs & _). injection X as <-. apply fill_ok in Fs. congruence.
      * intros H. injection H as <- <-. exists (CData (map (set_recipe (mk s2)) (f :: l))). split; [reflexivity|]. exists f. split; [reflexivity|]. split; [apply fill_ok; exact E|]. split; [exact I|reflexivity].
      * intros (c1 & -> & f' & X & Fs & K & Fr). injection X as <-. apply fill_ok in Fs. rewrite E in Fs. injection Fs as ->. apply kind_data in K. destruct K as [l' ->]. cbn in Fr. subst l'. reflexivity.
    + destruct (fill_step known (g "skip_missing_cal_steps") (lookup (db0 ++ registered ev) (RFrame f)) s) as [s2 [e|]] eqn:E; split.
      * discriminate.
      * intros (c1 & _ & f' & X & Fs & _). injection X as <-. apply fill_ok in Fs. congruence.
      * intros H. injection H as <- <-. exists (CImg (set_recipe (mk s2) f)). split; [reflexivity|]. exists f. split; [reflexivity|]. split; [apply fill_ok; exact E|]. split; [exact I|reflexivity].
      * intros (c1 & -> & f' & X & Fs & K & Fr). injection X as <-. apply fill_ok in Fs. rewrite E in Fs. injection Fs as ->. apply kind_img in K. destruct K as [f1 ->]. cbn in Fr. injection Fr as ->. reflexivity.
  - split; [intros H; injection H as <- <-; exists c; repeat split|]. intros (c1 & -> & -> & ->). reflexivity.
Qed.
Lemma before_fail : forall g db0 mk s c ev s1 (w1 : wst) e, s_calibs s <> None -> (before g db0 mk s (mkw c ev) = (s1, w1, Some e) <->
  fill_now (r_cfg (mk s)) g = false /\ w1 = mkw c ev /\
  ((c = CData [] /\ s1 = s /\ e = IndexError) \/ (exists rf, ref_of c = Some rf /\ fill_fail known (g "skip_missing_cal_steps") (lookup (db0 ++ registered ev) rf) s s1 e)
   \/ (c = CNone /\ e = AttributeError /\ fill_spec known (g "skip_missing_cal_steps") (lookup (db0 ++ registered ev) RList) s s1))).
Proof.
  intros g db0 mk s c ev s1 w1 e NC. unfold before. destruct (fill_now (r_cfg (mk s)) g); cbn [negb w_cur w_ev]; [split; [discriminate|intros (X & _); discriminate]|].
  assert (FF : forall rf s2 e2, fill_step known (g "skip_missing_cal_steps") (lookup (db0 ++ registered ev) rf) s = (s2, Some e2) <-> fill_fail known (g "skip_missing_cal_steps") (lookup (db0 ++ registered ev) rf) s s2 e2) by (intros; apply fill_raise).
  destruct c as [|[|f l]|f]; cbn [ref_of].
  - destruct (fill_step known (g "skip_missing_cal_steps") (lookup (db0 ++ registered ev) RList) s) as [s2 [e2|]] eqn:E; split.
    + intros H. injection H as <- <- <-. split; [reflexivity|]. split; [reflexivity|]. right. left. exists RList. split; [reflexivity|]. apply FF. exact E.
    + intros (_ & -> & [(X & _)|[(rf & X & Hf)|(_ & -> & Hf)]]); [discriminate| |apply fill_ok in Hf; congruence]. injection X as <-. apply FF in Hf. rewrite E in Hf. injection Hf as -> ->. reflexivity.
    + intros H. injection H as <- <- <-. split; [reflexivity|]. split; [reflexivity|]. right. right. split; [reflexivity|]. split; [reflexivity|]. apply fill_ok. exact E.
    + intros (_ & -> & [(X & _)|[(rf & X & Hf)|(_ & -> & Hf)]]); [discriminate| |apply fill_ok in Hf; rewrite E in Hf; injection Hf as ->; reflexivity]. injection X as <-. apply FF in Hf. congruence.
  - split.
    + intros H. injection H as <- <- <-. split; [reflexivity|]. split; [reflexivity|]. left. repeat split.
    + intros (_ & -> & [(_ & -> & ->)|[(rf & X & Hf)|(X & _)]]); [reflexivity|discriminate|discriminate].
  - destruct (fill_step known (g "skip_missing_cal_steps") (lookup (db0 ++ registered ev) (RFrame f)) s) as [s2 [e2|]] eqn:E; split.
    + intros H. injection H as <- <- <-. split; [reflexivity|]. split; [reflexivity|]. right. left. exists (RFrame f). split; [reflexivity|]. apply FF. exact E.
    + intros (_ & -> & [(X & _)|[(rf & X & Hf)|(X & _)]]); [discriminate| |discriminate]. injection X as <-. apply FF in Hf. rewrite E in Hf. injection Hf as -> ->. reflexivity.
    + discriminate.
    + intros (_ & -> & [(X & _)|[(rf & X & Hf)|(X & _)]]); [discriminate| |discriminate]. injection X as <-. apply FF in Hf. congruence.
  - destruct (fill_step known (g "skip_missing_cal_steps") (lookup (db0 ++ registered ev) (RFrame f)) s) as [s2 [e2|]] eqn:E; split.
    + intros H. injection H as <- <- <-. split; [reflexivity|]. split; [reflexivity|]. right. left. exists (RFrame f). split; [reflexivity|]. apply FF. exact E.
    + intros (_ & -> & [(X & _)|[(rf & X & Hf)|(X & _)]]); [discriminate| |discriminate]. injection X as <-. apply FF in Hf. rewrite E in Hf. injection Hf as -> ->. reflexivity.
    + discriminate.
    + intros (_ & -> & [(X & _)|[(rf & X & Hf)|(X & _)]]); [discriminate| |discriminate]. injection X as <-. apply FF in Hf. congruence.
Qed.
Lemma resolved_calibs : forall jit g db mk s s1 c c1, resolved known lookup jit g db mk s s1 c c1 -> s_calibs s <> None -> exists l1, s_calibs s1 = Some l1.
Proof.
  intros jit g db mk s s1 c c1 R N. unfold resolved in R. destruct jit; [|destruct R as [-> _]; destruct (s_calibs s) as [l|]; [exists l; reflexivity|contradiction]].
  destruct R as (f & _ & Fs & _). unfold fill_spec in Fs. destruct (s_calibs s) as [l|]; [|contradiction]. destruct Fs as (l' & b & _ & ->). exists l'. reflexivity.
Qed.
Lemma resolved_fun : forall jit g db mk s s1 c c1 s2 c2, resolved known lookup jit g db mk s s1 c c1 -> resolved known lookup jit g db mk s s2 c c2 -> s1 = s2 /\ c1 = c2.
Proof.
  intros jit g db mk s s1 c c1 s2 c2 R R'. unfold resolved in *. destruct jit; [|destruct R as [-> ->], R' as [-> ->]; split; reflexivity].
  destruct R as (f & Hf & Fs & K & Fr), R' as (f' & Hf' & Fs' & K' & Fr'). rewrite Hf in Hf'. injection Hf' as <-. apply fill_ok in Fs, Fs'. rewrite Fs in Fs'. injection Fs' as ->. split; [reflexivity|].
  destruct c as [|l|x]; [discriminate| |]; destruct c1, c2; cbn in *; try contradiction; congruence.
Qed.

Lemma run_fun : forall g db0 mk s (w : wst) fn l, ~ is_save s -> sem (s_name s) = Some fn -> ~ skipped s -> s_calibs s = Some l ->
  run_step known lookup cal_load sem g db0 mk s w =
  let '(s1, w1, e1) := before g db0 mk s w in
  match e1 with
  | Some x => (s1, w1, Some x)
  | None => match load_cals known cal_load (match s_calibs s1 with Some l => l | None => [] end) with
            | Raise x => (s1, w1, Some x)
            | Ok args => match fn (w_cur w1) args (kwargs s) with
                         | Ok c => (s1, mkw c (w_ev w1 ++ [EStep (s_name s) args (kwargs s)]), None)
                         | Raise x => (s1, mkw (w_cur w1) (w_ev w1 ++ [EStep (s_name s) args (kwargs s)]), Some x)
                         end
            end
  end.
Proof.
  intros g db0 mk s w fn l NS SM NK C. unfold run_step. rewrite (eqbN _ _ NS), SM. unfold skipped in NK. destruct (s_skip s) as [[|]|]; [contradiction| |]; rewrite C; reflexivity.
Qed.
Lemma run_plain : forall g db0 mk s (w : wst) fn, ~ is_save s -> sem (s_name s) = Some fn -> ~ skipped s -> s_calibs s = None ->
  run_step known lookup cal_load sem g db0 mk s w =
  match fn (w_cur w) [] (kwargs s) with
  | Ok c => (s, mkw c (w_ev w ++ [EStep (s_name s) [] (kwargs s)]), None)
  | Raise x => (s, mkw (w_cur w) (w_ev w ++ [EStep (s_name s) [] (kwargs s)]), Some x)
  end.
Proof.
  intros g db0 mk s w fn NS SM NK C. unfold run_step. rewrite (eqbN _ _ NS), SM. unfold skipped in NK. destruct (s_skip s) as [[|]|]; [contradiction| |]; rewrite C; reflexivity.
Qed.
Lemma run_skip : forall g db0 mk s (w : wst) fn, ~ is_save s -> sem (s_name s) = Some fn -> skipped s -> run_step known lookup cal_load sem g db0 mk s w = (s, w, None).
Proof. intros g db0 mk s w fn NS SM K. unfold run_step. rewrite (eqbN _ _ NS), SM. unfold skipped in K. rewrite K. reflexivity. Qed.
Lemma run_unknown : forall g db0 mk s (w : wst), ~ is_save s -> sem (s_name s) = None -> run_step known lookup cal_load sem g db0 mk s w = (s, w, Some KeyError).
Proof. intros g db0 mk s w NS SM. unfold run_step. rewrite (eqbN _ _ NS), SM. reflexivity. Qed.
Lemma save_dec : forall s, {is_save s} + {~ is_save s}.
Proof. intros s. apply string_dec. Qed.
Lemma skip_dec : forall s, {skipped s} + {~ skipped s}.
Proof. intros s. unfold skipped. destruct (s_skip s) as [[|]|]; [left; reflexivity|right; discriminate|right; discriminate]. Qed.

Lemma step_ok : forall g db0 mk s (w : wst) s' w', run_step known lookup cal_load sem g db0 mk s w = (s', w', None) <-> exec_step known lookup cal_load sem g db0 mk s w s' w'.
Proof.
  intros g db0 mk s [c ev] s' w'. split.
  - intros H. destruct (save_dec s) as [I|NS].
    + destruct (suffix_cases s) as [[x SX]|(kw & v & K & A)]; [|rewrite (run_save_bad _ _ _ _ _ _ _ I K A) in H; discriminate].
      rewrite (run_save _ _ _ _ _ _ I SX) in H. cbn [w_cur w_ev] in H. destruct (save_data (r_out (mk s)) x c) as [[c' ev'] e] eqn:E. injection H as <- <- ->. apply save_ok in E. exact (x_save _ _ _ _ _ _ _ _ _ _ _ _ _ I SX E).
    + destruct (sem (s_name s)) as [fn|] eqn:SM; [|rewrite (run_unknown _ _ _ _ _ NS SM) in H; discriminate].
      destruct (skip_dec s) as [K|NK]; [rewrite (run_skip _ _ _ _ _ _ NS SM K) in H; injection H as <- <-; exact (x_skip _ _ _ _ _ _ _ _ _ _ NS SM K)|].
      destruct (s_calibs s) as [l|] eqn:C.
      * rewrite (run_fun _ _ _ _ _ _ _ NS SM NK C) in H. destruct (before g db0 mk s (mkw c ev)) as [[s1 w1] [e1|]] eqn:B; [discriminate|]. apply before_ok in B. destruct B as (c1 & -> & R).
        destruct (resolved_calibs _ _ _ _ _ _ _ _ R) as [l1 C1]; [congruence|]. rewrite C1 in H. destruct (load_cals known cal_load l1) as [args|] eqn:L; [|discriminate]. apply load_ok in L. cbn [w_cur w_ev] in H.
        destruct (fn c1 args (kwargs s)) as [c'|] eqn:F; [|discriminate]. injection H as <- <-. exact (x_cal _ _ _ _ _ _ _ _ _ _ _ _ _ _ _ _ _ NS SM NK C R C1 L F).
      * rewrite (run_plain _ _ _ _ _ _ NS SM NK C) in H. cbn [w_cur w_ev] in H. destruct (fn c [] (kwargs s)) as [c'|] eqn:F; [|discriminate]. injection H as <- <-. exact (x_plain _ _ _ _ _ _ _ _ _ _ _ _ NS SM NK C F).
  - intros H. inversion H as [s0 c0 ev0 x c' ev' I SX SV|s0 w0 fn NS SM K|s0 c0 ev0 fn c' NS SM NK C F|s0 c0 ev0 fn l s1 c1 l1 args c' NS SM NK C R C1 L F]; subst.
    + rewrite (run_save _ _ _ _ _ _ I SX). cbn [w_cur w_ev]. apply save_ok in SV. rewrite SV. reflexivity.
    + exact (run_skip _ _ _ _ _ _ NS SM K).
    + rewrite (run_plain _ _ _ _ _ _ NS SM NK C). cbn [w_cur w_ev]. rewrite F. reflexivity.
    + rewrite (run_fun _ _ _ _ _ _ _ NS SM NK C). rewrite (proj2 (before_ok g db0 mk s c ev s' (mkw c1 ev))) by (exists c1; split; [reflexivity|exact R]). rewrite C1. apply load_ok in L. rewrite L. cbn [w_cur w_ev]. rewrite F. reflexivity.
Qed.
Lemma step_fail : forall g db0 mk s (w : wst) s' w' e, run_step known lookup cal_load sem g db0 mk s w = (s', w', Some e) <-> fail_step known lookup cal_load sem g db0 mk s w s' w' e.
Proof.
  intros g db0 mk s [c ev] s' w' e. split.
  - intros H. destruct (save_dec s) as [I|NS].
    + destruct (suffix_cases s) as [[x SX]|(kw & v & K & A)]; [|rewrite (run_save_bad _ _ _ _ _ _ _ I K A) in H; injection H as <- <- <-; eapply e_suffix; eassumption].
      rewrite (run_save _ _ _ _ _ _ I SX) in H. cbn [w_cur w_ev] in H. destruct (save_data (r_out (mk s)) x c) as [[c' ev'] e0] eqn:E. injection H as <- <- ->. apply save_fail in E.
      destruct E as [(-> & -> & -> & ->)|(-> & HS)]; [rewrite List.app_nil_r; eapply e_nothing; eassumption|eapply e_name; eassumption].
    + destruct (sem (s_name s)) as [fn|] eqn:SM; [|rewrite (run_unknown _ _ _ _ _ NS SM) in H; injection H as <- <- <-; apply e_unknown; assumption].
      destruct (skip_dec s) as [K|NK]; [rewrite (run_skip _ _ _ _ _ _ NS SM K) in H; discriminate|].
      destruct (s_calibs s) as [l|] eqn:C.
      * rewrite (run_fun _ _ _ _ _ _ _ NS SM NK C) in H. destruct (before g db0 mk s (mkw c ev)) as [[s1 w1] [e1|]] eqn:B.
        -- injection H as <- <- <-. apply before_fail in B; [|congruence]. destruct B as (J & -> & [(-> & -> & ->)|[(rf & Rf & Ff)|(-> & -> & Fs)]]).
           ++ eapply e_jit_empty; eassumption.
           ++ eapply e_jit_fill; eassumption.
           ++ eapply e_jit_none; eassumption.
        -- apply before_ok in B. destruct B as (c1 & -> & R). destruct (resolved_calibs _ _ _ _ _ _ _ _ R) as [l1 C1]; [congruence|]. rewrite C1 in H. cbn [w_cur w_ev] in H. destruct (load_cals known cal_load l1) as [args|e2] eqn:L.
           ++ apply load_ok in L. destruct (fn c1 args (kwargs s)) as [c'|e2] eqn:F; [discriminate|]. injection H as <- <- <-. eapply e_call; eassumption.
           ++ injection H as <- <- <-. apply load_fail in L. destruct L as (pre & args & x & post & -> & F & B). eapply e_load; eassumption.
      * rewrite (run_plain _ _ _ _ _ _ NS SM NK C) in H. cbn [w_cur w_ev] in H. destruct (fn c [] (kwargs s)) as [c'|e2] eqn:F; [discriminate|]. injection H as <- <- <-. eapply e_plain; eassumption.
  - intros H. inversion H as [s0 w0 kw v I K A|s0 ev0 x I SX|s0 c0 ev0 x c' ev' I SX SV|s0 w0 NS SM|s0 c0 ev0 fn e0 NS SM NK C F|s0 ev0 fn l NS SM NK C J|s0 c0 ev0 fn rf s1 e0 NS SM NK J Rf Ff|s0 ev0 fn l s1 NS SM NK C J Fs|s0 c0 ev0 fn l s1 c1 pre args x post e0 NS SM NK C R C1 L B|s0 c0 ev0 fn l s1 c1 l1 args e0 NS SM NK C R C1 L F]; subst.
    + exact (run_save_bad _ _ _ _ _ _ _ I K A).
    + rewrite (run_save _ _ _ _ _ _ I SX). cbn. rewrite List.app_nil_r. reflexivity.
    + rewrite (run_save _ _ _ _ _ _ I SX). cbn [w_cur w_ev]. rewrite (proj2 (save_fail _ _ _ _ _ _) (or_intror (conj eq_refl SV))). reflexivity.
    + exact (run_unknown _ _ _ _ _ NS SM).
    + rewrite (run_plain _ _ _ _ _ _ NS SM NK C). cbn [w_cur w_ev]. rewrite F. reflexivity.
    + rewrite (run_fun _ _ _ _ _ _ _ NS SM NK C). unfold before. rewrite J. reflexivity.
    + assert (C : exists l, s_calibs s = Some l) by (destruct Ff as (pre & pre' & x & post & b & C & _); eexists; exact C). destruct C as [l C].
      rewrite (run_fun _ _ _ _ _ _ _ NS SM NK C). rewrite (proj2 (before_fail g db0 mk s c ev s' (mkw c ev) e ltac:(congruence))); [reflexivity|]. split; [exact J|]. split; [reflexivity|]. right. left. exists rf. split; assumption.
    + rewrite (run_fun _ _ _ _ _ _ _ NS SM NK C). rewrite (proj2 (before_fail g db0 mk s CNone ev s' (mkw CNone ev) AttributeError ltac:(congruence))); [reflexivity|]. split; [exact J|]. split; [reflexivity|]. right. right. split; [reflexivity|]. split; [reflexivity|exact Fs].
    + rewrite (run_fun _ _ _ _ _ _ _ NS SM NK C). rewrite (proj2 (before_ok g db0 mk s c ev s' (mkw c1 ev))) by (exists c1; split; [reflexivity|exact R]). rewrite C1.
      rewrite (proj2 (load_fail (pre ++ x :: post) e)) by (exists pre, args, x, post; split; [reflexivity|split; assumption]). reflexivity.
    + rewrite (run_fun _ _ _ _ _ _ _ NS SM NK C). rewrite (proj2 (before_ok g db0 mk s c ev s' (mkw c1 ev))) by (exists c1; split; [reflexivity|exact R]). rewrite C1. apply load_ok in L. rewrite L. cbn [w_cur w_ev]. rewrite F. reflexivity.
Qed.

(** * All steps *)
Notation exec := (exec known lookup cal_load sem).
Notation exec_step := (exec_step known lookup cal_load sem).
Notation fail_step := (fail_step known lookup cal_load sem).
Notation run_steps := (run_steps known lookup cal_load sem).
Lemma steps_ok : forall g db0 l mk (w : wst) l' w', run_steps g db0 mk l w = (l', w', None) <-> exec g db0 mk l w l' w'.
Proof.
  intros g db0. induction l as [|s t IH]; intros mk w l' w'; cbn [WalkModel.run_steps].
  - split; [intros H; injection H as <- <-; constructor|intros H; inversion H; reflexivity].
  - destruct (run_step known lookup cal_load sem g db0 (fun x => mk (x :: t)) s w) as [[s1 w1] [e|]] eqn:E.
    + split; [discriminate|]. intros H. inversion H as [|? ? ? ? s0 w0 t0 w2 X Y]; subst. apply step_ok in X. congruence.
    + destruct (run_steps g db0 (fun l => mk (s1 :: l)) t w1) as [[t' w2] e'] eqn:Es. split.
      * intros H. injection H as <- <- ->. apply step_ok in E. econstructor; [exact E|]. apply IH. exact Es.
      * intros H. inversion H as [|? ? ? ? s0 w0 t0 w3 X Y]; subst. apply step_ok in X. rewrite E in X. injection X as -> ->. apply IH in Y. rewrite Es in Y. injection Y as -> -> ->. reflexivity.
Qed.
Lemma steps_fail : forall g db0 l mk (w : wst) l' w' e, run_steps g db0 mk l w = (l', w', Some e) <->
  exists pre s post pre' s' w1, l = pre ++ s :: post /\ l' = pre' ++ s' :: post /\ exec g db0 (fun a => mk (a ++ s :: post)) pre w pre' w1
  /\ fail_step g db0 (fun x => mk (pre' ++ x :: post)) s w1 s' w' e.
Proof.
  intros g db0. induction l as [|s t IH]; intros mk w l' w' e; cbn [WalkModel.run_steps].
  - split; [discriminate|]. intros ([|] & ? & ? & ? & ? & ? & H & _); discriminate.
  - destruct (run_step known lookup cal_load sem g db0 (fun x => mk (x :: t)) s w) as [[s1 w1] [e1|]] eqn:E.
    + split.
      * intros H. injection H as <- <- <-. exists [], s, t, [], s1, w. split; [reflexivity|]. split; [reflexivity|]. split; [constructor|]. apply step_fail. exact E.
      * intros (pre & s0 & post & pre' & s' & w2 & H & -> & X & Y). destruct pre as [|p pre]; cbn in H; injection H as <- ->.
        -- inversion X; subst. apply step_fail in Y. cbn [app] in Y. rewrite E in Y. injection Y as -> -> ->. reflexivity.
        -- inversion X as [|? ? ? ? s3 w3 t0 w4 X1 X2]; subst. cbn [app] in X1. apply step_ok in X1. congruence.
    + destruct (run_steps g db0 (fun l => mk (s1 :: l)) t w1) as [[t' w2] e'] eqn:Es. split.
      * intros H. injection H as <- <- ->. apply IH in Es. destruct Es as (pre & s0 & post & pre' & s' & w3 & -> & -> & X & Y). exists (s :: pre), s0, post, (s1 :: pre'), s', w3. split; [reflexivity|]. split; [reflexivity|].
        split; [|exact Y]. apply step_ok in E. econstructor; [exact E|exact X].
      * intros (pre & s0 & post & pre' & s' & w3 & H & -> & X & Y). destruct pre as [|p pre]; cbn in H; injection H as <- ->.
        -- inversion X; subst. apply step_fail in Y. cbn [app] in Y. congruence.
        -- inversion X as [|? ? ? ? s3 w4 t0 w5 X1 X2]; subst. cbn [app] in X1. apply step_ok in X1. rewrite E in X1. injection X1 as -> ->.
           assert (Z : (t', w2, e') = (t0 ++ s' :: post, w', Some e)). { rewrite <- Es. apply IH. exists pre, s0, post, t0, s', w3. split; [reflexivity|]. split; [reflexivity|]. split; assumption. }
           injection Z as -> -> ->. reflexivity.
Qed.

(** * The calls made *)
Lemma calls_app : forall (a b : list event), calls (a ++ b) = calls a ++ calls b.
Proof. intros a b. unfold calls. apply flat_map_app. Qed.
Lemma calls_write : forall (l : list frame), calls (map (@EWrite Dt Cal) l) = [].
Proof. induction l as [|f l IH]; [reflexivity|exact IH]. Qed.
Lemma calls_register : forall (l : list frame), calls (map (@ERegister Dt Cal) l) = [].
Proof. induction l as [|f l IH]; [reflexivity|exact IH]. Qed.
Lemma runs_iff : forall s, runs s = true <-> ~ is_save s /\ ~ skipped s.
Proof.
  intros s. unfold runs, is_save, skipped. rewrite andb_true_iff, !negb_true_iff, String.eqb_neq. destruct (s_skip s) as [[|]|]; split; intros [A B]; split; try exact A; congruence.
Qed.
Lemma step_calls : forall g db0 mk s (w : wst) s' w', exec_step g db0 mk s w s' w' -> exists ev, w_ev w' = w_ev w ++ ev /\ calls ev = if runs s then [s_name s] else [].
Proof.
  intros g db0 mk s w s' w' H. destruct H as [s c ev x c' ev' I SX (K & F & ->)|s w fn NS SM K|s c ev fn c' NS SM NK C F|s c ev fn l s1 c1 l1 args c' NS SM NK C R C1 L F]; cbn [w_ev].
  - eexists. split; [reflexivity|]. rewrite calls_app, calls_write, calls_register. destruct (runs s) eqn:E; [apply runs_iff in E; destruct E; contradiction|reflexivity].
  - exists []. split; [symmetry; apply List.app_nil_r|]. destruct (runs s) eqn:E; [apply runs_iff in E; destruct E; contradiction|reflexivity].
  - eexists. split; [reflexivity|]. rewrite (proj2 (runs_iff s) (conj NS NK)). reflexivity.
  - eexists. split; [reflexivity|]. rewrite (proj2 (runs_iff s) (conj NS NK)). reflexivity.
Qed.
Lemma exec_calls : forall g db0 mk l (w : wst) l' w', exec g db0 mk l w l' w' -> exists ev, w_ev w' = w_ev w ++ ev /\ calls ev = map s_name (filter runs l).
Proof.
  intros g db0 mk l w l' w' H. induction H as [mk w|mk s t w s' w1 t' w2 X Y IH]; [exists []; split; [symmetry; apply List.app_nil_r|reflexivity]|].
  destruct IH as (ev2 & E2 & C2). apply step_calls in X. destruct X as (ev1 & E1 & C1). exists (ev1 ++ ev2). split; [rewrite E2, E1; symmetry; apply List.app_assoc|]. rewrite calls_app, C1, C2. cbn [filter]. destruct (runs s); reflexivity.
Qed.
Lemma fail_calls : forall g db0 mk s (w : wst) s' w' e, fail_step g db0 mk s w s' w' e -> exists ev, w_ev w' = w_ev w ++ ev /\ (calls ev = [] \/ calls ev = [s_name s] /\ runs s = true).
Proof.
  intros g db0 mk s w s' w' e H. destruct H as [s w kw v I K A|s ev x I SX|s c ev x c' ev' I SX SV|s w NS SM|s c ev fn e NS SM NK C F|s ev fn l NS SM NK C J|s c ev fn rf s1 e NS SM NK J Rf Ff|s ev fn l s1 NS SM NK C J Fs|s c ev fn l s1 c1 pre args x post e NS SM NK C R C1 L B|s c ev fn l s1 c1 l1 args e NS SM NK C R C1 L F]; cbn [w_ev];
    try (exists []; split; [symmetry; apply List.app_nil_r|left; reflexivity]).
  - exists ev'. split; [reflexivity|]. left. destruct SV as (_ & pre & pre' & f & f' & post & _ & _ & _ & _ & _ & ->). apply calls_write.
  - eexists. split; [reflexivity|]. right. split; [reflexivity|]. apply runs_iff. split; assumption.
  - eexists. split; [reflexivity|]. right. split; [reflexivity|]. apply runs_iff. split; assumption.
Qed.
Lemma unknown_never : forall g db0 mk l (w : wst) l' w', exec g db0 mk l w l' w' -> forall s, In s l -> is_save s \/ sem (s_name s) <> None.
Proof.
  intros g db0 mk l w l' w' H. induction H as [|mk s t w s' w1 t' w2 X Y IH]; intros s0 Hi; [destruct Hi|]. destruct Hi as [<-|Hi]; [|exact (IH s0 Hi)].
  destruct X; [left; assumption| | |]; right; congruence.
Qed.
Lemma exec_length : forall g db0 mk l (w : wst) l' w', exec g db0 mk l w l' w' -> map s_name l' = map s_name l /\ map s_kw l' = map s_kw l.
Proof.
  intros g db0 mk l w l' w' H. induction H as [|mk s t w s' w1 t' w2 X Y [IH1 IH2]]; [split; reflexivity|]. cbn. rewrite IH1, IH2.
  assert (E : s_name s' = s_name s /\ s_kw s' = s_kw s); [|destruct E as [-> ->]; split; reflexivity]. destruct X as [| | |s c ev fn l s1 c1 l1 args c' NS SM NK C R C1 L F]; try (split; reflexivity).
  unfold resolved in R. destruct (negb _); [|destruct R as [-> _]; split; reflexivity]. destruct R as (f & _ & Fs & _). unfold fill_spec in Fs. rewrite C in Fs. destruct Fs as (l' & b & _ & ->). split; reflexivity.
Qed.
(** without just-in-time resolution the recipe is not changed *)
Lemma exec_unchanged : forall g db0 mk l (w : wst) l' w', exec g db0 mk l w l' w' -> (forall x, fill_now (r_cfg (mk x)) g = true) -> l' = l.
Proof.
  intros g db0 mk l w l' w' H. induction H as [|mk s t w s' w1 t' w2 X Y IH]; intros J; [reflexivity|]. rewrite (IH (fun x => J _)). f_equal. destruct X as [| | |s c ev fn l s1 c1 l1 args c' NS SM NK C R C1 L F]; try reflexivity. rewrite J in R. destruct R as [-> _]. reflexivity.
Qed.

(** * run_recipe *)
Lemma configure_at : forall cfg g k, NoDup (map fst cfg) -> configure cfg g k = match assoc k cfg with Some b => b | None => g k end.
Proof.
  induction cfg as [|[a b] cfg IH]; intros g k ND; [reflexivity|]. inversion ND as [|? ? Na ND']; subst. unfold configure. cbn [fold_left]. fold (configure cfg (fun k => if String.eqb a k then b else g k)). change (fold_left _ cfg ?x k) with (configure cfg x k).
  rewrite (IH _ k ND'). cbn [assoc fst snd]. destruct (String.eqb a k) eqn:E; [|reflexivity]. apply String.eqb_eq in E. subst k. destruct (assoc a cfg) as [b'|] eqn:Ea; [|reflexivity]. exfalso. apply Na. clear - Ea. induction cfg as [|[a' x] cfg IH]; [discriminate|]. cbn in Ea |- *. destruct (String.eqb a' a) eqn:E; [left; apply String.eqb_eq; exact E|right; exact (IH Ea)].
Qed.
Variable img_load : string -> result frame.
Notation run_recipe := (run_recipe known lookup cal_load img_load sem).
Lemma loaded_ok : forall r c, (match r_in r with [] => Ok CNone | _ :: _ => do fs <- mapW img_load (r_in r); Ok (CData (map (set_recipe r) fs)) end) = Ok c <-> loaded img_load r c.
Proof.
  intros r c. unfold loaded. destruct (r_in r) as [|p ps] eqn:E; [split; [intros H; injection H as <-; reflexivity|intros ->; reflexivity]|]. rewrite <- E. unfold bind. destruct (mapW img_load (r_in r)) as [fs|e] eqn:M.
  - apply mapW_ok in M. split; [intros H; injection H as <-; exists fs; split; [exact M|reflexivity]|]. intros (fs' & F & ->). apply mapW_ok in M, F. congruence.
  - split; [discriminate|]. intros (fs' & F & _). apply mapW_ok in F. congruence.
Qed.
Lemma recipe_ok : forall g db0 sf r g' r' (w : wst), run_recipe g db0 sf r = (g', r', w, None) <->
  g' = configure (r_cfg r) g /\ exists c l, loaded img_load r c /\ exec g' db0 (with_steps r) (r_steps r) (mkw c (if sf then [ERecipe r] else [])) l w /\ r' = with_steps r l.
Proof.
  intros g db0 sf r g' r' w. unfold WalkModel.run_recipe. set (X := match r_in r with [] => Ok CNone | _ :: _ => _ end). assert (LX : forall c, X = Ok c <-> loaded img_load r c) by (intros c; apply loaded_ok). clearbody X.
  destruct X as [c|e].
  - destruct (run_steps (configure (r_cfg r) g) db0 (with_steps r) (r_steps r) (mkw c (if sf then [ERecipe r] else []))) as [[l w1] e] eqn:E. split.
    + intros H. injection H as <- <- <- ->. split; [reflexivity|]. exists c, l. split; [apply LX; reflexivity|]. split; [apply steps_ok; exact E|reflexivity].
    + intros (-> & c' & l' & L & Ex & ->). apply LX in L. injection L as <-. apply steps_ok in Ex. rewrite E in Ex. injection Ex as -> -> ->. reflexivity.
  - split; [discriminate|]. intros (_ & c & l & L & _). apply LX in L. discriminate.
Qed.
Lemma recipe_fail : forall g db0 sf r g' r' (w : wst) e, run_recipe g db0 sf r = (g', r', w, Some e) <->
  g' = configure (r_cfg r) g /\
  ((r' = r /\ w = mkw CNone [] /\ exists pre p post, r_in r = pre ++ p :: post /\ (forall q, In q pre -> exists f, img_load q = Ok f) /\ img_load p = Raise e)
   \/ exists c pre s post pre' s' w1, loaded img_load r c /\ r_steps r = pre ++ s :: post /\ r' = with_steps r (pre' ++ s' :: post)
      /\ exec g' db0 (fun a => with_steps r (a ++ s :: post)) pre (mkw c (if sf then [ERecipe r] else [])) pre' w1
      /\ fail_step g' db0 (fun x => with_steps r (pre' ++ x :: post)) s w1 s' w e).
Proof.
  intros g db0 sf r g' r' w e. unfold WalkModel.run_recipe. set (X := match r_in r with [] => Ok CNone | _ :: _ => _ end). assert (LX : forall c, X = Ok c <-> loaded img_load r c) by (intros c; apply loaded_ok).
  assert (RX : X = Raise e <-> exists pre p post, r_in r = pre ++ p :: post /\ (forall q, In q pre -> exists f, img_load q = Ok f) /\ img_load p = Raise e).
  { subst X. destruct (r_in r) as [|p ps]; [split; [discriminate|intros ([|] & ? & ? & H & _); discriminate]|]. rewrite <- mapW_raise. unfold bind. destruct (mapW img_load (p :: ps)); split; congruence. }
  clearbody X. destruct X as [c|e0].
  - destruct (run_steps (configure (r_cfg r) g) db0 (with_steps r) (r_steps r) (mkw c (if sf then [ERecipe r] else []))) as [[l w1] e1] eqn:E. split.
    + intros H. injection H as <- <- <- ->. split; [reflexivity|]. right. apply steps_fail in E. destruct E as (pre & s & post & pre' & s' & w2 & H1 & -> & Ex & Fl). exists c, pre, s, post, pre', s', w2. split; [apply LX; reflexivity|]. split; [exact H1|]. split; [reflexivity|]. split; assumption.
    + intros (-> & [(_ & _ & R)|(c' & pre & s & post & pre' & s' & w2 & L & H1 & -> & Ex & Fl)]); [apply RX in R; discriminate|]. apply LX in L. injection L as <-.
      assert (Z : (l, w1, e1) = (pre' ++ s' :: post, w, Some e)). { rewrite <- E. apply steps_fail. exists pre, s, post, pre', s', w2. split; [exact H1|]. split; [reflexivity|]. split; assumption. }
      injection Z as -> -> ->. reflexivity.
  - split.
    + intros H. injection H as <- <- <- ->. split; [reflexivity|]. left. split; [reflexivity|]. split; [reflexivity|]. apply RX. reflexivity.
    + intros (-> & [(-> & -> & R)|(c' & pre & s & post & pre' & s' & w2 & L & _)]); [apply RX in R; injection R as ->; reflexivity|]. apply LX in L. discriminate.
Qed.
End Run.

Section Findings.
Context {Dt Cal : Type}.
Variable known : string -> bool.
Variable lookup : list (frame Dt) -> refr Dt -> string -> result string.
Variable cal_load : string -> string -> result Cal.
Variable img_load : string -> result (frame Dt).
Variable sem : string -> option (cur Dt -> list (option Cal) -> list (string * kv) -> result (cur Dt)).

(** with just-in-time resolution a step is executed although its calibration
    is missing and it has just been marked skipped *)
Lemma jit_skip : forall g db0 mk s c ev fn k a f c', ~ is_save s -> sem (s_name s) = Some fn -> ~ skipped s -> s_calibs s = Some [(k, Some a)] ->
  fill_now (r_cfg (mk s)) g = false -> g "skip_missing_cal_steps" = true -> mentions "AUTOMATIC" a -> ~ mentions "OPTIONAL" a -> known k = true ->
  hd_error (frames_of c) = Some f -> lookup (db0 ++ registered ev) (RFrame f) k = Raise ValueError ->
  (forall c1, frames_of c1 = map (set_recipe (mk (with_calibs s [(k, None)] true))) (frames_of c) -> fn c1 [None] (kwargs s) = Ok c') ->
  exists s1, run_step known lookup cal_load sem g db0 mk s (mkw c ev) = (s1, mkw c' (ev ++ [EStep (s_name s) [None] (kwargs s)]), None) /\ skipped s1.
Proof.
  intros g db0 mk s c ev fn k a f c' NS SM NK C J SK Ma No Kn Hf Lk Fn. exists (with_calibs s [(k, None)] true). split; [|reflexivity]. apply step_ok.
  assert (X : exists c1, same_kind c c1 /\ frames_of c1 = map (set_recipe (mk (with_calibs s [(k, None)] true))) (frames_of c)).
  { destruct c as [|l|x]; [discriminate|exists (CData (map (set_recipe (mk (with_calibs s [(k, None)] true))) l)); split; [exact I|reflexivity]|exists (CImg (set_recipe (mk (with_calibs s [(k, None)] true)) x)); split; [exact I|reflexivity]]. }
  destruct X as (c1 & K1 & F1). eapply x_cal; try eassumption.
  - rewrite J. cbn [negb]. unfold resolved. exists f. split; [exact Hf|]. split; [|split; [exact K1|exact F1]]. unfold fill_spec. rewrite C. exists [(k, None)], true. split; [|reflexivity].
    apply (fa_cons _ _ _ (k, Some a) (k, None) true [] [] false); [|constructor]. rewrite SK. apply f_skip; try assumption. reflexivity.
  - reflexivity.
  - constructor; [constructor; exact Kn|constructor].
  - apply Fn. exact F1.
Qed.
(** settings of a recipe stay in force *)
Lemma config_persists : forall g db0 sf r g' r' (w : wst Dt Cal) e, run_recipe known lookup cal_load img_load sem g db0 sf r = (g', r', w, e) -> NoDup (map fst (r_cfg r)) ->
  forall k, g' k = match assoc k (r_cfg r) with Some b => b | None => g k end.
Proof.
  intros g db0 sf r g' r' w e H ND k. assert (E : g' = configure (r_cfg r) g); [|subst g'; apply configure_at; exact ND]. destruct e as [e|]; [apply recipe_fail in H|apply recipe_ok in H]; destruct H as [H _]; exact H.
Qed.
Lemma jit_leaks : forall g db0 sf r g' r' (w : wst Dt Cal) e r2, run_recipe known lookup cal_load img_load sem g db0 sf r = (g', r', w, e) -> NoDup (map fst (r_cfg r)) ->
  assoc "jit_calib_id" (r_cfg r) = Some true -> assoc "jit_calib_id" (r_cfg r2) = None -> g "jit_calib_id" = false -> fill_now (r_cfg r2) g = true /\ fill_now (r_cfg r2) g' = false.
Proof.
  intros g db0 sf r g' r' w e r2 H ND A A2 G. unfold fill_now. rewrite A2, G, (config_persists _ _ _ _ _ _ _ _ H ND), A. split; reflexivity.
Qed.
(** saving when nothing was loaded *)
Lemma empty_save : forall g db0 mk s x ev, is_save s -> suffix_of s x -> run_step (Dt := Dt) known lookup cal_load sem g db0 mk s (mkw CNone ev) = (s, mkw CNone ev, Some AttributeError).
Proof. intros g db0 mk s x ev I SX. apply step_fail. eapply e_nothing; eassumption. Qed.
End Findings.
