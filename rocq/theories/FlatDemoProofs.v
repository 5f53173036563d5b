(** Cases of the flat fields. *)
From Coq Require Import List Arith Bool Reals ZArith Lia Lra String Ascii Permutation Sorted.
From Verif Require Import Base CombineModel CombineSpec CombineProofs ComboSpec FindModel FlatModel FlatSpec FlatProofs FlatRunProofs FlatTopProofs.
Import ListNotations.
Local Open Scope R_scope.

Definition mid (_ : img) : Z * Z := (6, 6)%Z.
Definition plain (i : img) : img := i.
Definition cards (k : string) : option string := if String.eqb k "EXPTIME" then Some "1.0"%string else if String.eqb k "CFAMNAME" then Some "1F"%string else None.
Definition still (x : R) : frame := mkframe (mkimg 12 12 (fun _ _ => Some x)) (Some "Neptune"%string) cards.
Definition set3 (x y z : R) : list frame := [still x; still y; still z].
Definition demo_args : args := mkargs None None 6 None 1 None (Some 1) 100 (Some 0%nat) None.
Lemma demo_alike : forall x y z, alike mid (a_up demo_args) (set3 x y z).
Proof. intros x y z f g [<-|[<-|[<-|[]]]] [<-|[<-|[<-|[]]]]; reflexivity. Qed.
Lemma demo_fitting : forall x y z, fitting mid (a_up demo_args) 12 (set3 x y z).
Proof. intros x y z f [<-|[<-|[<-|[]]]]; reflexivity. Qed.
Lemma demo_no_fail : forall x y z e, ~ fails mid demo_args (set3 x y z) e.
Proof.
  intros x y z e F. assert (P : planet_is demo_args (still x) "Neptune") by (right; auto). assert (B : band_is demo_args (still x) "1F") by (right; auto). assert (RD : radius_is demo_args "Neptune" 1) by (left; reflexivity). assert (MK : mask_known demo_args "1F") by (right; exists "F"%string; auto).
  assert (HS : forall f, hd_error (set3 x y z) = Some f -> f = still x) by (intros f E; injection E as <-; reflexivity). pose proof (demo_alike x y z) as AL. pose proof (demo_fitting x y z) as FT.
  assert (K : exists k, List.length (set3 x y z) = (a_groups demo_args * k)%nat) by (exists 3%nat; reflexivity). assert (NZ : a_groups demo_args <> 0%nat) by discriminate.
  destruct F as [E|f0 H N|f0 p H P' N|f0 p H P' B' M|f0 p b H P' B' M N A|f0 p b H P' B' M A G|f0 p b H P' B' M A L Z|f0 p b H P' B' M A L Z K' N|f0 p b rad n H P' B' R' M S L Z K' N|f0 p b rad n l1 f H P' B' R' M S L Z K' N E X].
  - discriminate E.
  - rewrite (HS _ H) in N. exact (N _ P).
  - rewrite (HS _ H) in N. exact (N _ B).
  - rewrite (HS _ H) in B'. pose proof (band_one _ _ _ _ B B') as Q. discriminate Q.
  - apply A. reflexivity.
  - destruct (G AL) as (_ & Q). exact (Q K).
  - discriminate Z.
  - rewrite (HS _ H) in *. pose proof (band_one _ _ _ _ B B') as <-. destruct N as [N|N]; [pose proof (planet_one _ _ _ _ P P') as <-; exact (N _ RD)|exact (N MK)].
  - rewrite (HS _ H) in S. destruct S as [S|(_ & ->)]; [discriminate S|]. exact (N FT).
  - destruct l1 as [|a [|b' [|c [|d l1]]]]; try discriminate E. injection E as _ _ <-. discriminate X.
Qed.
Lemma demo_covers : forall f, covers mid 12 6 1 f 6 6.
Proof.
  intros f. apply covers_disc; [unfold inside, mid; cbn; lia|]. unfold mid. cbn [fst snd]. split; [cbn; lia|]. split; [cbn; lia|]. apply small_root; [lra|]. cbn [INR]. lra.
Qed.
Definition med3 (x y z m : R) : Prop := is_median [x; y; z] m.
Lemma demo_result : forall x y z m, med3 x y z m -> m <> 0 -> exists l p, onsky mid plain demo_args (set3 x y z) = (l, Ok p)
  /\ exists w, settled [Some (x / m); Some (y / m); Some (z / m)] w /\ (w <> Some 0 -> pix (p_data p) 6 6 = w).
Proof.
  intros x y z m M MZ. destruct (onsky mid plain demo_args (set3 x y z)) as (l, [p|e]) eqn:E.
  2:{ exfalso. apply (demo_no_fail x y z e). apply onsky_fails with (gauss := plain). rewrite E. reflexivity. }
  exists l, p. split; [reflexivity|]. apply onsky_ok in E. destruct E as [(f0 & planet & band & rad & n & pad & ims & HD & P & B & RD & _ & SZ & BD & AF & _ & _ & _ & _ & IM & _ & _ & _ & _ & INN)].
  injection HD as <-. destruct RD as [RD|(RD & _)]; [|discriminate RD]. injection RD as <-. destruct SZ as [SZ|(_ & ->)]; [discriminate SZ|]. destruct BD as [BD|(BD & _)]; [|discriminate BD]. injection BD as <-.
  specialize (INN 6 6 ltac:(cbn; lia) ltac:(cbn; lia))%nat. cbn [Nat.add] in INN. destruct AF as [F _].
  assert (IX : map f_img l = map f_img (set3 x y z)). { clear -F. induction F as [|f g l l' (C & _) F IH]; [reflexivity|]. cbn [map]. rewrite IH. f_equal. exact C. }
  rewrite IX in IM. set (g := fun v : R => mkimg 12 12 (fun _ _ => Some v)). change (map f_img (set3 x y z)) with [g x; g y; g z] in IM. cbn [combine] in IM. subst ims.
  destruct INN as (_ & INN). destruct INN as (ch & vs & w & SV & FV & ST & _ & NW). { cbn [rows f_img still a_npix demo_args]. apply Rlt_le, small_root; [lra|]. cbn [INR]. lra. }
  assert (CH : ch = [(0, (g x, g x)); (1, (g y, g y)); (2, (g z, g z))]%nat).
  { refine (sieve_one _ _ _ _ SV _). cbn [List.length seq combine]. repeat (apply sieve_in; [apply demo_covers|]). constructor. }
  subst ch. exists w. split; [|exact NW].
  assert (VA : forall j v u, In v [x; y; z] -> value_at mid plain 1 6 12 [(g x, g x); (g y, g y); (g z, g z)] j (g v, g v) 6 6 u -> u = Some (v / m)).
  { intros j v u _ (ms & Mi & (a & b & k & EL & LL & LA & JJ) & _ & MD & ->). pose proof (f_equal (@List.length _) EL) as LE. rewrite !app_length in LE. cbn [List.length] in LE, LL. assert (a = []) as -> by (destruct a; [reflexivity|cbn [List.length] in LE; lia]). assert (b = []) as -> by (destruct b; [reflexivity|cbn [List.length] in LE; lia]).
    rewrite app_nil_r in EL. cbn [app] in EL. subst ms. unfold plain. specialize (MD (6 - start 12 (fst (mid (fst (g v, g v))) - 6)) (6 - start 12 (snd (mid (fst (g v, g v))) - 6)))%nat. cbn [map] in MD. unfold snippet at 1 2 3 in MD. cbn [snd g pix] in MD. assert (ME : median_of [Some x; Some y; Some z] (Some m)) by exact M. pose proof (median_one _ _ _ MD ME) as ->. unfold snippet. cbn [snd g pix over]. destruct (Req_EM_T m 0); [contradiction|reflexivity]. }
  inversion FV as [|? u1 ? ? V1 F1]; subst. inversion F1 as [|? u2 ? ? V2 F2]; subst. inversion F2 as [|? u3 ? ? V3 F3]; subst. inversion F3; subst. cbn [fst snd] in *. rewrite (VA _ _ _ (or_introl eq_refl) V1) in ST. rewrite (VA _ _ _ (or_intror (or_introl eq_refl)) V2) in ST. rewrite (VA _ _ _ (or_intror (or_intror (or_introl eq_refl))) V3) in ST. exact ST.
Qed.
Lemma med_114 : med3 1 1 4 1 /\ med3 4 1 1 1.
Proof.
  split; (exists [1; 1; 4]; split; [repeat constructor; lra|split; [|right; exists 1%nat; split; reflexivity]]); [apply Permutation_refl|]. apply (Permutation_trans (l' := [1; 4; 1])); [apply perm_skip, perm_swap|apply perm_swap].
Qed.
Lemma order_matters : exists l l' m m' p p', Permutation l l' /\ onsky mid plain demo_args l = (m, Ok p) /\ onsky mid plain demo_args l' = (m', Ok p')
  /\ pix (p_data p) 6 6 = Some (5 / 2) /\ pix (p_data p') 6 6 = Some (7 / 4).
Proof.
  destruct med_114 as (M1 & M2). destruct (demo_result _ _ _ _ M1 ltac:(lra)) as (m & p & E & w & S & W). destruct (demo_result _ _ _ _ M2 ltac:(lra)) as (m' & p' & E' & w' & S' & W').
  assert (V1 : w = Some (5 / 2)). { pose proof (settled_weights [1 / 1; 1 / 1; 4 / 1] w ltac:(discriminate)) as Q. rewrite Q; [cbn; f_equal; lra| |exact S]. intros q [<-|[<-|[<-|[]]]]; lra. }
  assert (V2 : w' = Some (7 / 4)). { pose proof (settled_weights [4 / 1; 1 / 1; 1 / 1] w' ltac:(discriminate)) as Q. rewrite Q; [cbn; f_equal; lra| |exact S']. intros q [<-|[<-|[<-|[]]]]; lra. }
  subst w w'. exists (set3 1 1 4), (set3 4 1 1), m, m', p, p'. split; [|split; [exact E|split; [exact E'|split; [apply W; intros Q; injection Q; lra|apply W'; intros Q; injection Q; lra]]]].
  unfold set3. apply (Permutation_trans (l' := [still 1; still 4; still 1])); [apply perm_skip, perm_swap|apply perm_swap].
Qed.
