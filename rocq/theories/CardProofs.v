(** Proofs on the cards of detected sources. *)
From Coq Require Import List Arith Bool Reals ZArith String Ascii DecimalString Decimal DecimalNat Lia Lra.
From Verif Require Import Base NearModel NearSpec NearProofs FindModel CardModel CardSpec.
Import ListNotations.
Local Open Scope string_scope.

(** ** Texts *)
Fixpoint every (P : ascii -> bool) (s : string) : bool := match s with EmptyString => true | String a t => P a && every P t end.
Definition is_digit (a : ascii) : bool := let n := nat_of_ascii a in (48 <=? n)%nat && (n <=? 57)%nat.
Lemma every_app : forall P a b, every P (a ++ b) = every P a && every P b.
Proof. induction a as [|c a IH]; intros b; [reflexivity|]. cbn. rewrite IH. apply andb_assoc. Qed.
Lemma every_impl : forall (P Q : ascii -> bool) s, (forall a, P a = true -> Q a = true) -> every P s = true -> every Q s = true.
Proof. intros P Q. induction s as [|a s IH]; intros H E; [reflexivity|]. cbn in *. apply andb_true_iff in E. destruct E as (E1 & E2). rewrite (H a E1), (IH H E2). reflexivity. Qed.
Lemma every_fill : forall P c n s, P c = true -> every P s = true -> every P (fill c n s) = true.
Proof. intros P c n s HC HS. induction n as [|n IH]; [exact HS|]. cbn. rewrite HC, IH. reflexivity. Qed.
Lemma uint_digits : forall d, every is_digit (NilEmpty.string_of_uint d) = true.
Proof. induction d; cbn [NilEmpty.string_of_uint every]; rewrite ?IHd; reflexivity. Qed.
Lemma digits_digit : forall n, every is_digit (digits n) = true. Proof. intros n. apply uint_digits. Qed.
Lemma digits_read : forall n, NilEmpty.uint_of_string (digits n) = Some (Nat.to_uint n). Proof. intros n. apply NilEmpty.usu. Qed.
Lemma digits_value : forall n, Nat.of_uint (Nat.to_uint n) = n. Proof. intros n. apply Unsigned.of_to. Qed.
Lemma digits_nonempty : forall n, exists a s, digits n = String a s /\ is_digit a = true.
Proof.
  intros n. pose proof (digits_digit n) as D. destruct (digits n) as [|a s] eqn:E; [|exists a, s; split; [reflexivity|cbn in D; apply andb_true_iff in D; tauto]].
  exfalso. pose proof (digits_read n) as H. rewrite E in H. cbn in H. injection H as H. pose proof (digits_value n) as V. rewrite <- H in V. cbn in V. subst n. discriminate E.
Qed.
Lemma split_none : forall c s, every (fun a => negb (Ascii.eqb a c)) s = true -> split_on c s = [s].
Proof. intros c. induction s as [|a s IH]; intros E; [reflexivity|]. cbn in *. apply andb_true_iff in E. destruct E as (E1 & E2). apply negb_true_iff in E1. rewrite E1, (IH E2). reflexivity. Qed.
Lemma split_app : forall c a b, every (fun x => negb (Ascii.eqb x c)) a = true -> split_on c (a ++ String c b) = a :: split_on c b.
Proof. intros c. induction a as [|x a IH]; intros b E; cbn [append split_on]; [rewrite Ascii.eqb_refl; reflexivity|]. cbn [every] in E. apply andb_true_iff in E. destruct E as (E1 & E2). apply negb_true_iff in E1. rewrite E1, (IH b E2). reflexivity. Qed.
Lemma rstrip_id : forall s, every (fun a => negb (is_blank a)) s = true -> rstrip s = s.
Proof. induction s as [|a s IH]; intros E; [reflexivity|]. cbn [every] in E. apply andb_true_iff in E. destruct E as (E1 & E2). apply negb_true_iff in E1. cbn [rstrip]. rewrite (IH E2), E1. destruct s; reflexivity. Qed.
Lemma lstrip_id : forall s, every (fun a => negb (is_blank a)) s = true -> lstrip s = s.
Proof. intros [|a s] E; [reflexivity|]. cbn [every] in E. apply andb_true_iff in E. destruct E as (E1 & _). apply negb_true_iff in E1. cbn. rewrite E1. reflexivity. Qed.
Lemma strip_fill : forall n s, every (fun a => negb (is_blank a)) s = true -> rstrip (lstrip (fill " " n s)) = s.
Proof. intros n s E. induction n as [|n IH]; cbn [fill]; [rewrite lstrip_id by exact E; apply rstrip_id; exact E|exact IH]. Qed.

Definition plain (a : ascii) : bool := is_digit a || Ascii.eqb a "-" || Ascii.eqb a ".".
Lemma plain_cases : forall a, plain a = true -> negb (Ascii.eqb a ",") = true /\ negb (is_blank a) = true.
Proof. intros a H. split; destruct a as [[] [] [] [] [] [] [] []]; try reflexivity; discriminate H. Qed.
Lemma digit_plain : forall a, is_digit a = true -> plain a = true. Proof. intros a H. unfold plain. rewrite H. reflexivity. Qed.
Lemma digit_point : forall a, is_digit a = true -> negb (Ascii.eqb a ".") = true.
Proof. intros a H. destruct a as [[] [] [] [] [] [] [] []]; try reflexivity; discriminate H. Qed.
Lemma plain_comma : forall s, every plain s = true -> every (fun a => negb (Ascii.eqb a ",")) s = true.
Proof. intros s. apply every_impl. intros a H. apply plain_cases. exact H. Qed.
Lemma plain_blank : forall s, every plain s = true -> every (fun a => negb (is_blank a)) s = true.
Proof. intros s. apply every_impl. intros a H. apply plain_cases. exact H. Qed.
Lemma digits_plain : forall n, every plain (digits n) = true.
Proof. intros n. apply (every_impl is_digit); [exact digit_plain|apply digits_digit]. Qed.
Lemma digits_nopoint : forall n, every (fun a => negb (Ascii.eqb a ".")) (digits n) = true.
Proof. intros n. apply (every_impl is_digit); [exact digit_point|apply digits_digit]. Qed.

(** ** Numbers *)
Lemma unsigned_int : forall n, unsigned (digits n) = Ok (INR n).
Proof.
  intros n. unfold unsigned. rewrite (split_none _ _ (digits_nopoint n)), digits_read, digits_value. destruct (digits_nonempty n) as (a & s & -> & _). reflexivity.
Qed.
Lemma digits_small : forall n, (n < 10)%nat -> String.length (digits n) = 1%nat.
Proof. intros n L. do 10 (destruct n as [|n]; [reflexivity|]). lia. Qed.
Lemma unsigned_tenth : forall a b, (b < 10)%nat -> unsigned (digits a ++ "." ++ digits b) = Ok (INR a + INR b / 10)%R.
Proof.
  intros a b L. unfold unsigned. change ("." ++ digits b) with (String "." (digits b)). rewrite (split_app _ _ _ (digits_nopoint a)), (split_none _ _ (digits_nopoint b)), !digits_read, !digits_value, (digits_small b L). destruct (digits_nonempty a) as (x & s & -> & _). cbn [String.eqb andb]. repeat f_equal. rewrite pow_1. reflexivity.
Qed.
Lemma digit_sign : forall a s, is_digit a = true -> forall A (f g h : string -> A), match String a s with String "-" t => f t | String "+" t => g t | t => h t end = h (String a s).
Proof. intros a s H A f g h. destruct a as [[] [] [] [] [] [] [] []]; try reflexivity; discriminate H. Qed.
Lemma to_float_pos : forall w s, every plain s = true -> (exists a t, s = String a t /\ is_digit a = true) -> to_float (pad " " w s) = unsigned s.
Proof.
  intros w s P (a & t & -> & D). unfold to_float, pad. rewrite strip_fill by (apply plain_blank; exact P). exact (digit_sign a t D (result R) (fun t => bind (unsigned t) (fun x => Ok (- x)%R)) unsigned unsigned).
Qed.
Lemma to_float_neg : forall w s, every plain s = true -> to_float (pad " " w ("-" ++ s)) = bind (unsigned s) (fun x => Ok (- x)%R).
Proof.
  intros w s P. unfold to_float, pad. rewrite strip_fill; [reflexivity|]. apply plain_blank. cbn [append every]. rewrite P. reflexivity.
Qed.
Theorem int_read : forall z, to_float (fmt_4d z) = Ok (IZR z).
Proof.
  intros z. unfold fmt_4d, fmt_d. destruct (Z.ltb_spec z 0) as [L|L].
  - rewrite to_float_neg by apply digits_plain. rewrite unsigned_int. cbn [bind]. f_equal. rewrite INR_IZR_INZ, Zabs2Nat.id_abs, <- opp_IZR. f_equal. lia.
  - rewrite to_float_pos; [|apply digits_plain|destruct (digits_nonempty (Z.abs_nat z)) as (a & s & E & D); eauto]. rewrite unsigned_int. f_equal. rewrite INR_IZR_INZ, Zabs2Nat.id_abs. f_equal. lia.
Qed.
Lemma tenth_text : forall t, every plain (digits (t / 10) ++ "." ++ digits (t mod 10)) = true /\ (exists a s, digits (t / 10) ++ "." ++ digits (t mod 10) = String a s /\ is_digit a = true) /\ unsigned (digits (t / 10) ++ "." ++ digits (t mod 10)) = Ok (INR t / 10)%R.
Proof.
  intros t. split; [|split].
  - rewrite !every_app, !digits_plain. reflexivity.
  - destruct (digits_nonempty (t / 10)) as (a & s & -> & D). eexists a, _. split; [reflexivity|exact D].
  - pose proof (Nat.mod_upper_bound t 10 ltac:(lia)). rewrite unsigned_tenth by assumption. f_equal. rewrite (Nat.div_mod t 10) at 3 by lia. rewrite plus_INR, mult_INR. replace (INR 10) with 10%R by (cbn; ring). field.
Qed.
Local Open Scope R_scope.
Lemma tenths_near : forall x, Rabs (Rabs x - INR (tenths x) / 10) <= / 20.
Proof.
  intros x. unfold tenths. pose proof (rint_rounds (10 * Rabs x)) as (A & _). pose proof (Rabs_pos x) as P. set (z := rint (10 * Rabs x)) in *.
  assert (Z0 : (0 <= z)%Z). { assert (H : -1 < IZR z) by (pose proof (Rle_abs (10 * Rabs x - IZR z)); lra). apply lt_IZR in H. lia. }
  rewrite INR_IZR_INZ, Zabs2Nat.id_abs, Z.abs_eq by exact Z0. replace (Rabs x - IZR z / 10) with ((10 * Rabs x - IZR z) * / 10) by field. rewrite Rabs_mult, (Rabs_pos_eq (/ 10)) by lra. lra.
Qed.
(** The number shown *)
Definition shown (x : R) : R := if Rlt_dec x 0 then - (INR (tenths x) / 10) else INR (tenths x) / 10.
Theorem sn_read : forall x, to_float (fmt_51f x) = Ok (shown x).
Proof.
  intros x. unfold fmt_51f, shown. cbv zeta. destruct (tenth_text (tenths x)) as (P & D & U). destruct (Rlt_dec x 0).
  - rewrite to_float_neg by exact P. rewrite U. reflexivity.
  - rewrite to_float_pos; [exact U|exact P|exact D].
Qed.
Lemma shown_near : forall x, Rabs (shown x - x) <= / 20.
Proof.
  intros x. pose proof (tenths_near x) as T. unfold shown. destruct (Rlt_dec x 0) as [L|L].
  - rewrite (Rabs_left x) in T by exact L. replace (- (INR (tenths x) / 10) - x) with (- x - INR (tenths x) / 10) by ring. exact T.
  - rewrite (Rabs_pos_eq x) in T by lra. rewrite Rabs_minus_sym. exact T.
Qed.
Lemma shown_again : forall x, 0 <= x -> fmt_51f (shown x) = fmt_51f x.
Proof.
  intros x P. assert (SH : shown x = INR (tenths x) / 10) by (unfold shown; destruct (Rlt_dec x 0); [lra|reflexivity]). rewrite SH. set (t := tenths x) in *. pose proof (pos_INR t) as PT.
  assert (E : tenths (INR t / 10) = t). { unfold tenths at 1. rewrite Rabs_pos_eq by lra. replace (10 * (INR t / 10)) with (INR t) by field. rewrite (proj1 (rounds_iff (INR t) (Z.of_nat t))); [lia|]. rewrite INR_IZR_INZ. split; [rewrite Rminus_diag_eq, Rabs_R0 by reflexivity; lra|]. rewrite Rminus_diag_eq, Rabs_R0 by reflexivity. lra. }
  unfold fmt_51f. rewrite E. fold t. destruct (Rlt_dec (INR t / 10) 0); [lra|]. destruct (Rlt_dec x 0); [lra|]. reflexivity.
Qed.
Local Open Scope string_scope.
Lemma pad_comma : forall w s, every plain s = true -> every (fun a => negb (Ascii.eqb a ",")) (pad " " w s) = true.
Proof. intros w s P. unfold pad. apply every_fill; [reflexivity|apply plain_comma; exact P]. Qed.
Lemma int_plain : forall z, every plain (fmt_d z) = true.
Proof. intros z. unfold fmt_d. destruct (z <? 0)%Z; [cbn [append every]; rewrite digits_plain; reflexivity|apply digits_plain]. Qed.
Theorem text_fields : forall s y x, split_on "," (text s y x) = [fmt_51f s; fmt_4d y; fmt_4d x].
Proof.
  intros s y x. unfold text. change ("," ++ fmt_4d y ++ "," ++ fmt_4d x) with (String "," (fmt_4d y ++ String "," (fmt_4d x))). rewrite split_app.
  - rewrite split_app by (apply pad_comma; apply int_plain). rewrite split_none by (apply pad_comma; apply int_plain). reflexivity.
  - unfold fmt_51f. apply pad_comma. destruct (tenth_text (tenths s)) as (P & _). cbv zeta. destruct (Rlt_dec s 0); [rewrite every_app, P; reflexivity|exact P].
Qed.

(** ** Keywords *)
Lemma fill_zero : forall n s d, NilEmpty.uint_of_string s = Some d -> exists e, NilEmpty.uint_of_string (fill "0" n s) = Some e /\ Nat.of_uint e = Nat.of_uint d.
Proof.
  intros n s d H. induction n as [|n (e & E & V)]; cbn [fill]; [exists d; auto|]. exists (D0 e). cbn. rewrite E. split; [reflexivity|]. rewrite <- V. reflexivity.
Qed.
Theorem key_number : forall i, exists s d, key i = "SNYX" ++ s /\ NilEmpty.uint_of_string s = Some d /\ Nat.of_uint d = i /\ (3 <= String.length s)%nat.
Proof.
  intros i. unfold key, fmt_03d, pad. destruct (fill_zero (3 - String.length (digits i)) _ _ (digits_read i)) as (e & E & V). exists (fill "0" (3 - String.length (digits i)) (digits i)), e. split; [reflexivity|]. split; [exact E|]. split; [rewrite V; apply digits_value|].
  assert (L : forall n s, String.length (fill "0" n s) = (n + String.length s)%nat) by (induction n as [|n IH]; intros s; [reflexivity|cbn; rewrite IH; reflexivity]). rewrite L. lia.
Qed.
Lemma key_inj : forall i j, key i = key j -> i = j.
Proof. intros i j H. destruct (key_number i) as (s & d & K & D & V & _). destruct (key_number j) as (s' & d' & K' & D' & V' & _). rewrite K, K' in H. injection H as H. subst s'. congruence. Qed.
Lemma key_prefix : forall i, String.prefix "SNYX" (key i) = true.
Proof. intros i. unfold key. generalize (fmt_03d i). intros s. cbn. destruct s; reflexivity. Qed.

(** ** Cards *)
Lemma set_new : forall k v h, (forall v', ~ In (k, v') h) -> set_card k v h = (h ++ [(k, v)])%list.
Proof.
  intros k v. induction h as [|(k' & v') h IH]; intros N; [reflexivity|]. cbn [set_card app]. destruct (String.eqb_spec k k') as [->|NE]; [destruct (N v' (or_introl eq_refl))|]. rewrite IH; [reflexivity|]. intros w I. apply (N w). right. exact I.
Qed.
Lemma record_app : forall l i h, (forall j v, (i <= j)%nat -> ~ In (key j, v) h) ->
  record_from i l h = (h ++ map (fun p => (key (fst p), text (fst (snd p)) (Z.of_nat (fst (snd (snd p)))) (Z.of_nat (snd (snd (snd p)))))) (combine (seq i (List.length l)) l))%list.
Proof.
  induction l as [|(sn & (y & x)) l IH]; intros i h N; cbn [record_from List.length seq combine map]; [rewrite app_nil_r; reflexivity|]. rewrite set_new by (intros v'; apply N; lia). rewrite IH; [rewrite <- app_assoc; reflexivity|].
  intros j v L I. apply in_app_iff in I. destruct I as [I|[I|[]]]; [apply (N j v); [lia|exact I]|]. assert (KE : key i = key j) by congruence. apply key_inj in KE. lia.
Qed.
Lemma parse_cons : forall k v t, parse_companions ((k, v) :: t) = if String.prefix "SNYX" k then match split_on "," v with _ :: y :: x :: _ => do y' <- to_float y; do x' <- to_float x; do r <- parse_companions t; Ok ((k, y', x') :: r) | _ => parse_companions t end else parse_companions t.
Proof. reflexivity. Qed.
Lemma parse_app : forall a b r, parse_companions b = Ok r -> (forall k v, In (k, v) a -> String.prefix "SNYX" k = false) -> parse_companions (a ++ b)%list = Ok r.
Proof. induction a as [|(k & v) a IH]; intros b r E N; [exact E|]. change (((k, v) :: a) ++ b)%list with ((k, v) :: (a ++ b)%list). rewrite parse_cons, (N k v (or_introl eq_refl)). apply IH; [exact E|]. intros k' v' I. apply (N k' v'). right. exact I. Qed.
Lemma parse_written : forall l i, parse_companions (map (fun p => (key (fst p), text (fst (snd p)) (Z.of_nat (fst (snd (snd p)))) (Z.of_nat (snd (snd (snd p)))))) (combine (seq i (List.length l)) l))
  = Ok (map (fun p => (key (fst p), INR (fst (snd (snd p))), INR (snd (snd (snd p))))) (combine (seq i (List.length l)) l)).
Proof.
  induction l as [|(sn & (y & x)) l IH]; intros i; [reflexivity|]. cbn [List.length seq combine map fst snd]. rewrite parse_cons, key_prefix, text_fields, !int_read. cbn [bind]. rewrite IH. cbn [bind]. rewrite <- !INR_IZR_INZ. reflexivity.
Qed.
Theorem record_parsed : forall l h, (forall k v, In (k, v) h -> String.prefix "SNYX" k = false) ->
  parse_companions (record l h) = Ok (map (fun p => (key (fst p), INR (fst (snd (snd p))), INR (snd (snd (snd p))))) (combine (seq 0 (List.length l)) l)).
Proof.
  intros l h N. unfold record. rewrite record_app; [apply parse_app; [apply parse_written|exact N]|]. intros j v _ I. pose proof (N _ _ I) as P. rewrite key_prefix in P. discriminate P.
Qed.
Lemma get_set : forall k v h j, get_card j (set_card k v h) = if String.eqb j k then Some v else get_card j h.
Proof.
  intros k v. induction h as [|(k' & v') h IH]; intros j; cbn [set_card get_card]; [reflexivity|]. destruct (String.eqb_spec k k') as [->|NE]; cbn [get_card].
  - destruct (String.eqb_spec j k'); reflexivity.
  - destruct (String.eqb_spec j k') as [->|NJ]; [|apply IH]. destruct (String.eqb_spec k' k); [congruence|reflexivity].
Qed.
Lemma set_keys : forall k v h, get_card k h <> None -> map fst (set_card k v h) = map fst h.
Proof. intros k v. induction h as [|(k' & v') h IH]; intros G; [cbn in G; congruence|]. cbn [set_card get_card map fst] in *. destruct (String.eqb_spec k k') as [->|NE]; cbn [map fst]; [reflexivity|]. rewrite (IH G). reflexivity. Qed.
(** Any header: the cards of the sources, the other cards as they were. *)
Theorem record_get : forall l h k, get_card k (record l h) = match find (fun p => String.eqb k (key (fst p))) (combine (seq 0 (List.length l)) l) with Some (i, (sn, (y, x))) => Some (text sn (Z.of_nat y) (Z.of_nat x)) | None => get_card k h end.
Proof.
  intros l h k. unfold record. generalize 0%nat. revert h. induction l as [|(sn & (y & x)) l IH]; intros h i; [reflexivity|]. cbn [record_from List.length seq combine find fst]. rewrite IH. destruct (String.eqb_spec k (key i)) as [->|NE].
  - destruct (find _ _) as [(j & (sn' & (y' & x')))|] eqn:F.
    + apply find_some in F. destruct F as (I & E). cbn [fst] in E. apply String.eqb_eq, key_inj in E. apply in_combine_l, in_seq in I. lia.
    + rewrite get_set, String.eqb_refl. reflexivity.
  - destruct (find _ _) as [(j & (sn' & (y' & x')))|]; [reflexivity|]. rewrite get_set. destruct (String.eqb_spec k (key i)); [contradiction|reflexivity].
Qed.

(** ** Moving *)
Theorem update_iff : forall h k sn y x old new, get_card k h = Some (text sn y x) ->
  exists y' x', rounds (IZR y - snd old + snd new) y' /\ rounds (IZR x - fst old + fst new) x' /\ update_location h k old new = Ok (set_card k (text (shown sn) y' x') h).
Proof.
  intros h k sn y x old new G. exists (rint (IZR y - snd old + snd new)), (rint (IZR x - fst old + fst new)). split; [apply rint_rounds|]. split; [apply rint_rounds|]. unfold update_location. rewrite G, text_fields, sn_read, !int_read. reflexivity.
Qed.

(** ** As specified *)
Lemma key_names : forall i, names (key i) i. Proof. exact key_number. Qed.
Lemma comma_free : forall s, every (fun a => negb (Ascii.eqb a ",")) s = true -> no_comma s.
Proof. intros s E a b H. subst s. rewrite every_app in E. apply andb_true_iff in E. destruct E as (_ & E). cbn in E. discriminate E. Qed.
Lemma sn_plain : forall s, every (fun a => negb (Ascii.eqb a ",")) (fmt_51f s) = true.
Proof. intros s. unfold fmt_51f. apply pad_comma. destruct (tenth_text (tenths s)) as (P & _). cbv zeta. destruct (Rlt_dec s 0); [rewrite every_app, P; reflexivity|exact P]. Qed.
Lemma text_spec : forall s y x, fields (text s y x) (fmt_51f s) (fmt_4d y) (fmt_4d x).
Proof. intros s y x. split; [reflexivity|]. repeat split; apply comma_free; [apply sn_plain|apply pad_comma; apply int_plain|apply pad_comma; apply int_plain]. Qed.
Lemma not_named : forall k i, ~ names k i -> k <> key i. Proof. intros k i N ->. apply N. apply key_names. Qed.
Lemma combine_nth_seq : forall A (l : list A) s i, nth_error (combine (seq s (List.length l)) l) i = option_map (fun a => (s + i, a)%nat) (nth_error l i).
Proof. intros A. induction l as [|a l IH]; intros s i; cbn [List.length seq combine]; [destruct i; reflexivity|]. destruct i as [|i]; cbn [nth_error option_map]; [rewrite Nat.add_0_r; reflexivity|]. rewrite IH. replace (S s + i)%nat with (s + S i)%nat by lia. reflexivity. Qed.
Theorem cards : forall l h i sn y x, nth_error l i = Some (sn, (y, x)) -> exists k v a b c s, names k i /\ get_card k (record l h) = Some v /\ fields v a b c
  /\ to_float a = Ok s /\ (Rabs (s - sn) <= / 20)%R /\ to_float b = Ok (INR y) /\ to_float c = Ok (INR x).
Proof.
  intros l h i sn y x N. exists (key i), (text sn (Z.of_nat y) (Z.of_nat x)), (fmt_51f sn), (fmt_4d (Z.of_nat y)), (fmt_4d (Z.of_nat x)), (shown sn). split; [apply key_names|]. split; [|split; [apply text_spec|split; [apply sn_read|split; [apply shown_near|split; rewrite int_read, INR_IZR_INZ; reflexivity]]]].
  rewrite record_get. assert (E : nth_error (combine (seq 0 (List.length l)) l) i = Some (i, (sn, (y, x)))) by (rewrite combine_nth_seq, N; reflexivity).
  destruct (find _ _) as [(j & (sn' & (y' & x')))|] eqn:F.
  - apply find_some in F. destruct F as (I & K). cbn [fst] in K. apply String.eqb_eq, key_inj in K. subst j. apply In_nth_error in I. destruct I as (m & M). rewrite combine_nth_seq in M. destruct (nth_error l m) as [q|] eqn:Q; [|discriminate M]. cbn [option_map Nat.add] in M. injection M as -> ->. rewrite N in Q. injection Q as -> -> ->. reflexivity.
  - exfalso. pose proof (find_none _ _ F _ (nth_error_In _ _ E)) as H. cbn [fst] in H. rewrite String.eqb_refl in H. discriminate H.
Qed.
Theorem others : forall l h k, (forall i, (i < List.length l)%nat -> ~ names k i) -> get_card k (record l h) = get_card k h.
Proof.
  intros l h k N. rewrite record_get. destruct (List.find _ _) as [(j & (sn' & (y' & x')))|] eqn:F; [|reflexivity]. apply find_some in F. destruct F as (I & K). cbn [fst] in K. apply String.eqb_eq in K. apply in_combine_l, in_seq in I. destruct (not_named k j (N j ltac:(lia)) K).
Qed.
Theorem parsed : forall l h, (forall k v, In (k, v) h -> String.prefix "SNYX" k = false) -> exists out, parse_companions (record l h) = Ok out
  /\ Forall2 (fun s c => names (fst (fst c)) (fst s) /\ snd (fst c) = INR (fst (snd (snd s))) /\ snd c = INR (snd (snd (snd s)))) (combine (seq 0 (List.length l)) l) out.
Proof.
  intros l h N. eexists. split; [exact (record_parsed l h N)|]. generalize (combine (seq 0 (List.length l)) l). induction l0 as [|(i & (sn & (y & x))) l' IH]; [constructor|]. cbn [map]. constructor; [|exact IH]. cbn [fst snd]. split; [apply key_names|auto].
Qed.
Lemma get_in : forall k v h, get_card k h = Some v -> In (k, v) h.
Proof. intros k v. induction h as [|(k' & v') h IH]; intros G; [discriminate G|]. cbn [get_card] in G. destruct (String.eqb_spec k k') as [->|]; [injection G as ->; left; reflexivity|right; exact (IH G)]. Qed.
Lemma parse_in : forall h out k v a b c rest y x, parse_companions h = Ok out -> In (k, v) h -> String.prefix "SNYX" k = true -> split_on "," v = a :: b :: c :: rest -> to_float b = Ok y -> to_float c = Ok x -> In (k, y, x) out.
Proof.
  induction h as [|(k' & v') h IH]; intros out k v a b c rest y x P I PX SP TB TC; [destruct I|]. rewrite parse_cons in P. destruct I as [E|I].
  - injection E as -> ->. rewrite PX, SP, TB, TC in P. cbn [bind] in P. destruct (parse_companions h) as [r|] eqn:PH; cbn [bind] in P; [|discriminate P]. injection P as <-. left. reflexivity.
  - destruct (String.prefix "SNYX" k'); [|eapply IH; eassumption]. destruct (split_on "," v') as [|f0 [|f1 [|f2 fr]]]; try (eapply IH; eassumption). destruct (to_float f1); cbn [bind] in P; [|discriminate P]. destruct (to_float f2); cbn [bind] in P; [|discriminate P]. destruct (parse_companions h) as [r|] eqn:PH; cbn [bind] in P; [|discriminate P]. injection P as <-. right. eapply IH; try eassumption. reflexivity.
Qed.
Lemma names_prefix : forall k i, names k i -> String.prefix "SNYX" k = true.
Proof. intros k i (s & d & -> & _). cbn. destruct s; reflexivity. Qed.
Lemma of_names : forall k i j, names k i -> names k j -> i = j.
Proof. intros k i j (s & d & -> & D & V & _) (s' & d' & E & D' & V' & _). injection E as <-. congruence. Qed.
(** What an earlier search has left beyond the sources of this one is still read. *)
Theorem stale : forall l h k i sn y x out, names k i -> (List.length l <= i)%nat -> get_card k h = Some (text sn y x) -> parse_companions (record l h) = Ok out -> In (k, IZR y, IZR x) out.
Proof.
  intros l h k i sn y x out N L G P. assert (G' : get_card k (record l h) = Some (text sn y x)) by (rewrite others; [exact G|]; intros j J NJ; pose proof (of_names k i j N NJ); lia).
  eapply parse_in; [exact P|exact (get_in _ _ _ G')|exact (names_prefix k i N)|apply text_fields|apply int_read|apply int_read].
Qed.
Theorem update_spec : forall h k sn y x old new, get_card k h = Some (text sn y x) -> exists h' y' x', update_location h k old new = Ok h' /\ map fst h' = map fst h /\ (forall j, j <> k -> get_card j h' = get_card j h)
  /\ rounds (IZR y - snd old + snd new) y' /\ rounds (IZR x - fst old + fst new) x' /\ exists s, (Rabs (s - sn) <= / 20)%R /\ get_card k h' = Some (text s y' x') /\ ((0 <= sn)%R -> text s y' x' = text sn y' x').
Proof.
  intros h k sn y x old new G. destruct (update_iff h k sn y x old new G) as (y' & x' & RY & RX & U). exists (set_card k (text (shown sn) y' x') h), y', x'. split; [exact U|]. split; [apply set_keys; congruence|]. split; [intros j NJ; rewrite get_set; destruct (String.eqb_spec j k); [contradiction|reflexivity]|]. split; [exact RY|]. split; [exact RX|]. exists (shown sn). split; [apply shown_near|]. split; [rewrite get_set, String.eqb_refl; reflexivity|]. intros P. unfold text. rewrite (shown_again sn P). reflexivity.
Qed.
Theorem update_missing : forall h k old new, get_card k h = None -> update_location h k old new = Raise KeyError.
Proof. intros h k old new G. unfold update_location. rewrite G. reflexivity. Qed.
Theorem update_integers : forall h k sn y x (ox oy nx ny : Z), get_card k h = Some (text sn y x) -> (0 <= sn)%R -> update_location h k (IZR ox, IZR oy) (IZR nx, IZR ny) = Ok (set_card k (text sn (y - oy + ny) (x - ox + nx)) h).
Proof.
  intros h k sn y x ox oy nx ny G P. destruct (update_iff h k sn y x (IZR ox, IZR oy) (IZR nx, IZR ny) G) as (y' & x' & RY & RX & U). cbn [fst snd] in RY, RX.
  assert (E : forall a b c z, rounds (IZR a - IZR b + IZR c) z -> z = (a - b + c)%Z). { intros a b c z H. rewrite <- minus_IZR, <- plus_IZR in H. apply (rounds_fun _ _ _ H). split; [rewrite Rminus_diag_eq, Rabs_R0 by reflexivity; lra|]. rewrite Rminus_diag_eq, Rabs_R0 by reflexivity. lra. }
  apply E in RY, RX. subst y' x'. rewrite U. unfold text. rewrite (shown_again sn P). reflexivity.
Qed.
Lemma plain_no_comma : forall s, no_comma s -> every (fun a => negb (Ascii.eqb a ",")) s = true.
Proof.
  induction s as [|c s IH]; intros N; [reflexivity|]. cbn [every]. destruct (Ascii.eqb_spec c ",") as [->|NE]; [destruct (N "" s eq_refl)|]. cbn [negb andb]. apply IH. intros a b H. apply (N (String c a) b). rewrite H. reflexivity.
Qed.
Lemma fields_split : forall v a b c, fields v a b c -> split_on "," v = [a; b; c].
Proof.
  intros v a b c (-> & A & B & D). apply plain_no_comma in A, B, D.
  assert (S0 : forall s t, every (fun a => negb (Ascii.eqb a ",")) s = true -> split_on "," (s ++ "," ++ t) = s :: split_on "," t).
  { induction s as [|x s IH]; intros t E; [reflexivity|]. cbn [every] in E. apply andb_true_iff in E. destruct E as (E1 & E2). change (String x s ++ "," ++ t) with (String x (s ++ "," ++ t)). cbn [split_on]. rewrite (IH t E2). destruct (Ascii.eqb x ","); [discriminate E1|reflexivity]. }
  assert (S1 : forall s, every (fun a => negb (Ascii.eqb a ",")) s = true -> split_on "," s = [s]).
  { induction s as [|x s IH]; intros E; [reflexivity|]. cbn [every] in E. apply andb_true_iff in E. destruct E as (E1 & E2). cbn [split_on]. rewrite (IH E2). destruct (Ascii.eqb x ","); [discriminate E1|reflexivity]. }
  rewrite (S0 a (b ++ "," ++ c) A), (S0 b c B), (S1 c D). reflexivity.
Qed.
Theorem move_spec : forall h k v a b c sn y x old new, get_card k h = Some v -> fields v a b c -> to_float a = Ok sn -> to_float b = Ok y -> to_float c = Ok x ->
  exists h' y' x' v' a' b' c' s, update_location h k old new = Ok h' /\ map fst h' = map fst h /\ (forall j, j <> k -> get_card j h' = get_card j h) /\ get_card k h' = Some v' /\ fields v' a' b' c'
   /\ to_float a' = Ok s /\ (Rabs (s - sn) <= / 20)%R /\ to_float b' = Ok (IZR y') /\ to_float c' = Ok (IZR x') /\ rounds (y - snd old + snd new) y' /\ rounds (x - fst old + fst new) x'.
Proof.
  intros h k v a b c sn y x old new G F A B D. set (y' := rint (y - snd old + snd new)). set (x' := rint (x - fst old + fst new)). exists (set_card k (text sn y' x') h), y', x', (text sn y' x'), (fmt_51f sn), (fmt_4d y'), (fmt_4d x'), (shown sn).
  split; [unfold update_location; rewrite G, (fields_split v a b c F), A, B, D; reflexivity|]. split; [apply set_keys; congruence|]. split; [intros j NJ; rewrite get_set; destruct (String.eqb_spec j k); [contradiction|reflexivity]|]. split; [rewrite get_set, String.eqb_refl; reflexivity|]. split; [apply text_spec|]. split; [apply sn_read|]. split; [apply shown_near|]. split; [apply int_read|]. split; [apply int_read|]. split; apply rint_rounds.
Qed.
Theorem move_raises : forall h k old new e, update_location h k old new = Raise e -> (e = KeyError /\ get_card k h = None) \/ (e = ValueError /\ get_card k h <> None).
Proof.
  assert (U : forall s e, unsigned s = Raise e -> e = ValueError). { intros s e. unfold unsigned. repeat (destruct (split_on _ _) as [|? ?] || match goal with |- context [match ?x with _ => _ end] => destruct x end); congruence. }
  assert (T : forall s e, to_float s = Raise e -> e = ValueError). { intros s e. unfold to_float. destruct (rstrip (lstrip s)) as [|a t]; [apply U|]. assert (M : forall t, (do x <- unsigned t; Ok (- x)%R) = Raise e -> e = ValueError) by (intros t0 H; destruct (unsigned t0) eqn:E; cbn [bind] in H; [discriminate H|injection H as <-; exact (U _ _ E)]). destruct a as [[|] [|] [|] [|] [|] [|] [|] [|]]; first [apply U|apply M]. }
  intros h k old new e. unfold update_location. destruct (get_card k h) as [v|]; [|intros H; injection H as <-; auto]. intros H. right. split; [|discriminate]. destruct (split_on "," v) as [|s0 [|s1 [|s2 r]]]; try congruence.
  destruct (to_float s0) eqn:E0; cbn [bind] in H; [|injection H as <-; exact (T _ _ E0)]. destruct (to_float s1) eqn:E1; cbn [bind] in H; [|injection H as <-; exact (T _ _ E1)]. destruct (to_float s2) eqn:E2; cbn [bind] in H; [discriminate H|injection H as <-; exact (T _ _ E2)].
Qed.
Lemma short_raises : forall h k v a b old new, get_card k h = Some v -> no_comma a -> no_comma b -> v = a \/ v = a ++ "," ++ b -> update_location h k old new = Raise ValueError.
Proof.
  intros h k v a b old new G A B H. unfold update_location. rewrite G. apply plain_no_comma in A, B.
  assert (S1 : forall s, every (fun a => negb (Ascii.eqb a ",")) s = true -> split_on "," s = [s]).
  { induction s as [|x s IH]; intros E; [reflexivity|]. cbn [every] in E. apply andb_true_iff in E. destruct E as (E1 & E2). cbn [split_on]. rewrite (IH E2). destruct (Ascii.eqb x ","); [discriminate E1|reflexivity]. }
  assert (S0 : forall s t, every (fun a => negb (Ascii.eqb a ",")) s = true -> split_on "," (s ++ "," ++ t) = s :: split_on "," t).
  { induction s as [|x s IH]; intros t E; [reflexivity|]. cbn [every] in E. apply andb_true_iff in E. destruct E as (E1 & E2). change (String x s ++ "," ++ t) with (String x (s ++ "," ++ t)). cbn [split_on]. rewrite (IH t E2). destruct (Ascii.eqb x ","); [discriminate E1|reflexivity]. }
  destruct H as [-> | ->]; [rewrite (S1 a A)|rewrite (S0 a b A), (S1 b B)]; reflexivity.
Qed.
Lemma found_header : forall cc stat scale img h psf fwhm thr wop fuel img' h', find_source cc stat scale img h psf fwhm thr wop fuel = Some (Ok (img', h')) <-> img' = img /\ exists l, find_sources cc stat scale img psf fwhm thr wop fuel = Done l /\ h' = record l h.
Proof.
  intros. unfold find_source. destruct (find_sources _ _ _ _ _ _ _ _ _) as [l|e|]; (split; [intros H; try discriminate H|intros (-> & l' & H & ->); try discriminate H]).
  - injection H as <- <-. split; [reflexivity|]. exists l. auto.
  - injection H as <-. reflexivity.
Qed.
