From Coq Require Import List Arith NArith Bool String Lia.
From Verif Require Import Base BitsModel.
Import ListNotations.
Local Open Scope nat_scope.
Local Open Scope list_scope.

Lemma digits_length B m n : List.length (digits B m n) = m.
Proof. revert n. induction m as [|m IH]; intro n; [reflexivity|]. cbn [digits]. rewrite app_length, IH. cbn. lia. Qed.

Lemma undigits_snoc B l d : undigits B (l ++ [d]) = (B * undigits B l + d)%N.
Proof. unfold undigits. rewrite fold_left_app. reflexivity. Qed.

Lemma undigits_digits B m : (0 < B)%N -> forall n, (n < B ^ N.of_nat m)%N -> undigits B (digits B m n) = n.
Proof.
  intro HB. induction m as [|m IH]; intros n Hn.
  - cbn in *. lia.
  - cbn [digits]. rewrite undigits_snoc, IH.
    + symmetry. apply N.div_mod. lia.
    + apply N.div_lt_upper_bound; [lia|]. rewrite Nnat.Nat2N.inj_succ, N.pow_succ_r' in Hn. exact Hn.
Qed.

Lemma undigits_bound B l : (forall d, In d l -> (d < B)%N) -> (undigits B l < B ^ N.of_nat (List.length l))%N.
Proof.
  induction l as [|d l IH] using rev_ind; intro H; [cbn; lia|].
  rewrite undigits_snoc, app_length, Nat.add_1_r, Nnat.Nat2N.inj_succ, N.pow_succ_r'.
  assert (U : (undigits B l < B ^ N.of_nat (List.length l))%N) by (apply IH; intros x Hx; apply H; apply in_app_iff; auto).
  assert (D : (d < B)%N) by (apply H; apply in_app_iff; right; left; reflexivity). nia.
Qed.

Lemma digits_undigits B l : (0 < B)%N -> (forall d, In d l -> (d < B)%N) -> digits B (List.length l) (undigits B l) = l.
Proof.
  intro HB. induction l as [|d l IH] using rev_ind; intro H; [reflexivity|].
  rewrite undigits_snoc, app_length, Nat.add_1_r. cbn [digits].
  assert (D : (d < B)%N) by (apply H; apply in_app_iff; right; left; reflexivity).
  rewrite (N.mul_comm B), N.div_add_l, (N.div_small d B D), N.add_0_r by lia. rewrite (N.add_comm _ d), N.mod_add, (N.mod_small d B D) by lia.
  rewrite IH; [reflexivity|]. intros x Hx. apply H. apply in_app_iff. auto.
Qed.

Lemma digits_lt B m : (0 < B)%N -> forall n d, In d (digits B m n) -> (d < B)%N.
Proof.
  intro HB. induction m as [|m IH]; intros n d H; [destruct H|]. cbn [digits] in H. apply in_app_iff in H.
  destruct H as [H|[<-|[]]]; [exact (IH _ _ H)|apply N.mod_lt; lia].
Qed.

Lemma digits_nth B m : (0 < B)%N -> forall n k, k < m -> nth_error (digits B m n) (m - 1 - k) = Some ((n / B ^ N.of_nat k) mod B)%N.
Proof.
  intro HB. induction m as [|m IH]; intros n k Hk; [lia|]. cbn [digits]. destruct k as [|k].
  - rewrite nth_error_app2 by (rewrite digits_length; lia). rewrite digits_length. replace (S m - 1 - 0 - m) with 0 by lia.
    cbn [nth_error N.of_nat]. rewrite N.pow_0_r, N.div_1_r. reflexivity.
  - rewrite nth_error_app1 by (rewrite digits_length; lia). replace (S m - 1 - S k) with (m - 1 - k) by lia.
    rewrite IH by lia. rewrite Nnat.Nat2N.inj_succ, N.pow_succ_r', N.div_div by (try apply N.pow_nonzero; lia). reflexivity.
Qed.

Lemma flat_map_nth {A B} (f : A -> list B) w : (forall a, List.length (f a) = w) ->
  forall l i j x, nth_error l i = Some x -> j < w -> nth_error (flat_map f l) (w * i + j) = nth_error (f x) j.
Proof.
  intro W. induction l as [|a t IH]; intros i j x Hi Hj; [destruct i; discriminate|]. cbn [flat_map]. destruct i as [|i]; cbn [nth_error] in Hi.
  - injection Hi as <-. rewrite nth_error_app1 by (rewrite W; lia). f_equal. lia.
  - rewrite nth_error_app2 by (rewrite W; lia). rewrite W. replace (w * S i + j - w) with (w * i + j) by lia. apply IH; assumption.
Qed.
Lemma flat_map_len {A B} (f : A -> list B) w : (forall a, List.length (f a) = w) -> forall l, List.length (flat_map f l) = w * List.length l.
Proof. intro W. induction l as [|a t IH]; cbn [flat_map List.length]; [lia|]. rewrite app_length, W, IH. lia. Qed.

Lemma unpack_nth arr i n k : nth_error arr i = Some n -> k < 64 ->
  nth_error (unpackbits arr) (64 * i + (63 - k)) = Some (if N.testbit n (N.of_nat k) then 1%N else 0%N).
Proof.
  intros Hi Hk. unfold unpackbits, np_unpackbits, view_u1.
  assert (DM : k = 8 * (k / 8) + k mod 8) by (apply Nat.div_mod; lia). assert (M8 : k mod 8 < 8) by (apply Nat.mod_upper_bound; lia).
  set (a := k / 8) in *. set (b := k mod 8) in *. assert (A8 : a < 8) by lia.
  assert (HB : nth_error (flat_map (digits 256 8) arr) (8 * i + (8 - 1 - a)) = Some ((n / 256 ^ N.of_nat a) mod 256)%N).
  { rewrite (flat_map_nth (digits 256 8) 8 (digits_length 256 8) arr i (8 - 1 - a) n Hi) by lia. apply digits_nth; lia. }
  replace (64 * i + (63 - k)) with (8 * (8 * i + (8 - 1 - a)) + (8 - 1 - b)) by lia.
  rewrite (flat_map_nth (digits 2 8) 8 (digits_length 2 8) _ _ (8 - 1 - b) _ HB) by lia.
  rewrite digits_nth by lia. f_equal.
  change 256%N with (2 ^ 8)%N at 1 2. rewrite <- N.pow_mul_r.
  set (y := ((n / 2 ^ (8 * N.of_nat a)) mod 2 ^ 8)%N).
  assert (E : N.testbit n (N.of_nat k) = N.testbit y (N.of_nat b)).
  { unfold y. rewrite N.mod_pow2_bits_low by lia. rewrite N.div_pow2_bits. f_equal. lia. }
  rewrite E. rewrite N.testbit_eqb. assert (M : ((y / 2 ^ N.of_nat b) mod 2 < 2)%N) by (apply N.mod_lt; lia).
  set (z := ((y / 2 ^ N.of_nat b) mod 2)%N) in *. clearbody z. destruct (N.eqb_spec z 1); lia.
Qed.

Lemma unpack_length arr : List.length (unpackbits arr) = 64 * List.length arr.
Proof.
  unfold unpackbits, np_unpackbits, view_u1. rewrite (flat_map_len _ 8 (digits_length 2 8)), (flat_map_len _ 8 (digits_length 256 8)). lia.
Qed.

(** Reading 8 digits at a time. *)
Lemma eight {A} (l : list A) t : List.length l = 8 -> exists a b c d e f g h, l = [a; b; c; d; e; f; g; h] /\ l ++ t = a :: b :: c :: d :: e :: f :: g :: h :: t.
Proof.
  intro L. destruct l as [|a [|b [|c [|d [|e [|f [|g [|h [|x l]]]]]]]]]; cbn in L; try lia.
  exists a, b, c, d, e, f, g, h. split; reflexivity.
Qed.

Lemma bit01_id x : (x < 2)%N -> bit01 x = x.
Proof. intro H. unfold bit01. destruct (N.eqb_spec x 0); lia. Qed.
Lemma bit01_lt x : (bit01 x < 2)%N.
Proof. unfold bit01. destruct (N.eqb x 0); lia. Qed.

Lemma packbits_cons l t : List.length l = 8 -> np_packbits (l ++ t) = undigits 2 (map bit01 l) :: np_packbits t.
Proof. intro L. destruct (eight l t L) as (a & b & c & d & e & f & g & h & -> & E). rewrite E. reflexivity. Qed.
Lemma view_u8_cons l t : List.length l = 8 -> view_u8 (l ++ t) = do r <- view_u8 t; Ok (undigits 256 l :: r).
Proof. intro L. destruct (eight l t L) as (a & b & c & d & e & f & g & h & -> & E). rewrite E. reflexivity. Qed.

Lemma np_pack_unpack bytes : (forall y, In y bytes -> (y < 256)%N) -> np_packbits (np_unpackbits bytes) = bytes.
Proof.
  unfold np_unpackbits. induction bytes as [|y t IH]; intro H; [reflexivity|]. cbn [flat_map].
  rewrite packbits_cons by apply digits_length. f_equal; [|apply IH; intros z Hz; apply H; right; exact Hz].
  assert (E : map bit01 (digits 2 8 y) = digits 2 8 y).
  { rewrite <- (map_id (digits 2 8 y)) at 2. apply map_ext_in. intros d Hd. apply bit01_id. apply (digits_lt 2 8 ltac:(lia) y). exact Hd. }
  rewrite E. apply undigits_digits; [lia|]. change (2 ^ N.of_nat 8)%N with 256%N. apply H. left. reflexivity.
Qed.

Lemma pack_unpack arr : (forall n, In n arr -> (n < 2 ^ 64)%N) -> packbits (unpackbits arr) = Ok arr.
Proof.
  intro H. unfold packbits, unpackbits. rewrite np_pack_unpack.
  - unfold view_u1. induction arr as [|n t IH]; [reflexivity|]. cbn [flat_map]. rewrite view_u8_cons by apply digits_length.
    rewrite IH by (intros z Hz; apply H; right; exact Hz). cbn [bind]. rewrite undigits_digits; [reflexivity|lia|].
    change (256 ^ N.of_nat 8)%N with (2 ^ 64)%N. apply H. left. reflexivity.
  - intros y Hy. unfold view_u1 in Hy. apply in_flat_map in Hy. destruct Hy as (n & _ & Hy). apply (digits_lt 256 8 ltac:(lia) n). exact Hy.
Qed.

Lemma take8 {A} (l : list A) : 8 <= List.length l -> exists u t, l = u ++ t /\ List.length u = 8 /\ List.length t = List.length l - 8.
Proof. intro H. exists (firstn 8 l), (skipn 8 l). rewrite firstn_skipn, firstn_length, skipn_length. repeat split. lia. Qed.

Lemma np_unpack_pack : forall m bits, List.length bits = 8 * m ->
  np_unpackbits (np_packbits bits) = map bit01 bits /\ List.length (np_packbits bits) = m /\ (forall y, In y (np_packbits bits) -> (y < 256)%N).
Proof.
  induction m as [|m IH]; intros bits L.
  - destruct bits; [|cbn in L; lia]. repeat split; intros y [].
  - destruct (take8 bits) as (u & t & -> & Lu & Lt); [lia|]. rewrite packbits_cons by exact Lu.
    rewrite app_length in *. destruct (IH t) as (E & Lm & F); [lia|]. 
    assert (B01 : forall d, In d (map bit01 u) -> (d < 2)%N) by (intros d Hd; apply in_map_iff in Hd; destruct Hd as (x & <- & _); apply bit01_lt).
    split; [|split].
    + unfold np_unpackbits in *. cbn [flat_map]. rewrite E, map_app. f_equal.
      assert (L8 : List.length (map bit01 u) = 8) by (rewrite map_length; exact Lu). rewrite <- L8 at 1. apply digits_undigits; [lia|exact B01].
    + cbn. lia.
    + intros y [<-|Hy]; [|exact (F y Hy)]. pose proof (undigits_bound 2 (map bit01 u) B01) as U. rewrite map_length, Lu in U. exact U.
Qed.

Lemma view_unview : forall m bytes, List.length bytes = 8 * m -> (forall y, In y bytes -> (y < 256)%N) ->
  exists arr, view_u8 bytes = Ok arr /\ List.length arr = m /\ view_u1 arr = bytes /\ forall n, In n arr -> (n < 2 ^ 64)%N.
Proof.
  induction m as [|m IH]; intros bytes L H.
  - destruct bytes; [|cbn in L; lia]. exists []. repeat split. intros n [].
  - destruct (take8 bytes) as (u & t & -> & Lu & Lt); [lia|]. rewrite view_u8_cons by exact Lu. rewrite app_length in *.
    destruct (IH t) as (arr & E & La & V & F); [lia|intros y Hy; apply H; apply in_app_iff; auto|]. rewrite E. cbn [bind].
    exists (undigits 256 u :: arr). split; [reflexivity|]. split; [cbn; lia|].
    assert (HU : forall d, In d u -> (d < 256)%N) by (intros d Hd; apply H; apply in_app_iff; auto). split.
    + unfold view_u1 in *. cbn [flat_map]. rewrite V. f_equal. rewrite <- Lu at 1. apply digits_undigits; [lia|exact HU].
    + intros n [<-|Hn]; [|exact (F n Hn)]. pose proof (undigits_bound 256 u HU) as U. rewrite Lu in U. exact U.
Qed.

Lemma unpack_pack m bits : List.length bits = 64 * m ->
  exists arr, packbits bits = Ok arr /\ List.length arr = m /\ (forall n, In n arr -> (n < 2 ^ 64)%N) /\ unpackbits arr = map bit01 bits.
Proof.
  intro L. destruct (np_unpack_pack (8 * m) bits) as (E & Lb & F); [lia|].
  destruct (view_unview m (np_packbits bits) Lb F) as (arr & Ea & La & V & G). exists arr. split; [exact Ea|]. split; [exact La|]. split; [exact G|].
  unfold unpackbits. rewrite V. exact E.
Qed.

(** A bit count that is not a multiple of 64 after padding to bytes fails. *)
Lemma view_u8_fail : forall n bytes, List.length bytes <= n -> (view_u8 bytes = Raise ValueError <-> List.length bytes mod 8 <> 0).
Proof.
  induction n as [|n IH]; intros bytes L.
  - destruct bytes; [|cbn in L; lia]. cbn. split; [discriminate|lia].
  - destruct (Nat.le_gt_cases 8 (List.length bytes)) as [G|G].
    + destruct (take8 bytes G) as (u & t & -> & Lu & Lt). rewrite view_u8_cons by exact Lu. rewrite app_length in *.
      specialize (IH t). destruct IH as [I1 I2]; [lia|]. replace (List.length u + List.length t) with (List.length t + 1 * 8) by lia. rewrite Nat.mod_add by lia.
      destruct (view_u8 t) as [r|e]; cbn [bind].
      * split; [discriminate|]. intro Q. apply I2 in Q. discriminate.
      * split; [intro Q; injection Q as ->; apply I1; reflexivity|]. intro Q. apply I2 in Q. exact Q.
    + rewrite Nat.mod_small by lia. destruct bytes as [|a [|b [|c [|d [|e [|f [|g [|h t]]]]]]]]; cbn in *; try (split; [reflexivity|lia]); try (split; [lia|reflexivity]); try lia.
      split; [discriminate|lia].
Qed.
Lemma np_packbits_length : forall n bits, List.length bits <= n -> List.length (np_packbits bits) = (List.length bits + 7) / 8.
Proof.
  induction n as [|n IH]; intros bits L.
  - destruct bits; [|cbn in L; lia]. reflexivity.
  - destruct (Nat.le_gt_cases 8 (List.length bits)) as [G|G].
    + destruct (take8 bits G) as (u & t & -> & Lu & Lt). rewrite packbits_cons by exact Lu. rewrite app_length in *. cbn [List.length]. rewrite IH by lia.
      replace (List.length u + List.length t + 7) with (List.length t + 7 + 1 * 8) by lia. rewrite Nat.div_add by lia. lia.
    + destruct bits as [|a [|b [|c [|d [|e [|f [|g [|h t]]]]]]]]; try reflexivity. cbn in G. lia.
Qed.
Lemma pack_fail bits : packbits bits = Raise ValueError <-> ((List.length bits + 7) / 8) mod 8 <> 0.
Proof. unfold packbits. rewrite (view_u8_fail _ _ (Nat.le_refl _)), (np_packbits_length _ _ (Nat.le_refl _)). reflexivity. Qed.

(** ** Flag maps *)
Lemma dget_in {K V} (eqb : K -> K -> bool) : (forall a b, eqb a b = true <-> a = b) ->
  forall (d : list (K * V)) k v, NoDup (map fst d) -> (dget eqb k d = Some v <-> In (k, v) d).
Proof.
  intro E. induction d as [|[k' v'] t IH]; intros k v N; cbn [dget map fst] in *; [split; [discriminate|intros []]|].
  inversion N as [|a b N1 N2]; subst. destruct (eqb k k') eqn:Q.
  - apply E in Q. subst k'. split; [intro H; left; congruence|]. intros [H|H]; [congruence|]. exfalso. apply N1. apply in_map_iff. exists (k, v). auto.
  - rewrite (IH k v N2). split; [intro H; right; exact H|]. intros [H|H]; [|exact H]. injection H as -> ->. rewrite (proj2 (E k k) eq_refl) in Q. discriminate.
Qed.

Lemma bit_flag name bit : dget String.eqb name flag_to_bit = Some bit <-> dget N.eqb bit bit_to_flag = Some name.
Proof.
  rewrite (dget_in String.eqb String.eqb_eq flag_to_bit), (dget_in N.eqb N.eqb_eq bit_to_flag).
  - change bit_to_flag with (map (fun kv => (snd kv, fst kv)) flag_to_bit). rewrite in_map_iff. split.
    + intro H. exists (name, bit). auto.
    + intros ([a b] & H & I). cbn in H. injection H as -> ->. exact I.
  - change (NoDup [0; 1; 2; 3; 4; 5; 6; 7; 8]%N). repeat constructor; cbn; intuition discriminate.
  - cbn. repeat constructor; cbn; intuition discriminate.
Qed.
Lemma value_flag name v : dget String.eqb name flag_to_value = Some v <-> dget N.eqb v value_to_flag = Some name.
Proof.
  rewrite (dget_in String.eqb String.eqb_eq flag_to_value), (dget_in N.eqb N.eqb_eq value_to_flag).
  - change value_to_flag with (map (fun kv => (snd kv, fst kv)) flag_to_value). rewrite in_map_iff. split.
    + intro H. exists (name, v). auto.
    + intros ([a b] & H & I). cbn in H. injection H as -> ->. exact I.
  - change (NoDup [1; 2; 4; 8; 16; 32; 64; 128; 256]%N). repeat constructor; cbn; intuition discriminate.
  - cbn. repeat constructor; cbn; intuition discriminate.
Qed.
Lemma flag_value name v : dget String.eqb name flag_to_value = Some v <-> exists b, dget String.eqb name flag_to_bit = Some b /\ v = (2 ^ b)%N.
Proof.
  assert (ND : NoDup (map fst flag_to_bit)) by (cbn; repeat constructor; cbn; intuition discriminate).
  assert (ND' : NoDup (map fst flag_to_value)) by (cbn; repeat constructor; cbn; intuition discriminate).
  rewrite (dget_in String.eqb String.eqb_eq flag_to_value _ _ ND'). setoid_rewrite (dget_in String.eqb String.eqb_eq flag_to_bit _ _ ND).
  change flag_to_value with (map (fun kv => (fst kv, N.shiftl 1 (snd kv))) flag_to_bit). rewrite in_map_iff. split.
  - intros ([a b] & H & I). pose proof (f_equal fst H) as E1. pose proof (f_equal snd H) as E2. cbn [fst snd] in E1, E2. rewrite N.shiftl_1_l in E2. subst a v. exists b. split; [exact I|reflexivity].
  - intros (b & I & ->). exists (name, b). cbn [fst snd]. rewrite N.shiftl_1_l. auto.
Qed.
Lemma bits_onto : forall bit, (bit <= 8)%N <-> exists name, dget N.eqb bit bit_to_flag = Some name.
Proof.
  intro bit. split.
  - intro H. assert (C : In bit [0; 1; 2; 3; 4; 5; 6; 7; 8]%N) by (cbn; lia). cbn [In] in C.
    repeat match type of C with _ \/ _ => destruct C as [<-|C] end; try (eexists; reflexivity). destruct C.
  - intros [name H]. apply (dget_in N.eqb N.eqb_eq) in H; [|change (NoDup [0; 1; 2; 3; 4; 5; 6; 7; 8]%N); repeat constructor; cbn; intuition discriminate].
    cbn in H. repeat match type of H with _ \/ _ => destruct H as [H|H] end; try (injection H as <- _; lia). destruct H.
Qed.

(** An incomplete last byte is filled with zeros on the right. *)
Lemma np_pack_pads : forall n bits k, List.length bits < n -> k < 8 -> (List.length bits + k) mod 8 = 0 ->
  np_packbits (bits ++ repeat 0%N k) = np_packbits bits.
Proof.
  induction n as [|n IH]; intros bits k L K M; [lia|].
  destruct bits as [|a [|b [|c [|d [|e [|f [|g [|h t]]]]]]]].
  - cbn [List.length plus] in M. rewrite Nat.mod_small in M by lia. subst k. reflexivity.
  - replace k with 7 by (cbn [List.length plus] in M; do 8 (destruct k; [try discriminate; try reflexivity|]); lia). reflexivity.
  - replace k with 6 by (cbn [List.length plus] in M; do 8 (destruct k; [try discriminate; try reflexivity|]); lia). reflexivity.
  - replace k with 5 by (cbn [List.length plus] in M; do 8 (destruct k; [try discriminate; try reflexivity|]); lia). reflexivity.
  - replace k with 4 by (cbn [List.length plus] in M; do 8 (destruct k; [try discriminate; try reflexivity|]); lia). reflexivity.
  - replace k with 3 by (cbn [List.length plus] in M; do 8 (destruct k; [try discriminate; try reflexivity|]); lia). reflexivity.
  - replace k with 2 by (cbn [List.length plus] in M; do 8 (destruct k; [try discriminate; try reflexivity|]); lia). reflexivity.
  - replace k with 1 by (cbn [List.length plus] in M; do 8 (destruct k; [try discriminate; try reflexivity|]); lia). reflexivity.
  - cbn [app np_packbits]. f_equal. apply IH; [cbn [List.length] in L; lia|exact K|].
    cbn [List.length] in M. replace (S (S (S (S (S (S (S (S (List.length t)))))))) + k) with (List.length t + k + 1 * 8) in M by lia.
    rewrite Nat.mod_add in M by lia. exact M.
Qed.
Lemma pack_pads : forall bits k, k < 8 -> (List.length bits + k) mod 8 = 0 -> packbits (bits ++ repeat 0%N k) = packbits bits.
Proof. intros bits k K M. unfold packbits. rewrite (np_pack_pads (S (List.length bits))); auto. Qed.
