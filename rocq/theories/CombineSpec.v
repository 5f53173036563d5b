(** Specification of parent records and frame combination. *)
From Coq Require Import List Arith Bool String Ascii NArith ZArith Reals Sorted Permutation.
From Verif Require Import Base DatasetModel CombineModel.
Import ListNotations.
Local Open Scope list_scope.

(** [set] iteration: every element once, in some order. *)
Definition lists_set (order : list string -> list string) : Prop :=
  forall l, NoDup (order l) /\ forall s, In s (order l) <-> In s l.

(** Name [s] is among the FILE0 .. FILE(DRPNFILE-1) of the header. *)
Definition recorded (m : himg) (s : string) : Prop :=
  exists n j, p_nfile m = Some n /\ (j < n)%nat /\ p_file m j = Some s.

(** The announced FILE cards are all there. *)
Definition complete (m : himg) : Prop :=
  forall n j, p_nfile m = Some n -> (j < n)%nat -> p_file m j <> None.

(** They are pairwise different. *)
Definition no_repeat (m : himg) : Prop :=
  forall n j k, p_nfile m = Some n -> (j < n)%nat -> (k < n)%nat -> p_file m j = p_file m k -> j = k.

(** Products made of products made of ... raw frames. *)
Inductive tree : Type :=
| Raw (m : himg)
| Product (self : himg) (children : list tree).

(** Making every product of a tree, bottom up. *)
Fixpoint make (order : list string -> list string) (t : tree) : result himg :=
  match t with
  | Raw m => Ok m
  | Product self ts =>
    do ms <- (fix go l := match l with
                          | [] => Ok []
                          | x :: r => do a <- make order x; do b <- go r; Ok (a :: b)
                          end) ts;
    record_parents order self ms
  end.

(** The name of the image at the root of a tree. *)
Definition root_name (t : tree) : string := match t with Raw m => p_name m | Product m _ => p_name m end.

(** [s] is the name of an image strictly below the root, or was recorded in a
    raw frame (an ancestor of something read from disk). *)
Inductive below : tree -> string -> Prop :=
| below_child self ts t : In t ts -> below (Product self ts) (root_name t)
| below_deeper self ts t s : In t ts -> below t s -> below (Product self ts) s
| below_raw m s : recorded m s -> below (Raw m) s.

Fixpoint raw_complete (t : tree) : Prop :=
  match t with
  | Raw m => complete m
  | Product _ ts => (fix go l := match l with [] => True | x :: r => raw_complete x /\ go r end) ts
  end.

Local Open Scope R_scope.

(** The good frames of a pixel. *)
Definition good_idx (n : nat) (dq : nat -> nat -> N) (p : nat) : list nat :=
  filter (fun i => N.eqb (dq i p) 0) (seq 0 n).

(** [m] is the median of [l]. *)
Definition is_median (l : list R) (m : R) : Prop :=
  exists s, StronglySorted Rle s /\ Permutation s l /\
    ((exists k a b, List.length l = (2 * k + 2)%nat /\ nth_error s k = Some a /\ nth_error s (S k) = Some b /\ m = (a + b) / 2)
     \/ (exists k, List.length l = (2 * k + 1)%nat /\ nth_error s k = Some m)).

(** [m] is the arithmetic mean of [l]. *)
Definition is_mean (l : list R) (m : R) : Prop := l <> [] /\ m * INR (List.length l) = fold_right Rplus 0 l.

Definition collapsed (md : mode) (l : list R) (m : R) : Prop :=
  match md with Mean => is_mean l m | Median => is_median l m end.

Definition median_factor (md : mode) : R := match md with Mean => 1 | Median => PI / 2 end.
Definition scale_factor (scaling : bool) (n : nat) : R := if scaling then INR n else 1.

(** The consecutive group number [k] of size [g]. *)
Definition group {A} (g k : nat) (l : list A) : list A := firstn g (skipn (g * k) l).

(** The finite values of the good samples of a pixel. *)
Definition finite (l : list val) : list R := flat_map (fun v => match v with Some x => [x] | None => [] end) l.
Definition good_data (n : nat) (data : nat -> nat -> val) (dq : nat -> nat -> N) (p : nat) : list R :=
  finite (map (fun i => data i p) (good_idx n dq p)).
Definition good_err (n : nat) (err : nat -> nat -> nat -> val) (dq : nat -> nat -> N) (l p : nat) : list R :=
  finite (map (fun i => err i l p) (good_idx n dq p)).

(** What one combined frame is. *)
Definition combined_from (order : list string -> list string) (md : mode) (sc : bool) (g : nat) (grp : list cframe) (c : cframe) : Prop :=
  exists first lst, nth_error grp 0 = Some first /\ nth_error grp (g - 1) = Some lst /\
  (forall data err dq, (forall i fr, nth_error grp i = Some fr -> data i = c_data fr /\ err i = c_err fr /\ dq i = c_dq fr) ->
     (forall p, c_data c p = data_collapse g data dq md sc p)
     /\ (forall l p, c_err c l p = err_collapse g err dq md sc l p)
     /\ (forall p, c_dq c p = dq_collapse g data dq md sc p))
  /\ p_name (c_hdr c) = p_name (c_hdr lst)
  /\ p_numfr (c_hdr c) = Some (Z.of_nat g)
  /\ p_pri (c_hdr c) = p_pri (c_hdr first) /\ p_errh (c_hdr c) = p_errh (c_hdr first) /\ p_dqh (c_hdr c) = p_dqh (c_hdr first)
  /\ (forall key, key <> "HISTORY"%string -> hget key (p_ext (c_hdr c)) = hget key (p_ext (c_hdr first)))
  /\ no_repeat (c_hdr c)
  /\ (forall s, recorded (c_hdr c) s <-> exists fr, In fr grp /\ (s = p_name (c_hdr fr) \/ recorded (c_hdr fr) s)).


(** [s] is [t] up to upper case letters. *)
Inductive spells : string -> string -> Prop :=
| spells_nil : spells EmptyString EmptyString
| spells_same c s t : spells s t -> spells (String c s) (String c t)
| spells_upper c d s t : (65 <= nat_of_ascii c <= 90)%nat -> nat_of_ascii d = (nat_of_ascii c + 32)%nat ->
    spells s t -> spells (String c s) (String d t).

Fixpoint no_upper (t : string) : Prop :=
  match t with EmptyString => True | String c t => ~ (65 <= nat_of_ascii c <= 90)%nat /\ no_upper t end.
