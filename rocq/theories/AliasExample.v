(** Two frames of two pixels, and calls on them. *)
From Coq Require Import List Arith Bool String.
From Verif Require Import Base DatasetModel DatasetSpec AliasModel AliasSpec.
Import ListNotations.
Local Open Scope string_scope.
Local Open Scope list_scope.

Definition x_cards : header := [("DATALVL", "L1"); ("EXPTIME", "10"); ("EMGAIN_C", "100"); ("KGAINPAR", "8"); ("NAXIS1", "2"); ("NAXIS2", "1")].
Definition x_other : header := [("DATALVL", "L1"); ("EXPTIME", "20"); ("EMGAIN_C", "100"); ("KGAINPAR", "8"); ("NAXIS1", "2"); ("NAXIS2", "1")].
Definition x_heap (second : header) : heap nat :=
  mkheap nat (fun b => match b with 0 => [[[1; 2]]; [[3; 4]]] | 1 => [[[5; 6]]; [[7; 8]]] | 2 => [[[0; 0]]; [[0; 1]]] | _ => [] end) 3
         (fun a => match a with 1 => x_cards | 5 => second | _ => [] end) 8
         (fun k => match k with 0 => mkimage (0, 0) (1, 0) (2, 0) 0 1 2 3 "a" | _ => mkimage (0, 1) (1, 1) (2, 1) 4 5 6 7 "b" end) 2.
Definition x_ds : dataset := mkds [0; 1] 0 1 2.
Definition x_call := call nat Nat.add Nat.mul String.leb true [("DRPVERSN", "1")].
Definition x_row (f : field) (h : heap nat) (d : dataset) (i : nat) : result (block nat) :=
  match nth_error (buf nat h (cube f d)) i with Some b => Ok b | None => Raise IndexError end.
Definition x_half (h : heap nat) (d : dataset) (i : nat) : result (block nat) := do b <- x_row FData h d i; Ok (map (map (fun x => x / 2)) b).
(** the first pixel of each frame *)
Definition x_cut (h : heap nat) (d : dataset) (i : nat) : result (block nat * block nat * block nat * layer nat) :=
  do a <- x_row FData h d i; do e <- x_row FErr h d i; do q <- x_row FDq h d i; Ok (map (firstn 1) a, map (firstn 1) e, map (firstn 1) q, [2]).
Definition x_prescan : step nat := Prescan nat x_cut (fun _ => [("NAXIS1", "1"); ("NAXIS2", "1")]) "prescan".
Definition x_level : step nat := Level nat "L1" "L2a" "level".
Definition x_gain : step nat := EmGain nat x_half (x_row FErr) (fun b => if b then "gains" else "gain").
Definition x_dark : step nat := DarkSub nat true (fun h d => Ok (buf nat h (ds_data d), [1; 1], buf nat h (ds_dq d))) "dark".
Definition x_time : step nat := ExpTime nat (fun h d i => do b <- x_half h d i; Ok (b, [2; 2])) "time".
Definition x_noise : step nat := PhotonNoise nat (fun h d i => Ok [1; i]) "noise".
Definition x_select : step nat := Select nat (fun h d => Ok ([[("IS_BAD", "True")]; []], [true; false])) true "select".

Lemma x_sound c : Sound nat (x_heap c) x_ds.
Proof.
  split; [split|].
  - intros k [<-|[<-|[]]]; (split; [cbn; auto|split]); intros []; cbn; auto 10 with arith.
  - intros []; cbn; auto.
  - split; [repeat constructor; cbn; intuition congruence|]. split; [intros [] []; cbn; congruence|]. split; [intros []; reflexivity|].
    intros k f [<-|[<-|[]]]; destruct f; cbn; discriminate.
Qed.
Lemma x_linked c : Linked nat (x_heap c) x_ds.
Proof.
  split; [repeat constructor; cbn; intuition congruence|]. split; [intros []; reflexivity|]. split; [intros []; cbn; auto|]. split; [intros [] []; cbn; congruence|].
  intros [|[|[|i]]] k H; cbn in H; try discriminate; injection H as <-; intros []; reflexivity.
Qed.
