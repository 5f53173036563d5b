From Coq Require Import List Arith Bool Lia String.
From Verif Require Import Base DatasetModel DatasetSpec DatasetProofs AliasModel AliasSpec AliasProofs AliasMainProofs AliasExample.
Import ListNotations.
Local Open Scope string_scope.

Ltac run := vm_compute; repeat split; try discriminate; try reflexivity.

Lemma headers_refuted : ~ (forall s c h' d' role i, x_call s (x_heap c) x_ds = (h', Ok d') -> frame_header nat h' x_ds role i = frame_header nat (x_heap c) x_ds role i).
Proof.
  intro H. specialize (H x_level x_cards _ _ HExt 0 (surjective_pairing _)). vm_compute in H. discriminate.
Qed.
Lemma naxis_refuted : exists h' d', x_call x_prescan (x_heap x_cards) x_ds = (h', Ok d') /\ frame_header nat h' x_ds HExt 0 <> None
  /\ (exists hd, frame_header nat h' x_ds HExt 0 = Some hd /\ hget "NAXIS1" hd = Some "1") /\ frame_pixel nat h' x_ds FData 0 0 1 = Some 2.
Proof. do 2 eexists. split; [vm_compute; reflexivity|]. split; [discriminate|]. split; [eexists; split; reflexivity|reflexivity]. Qed.
Lemma gain_refuted : exists h' d', x_call x_gain (x_heap x_cards) x_ds = (h', Ok d') /\ ~ Linked nat h' d'.
Proof.
  do 2 eexists. split; [vm_compute; reflexivity|]. intros (_ & _ & _ & _ & K). specialize (K 0 2 eq_refl FData). discriminate.
Qed.
Lemma time_refuted : exists h' d', x_call x_time (x_heap x_cards) x_ds = (h', Ok d') /\ ~ Linked nat h' d'.
Proof.
  do 2 eexists. split; [vm_compute; reflexivity|]. intros (_ & _ & _ & _ & K). specialize (K 0 2 eq_refl FData). discriminate.
Qed.
Lemma dark_refuted : exists h' d', x_call x_dark (x_heap x_cards) x_ds = (h', Ok d') /\ ~ Linked nat h' x_ds.
Proof.
  do 2 eexists. split; [vm_compute; reflexivity|]. intros (_ & _ & _ & _ & K). specialize (K 0 0 eq_refl FData). discriminate.
Qed.
Lemma dark_raise_refuted : exists h', x_call x_dark (x_heap x_other) x_ds = (h', Raise PyException) /\ ~ Linked nat h' x_ds.
Proof.
  eexists. split; [vm_compute; reflexivity|]. intros (_ & _ & _ & _ & K). specialize (K 0 0 eq_refl FData). discriminate.
Qed.
