(** Property C45, in terms of the bytes of the keys. *)

From Coq Require Import String List Bool.
From Verif.Model Require Import Bytes Go Pebble Bloom FSStore.
From Verif.Spec Require Import FSSpec.
From Verif.Proofs Require Import FSNames.
Import ListNotations.

(** C45. Two keys are one to the file store if they have the same letters, digits,
    underscores and dots; else storing under one does not change the other. What is stored can be read
    unless nothing of the key but one or two dots is left. *)
Theorem C45_which_keys_partial :
  (forall d k k', lettered k = lettered k' ->
     fs_get d k = fs_get d k' /\ (forall v, fs_set d k v = fs_set d k' v) /\ (forall hi, fs_del_range d k hi = fs_del_range d k' hi)) /\
  (forall d k k' v, lettered k <> lettered k' -> fs_get (fst (fs_set d k v)) k' = fs_get d k') /\
  (forall d k v, lettered k <> [] -> lettered k <> [x2e] -> lettered k <> [x2e; x2e] ->
     snd (fs_set d k v) = true /\ fs_get (fst (fs_set d k v)) k = Some v).
Proof. exact (conj same_letters (conj other_letters set_lettered)). Qed.
Print Assumptions C45_which_keys_partial.

Example C45_which_keys_case : lettered [x61; x5f; x2d; x31] = lettered [x61; x5f; xff; x31] /\ lettered [x61; x5f; x31] <> lettered [x61; x31] /\
  let d := fst (fs_set [] [x61; x5f; x2d; x31] [x01]) in fs_get d [x61; x5f; xff; x31] = Some [x01] /\ fs_get d [x61; x31] = None.
Proof. vm_compute. repeat split; discriminate. Qed.
