(** The names of the files of filters. *)

From Coq Require Import String List Bool.
From Verif.Model Require Import Bytes Go Pebble Bloom FSStore.
From Verif.Spec Require Import FSSpec.
From Verif.Proofs Require Import BytesFacts PebbleFacts FSFacts.
Import ListNotations.

Lemma name_is k : file_name k = lettered k.
Proof. unfold file_name, lettered. apply filter_ext. intros []; vm_compute; reflexivity. Qed.

Theorem same_letters d k k' : lettered k = lettered k' ->
  fs_get d k = fs_get d k' /\ (forall v, fs_set d k v = fs_set d k' v) /\ (forall hi, fs_del_range d k hi = fs_del_range d k' hi).
Proof. rewrite <- !name_is. unfold fs_get, fs_set, fs_del_range. intros ->. auto. Qed.

Theorem other_letters d k k' v : lettered k <> lettered k' -> fs_get (fst (fs_set d k v)) k' = fs_get d k'.
Proof. rewrite <- !name_is. intro H. rewrite fs_get_set. destruct (dir_name (file_name k')) eqn:D.
  - unfold fs_get. rewrite D. reflexivity.
  - destruct (dir_name (file_name k)); auto. destruct (beqb (file_name k') (file_name k)) eqn:E; auto. apply beqb_eq in E. congruence.
Qed.

Theorem set_lettered d k v : lettered k <> [] -> lettered k <> [x2e] -> lettered k <> [x2e; x2e] ->
  snd (fs_set d k v) = true /\ fs_get (fst (fs_set d k v)) k = Some v.
Proof.
  rewrite <- !name_is. intros A B C. assert (D : dir_name (file_name k) = false).
  { unfold dir_name. apply not_true_is_false. rewrite !orb_true_iff, !beqb_eq. tauto. }
  rewrite fs_get_set, D. unfold fs_set. rewrite D. split; [reflexivity|]. rewrite beqb_refl. reflexivity.
Qed.
