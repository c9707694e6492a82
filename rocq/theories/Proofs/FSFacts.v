(** Facts about the file store of filters. *)

From Coq Require Import List NArith Bool Arith Lia DecimalNat.
From Verif.Model Require Import Bytes Go Pebble Bloom FSStore.
From Verif.Spec Require Import BloomSpec.
From Verif.Proofs Require Import BytesFacts PebbleFacts BloomFacts.
Import ListNotations.

(** Keys that are file names as they are. *)
Definition plain (k : bytes) : Prop := forallb name_char k = true /\ dir_name k = false.

Lemma filter_all {A} (f : A -> bool) l : forallb f l = true -> filter f l = l.
Proof. induction l as [|a l IH]; cbn; auto. intros H. apply andb_prop in H. destruct H as [-> H]. now rewrite IH. Qed.

Lemma plain_name k : plain k -> file_name k = k.
Proof. intros [H _]. now apply filter_all. Qed.

Lemma digits_chars u : forallb name_char (digits u) = true.
Proof. induction u; cbn; auto. Qed.

Lemma to_uint_nonempty n : digits (Nat.to_uint n) <> [].
Proof.
  intros H. assert (E : Nat.to_uint n = Decimal.Nil) by (destruct (Nat.to_uint n); auto; discriminate).
  pose proof (f_equal Nat.of_uint E) as F. rewrite DecimalNat.Unsigned.of_to in F. cbn in F. subst n. discriminate E.
Qed.

Lemma dir_name_last n b : dir_name (n ++ [b]) = true -> b = x2e.
Proof.
  unfold dir_name. rewrite !orb_true_iff, !beqb_eq. intros [[H|H]|H].
  - destruct n; discriminate.
  - change [x2e] with ([] ++ [x2e]) in H. now apply app_inj_tail in H.
  - change [x2e; x2e] with ([x2e] ++ [x2e]) in H. now apply app_inj_tail in H.
Qed.

Lemma digits_no_dot u : ~ In x2e (digits u).
Proof. induction u; cbn; intros H; try destruct H as [H|H]; auto; discriminate. Qed.

Lemma bucket_name c i : file_name (bucket_key c i) = file_name (c_prefix c) ++ digits (Nat.to_uint i).
Proof. unfold file_name, bucket_key. rewrite filter_app. f_equal. apply filter_all, digits_chars. Qed.

Lemma count_name c : file_name (count_key c) = file_name (c_prefix c) ++ [x62; x6e].
Proof. unfold file_name, count_key. rewrite filter_app. reflexivity. Qed.

Lemma own_fine c k : own_key c k -> dir_name (file_name k) = false.
Proof.
  intros O. destruct (dir_name (file_name k)) eqn:D; auto. exfalso. destruct O as [->|(i & _ & ->)].
  - rewrite count_name in D. change (file_name (c_prefix c) ++ [x62; x6e]) with (file_name (c_prefix c) ++ [x62] ++ [x6e]) in D.
    rewrite app_assoc in D. apply dir_name_last in D. discriminate.
  - rewrite bucket_name in D. destruct (@exists_last _ (digits (Nat.to_uint i)) (to_uint_nonempty i)) as (l & a & E).
    rewrite E, app_assoc in D. apply dir_name_last in D. subst a. apply (digits_no_dot (Nat.to_uint i)). rewrite E. apply in_or_app. right. now left.
Qed.

Lemma own_apart c k k' : own_key c k -> own_key c k' -> file_name k = file_name k' -> k = k'.
Proof.
  intros [->|(i & _ & ->)] [->|(j & _ & ->)]; rewrite ?count_name, ?bucket_name; intros H; auto; apply app_inv_head in H.
  - destruct (Nat.to_uint j); discriminate.
  - destruct (Nat.to_uint i); discriminate.
  - unfold bucket_key. now rewrite H.
Qed.

Lemma fs_get_set d k v k' : fs_get (fst (fs_set d k v)) k' =
  if dir_name (file_name k') then None else if dir_name (file_name k) then fs_get d k' else if beqb (file_name k') (file_name k) then Some v else fs_get d k'.
Proof.
  unfold fs_get, fs_set. destruct (dir_name (file_name k')) eqn:D'; auto. destruct (dir_name (file_name k)) eqn:D; cbn; auto.
  now rewrite kv_get_set.
Qed.

Lemma fs_storer_ok c : storer_ok fs_storer c.
Proof.
  constructor; cbn [fs_storer st_get st_set st_torn st_del_range].
  - intros s k v O. now rewrite fs_get_set, (own_fine c k O), beqb_refl.
  - intros s k v k' O O' N. rewrite fs_get_set, (own_fine c k' O'), (own_fine c k O).
    destruct (beqb (file_name k') (file_name k)) eqn:E; auto. apply beqb_eq in E. destruct N. symmetry. eapply own_apart; eauto.
  - intros s k v j O. right. exists j. unfold fs_torn. now rewrite fs_get_set, (own_fine c k O), beqb_refl.
  - intros s k v j k' O O' N. unfold fs_torn. rewrite fs_get_set, (own_fine c k' O'), (own_fine c k O).
    destruct (beqb (file_name k') (file_name k)) eqn:E; auto. apply beqb_eq in E. destruct N. symmetry. eapply own_apart; eauto.
  - intros s lo hi k O. unfold fs_del_range. destruct (bleb (file_name lo) [x2e]); cbn; auto.
    unfold fs_get. destruct (dir_name (file_name k)); auto.
    rewrite (kv_get_filter_key (fun n => bltb n (file_name lo))). destruct (bltb _ _); auto.
Qed.

(** ** What the file store does for any keys *)
Lemma fs_set_get d k v : dir_name (file_name k) = false -> snd (fs_set d k v) = true /\ fs_get (fst (fs_set d k v)) k = Some v.
Proof. intros D. rewrite fs_get_set, D, beqb_refl. unfold fs_set. rewrite D. auto. Qed.

Lemma fs_set_other d k v k' : file_name k <> file_name k' -> fs_get (fst (fs_set d k v)) k' = fs_get d k'.
Proof.
  intros N. rewrite fs_get_set. unfold fs_get. destruct (dir_name (file_name k')); auto. destruct (dir_name (file_name k)); auto.
  destruct (beqb _ _) eqn:E; auto. apply beqb_eq in E. congruence.
Qed.

Lemma fs_del_spec d lo hi k : blt [x2e] (file_name lo) -> 
  snd (fs_del_range d lo hi) = true /\
  fs_get (fst (fs_del_range d lo hi)) k = if bltb (file_name k) (file_name lo) then fs_get d k else None.
Proof.
  intros L. unfold fs_del_range. destruct (bleb (file_name lo) [x2e]) eqn:E.
  { exfalso. unfold bleb in E. unfold blt in L. rewrite (bcmp_antisym (file_name lo) [x2e]) in L. destruct (bcmp (file_name lo) [x2e]); discriminate. }
  cbn. split; auto. unfold fs_get. destruct (dir_name (file_name k)); [now destruct (bltb _ _)|].
  now rewrite (kv_get_filter_key (fun n => bltb n (file_name lo))).
Qed.
