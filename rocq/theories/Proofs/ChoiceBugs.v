(** Queries for the same accounts by different indexes. *)

From Coq Require Import List NArith Lia Bool Arith Sorting.Permutation Sorting.Sorted.
From Verif.Model Require Import Bytes Go Keys Pebble Index Table Scan Query.
From Verif.Spec Require Import KeySpec StoreSpec TableSpec HistSpec ScanSpec QuerySpec ChoiceSpec.
From Verif.Proofs Require Import Witness TableBugs ScanBugs QueryBugs LiveBugs PagingBugs FaultQueryBugs ChoiceFacts.
Import ListNotations.

(** the accounts of kind 10 that are on: all accounts, filtered; by kind; by id and kind *)
Definition by_filter : query acct := q_order (q_with_filter all_ids (fun r => (a_kind r =? 10)%N && a_on r)) by_score.
Definition by_kind : query acct := q_order of_kind by_score.
Definition by_both : query acct := q_order both by_score.

Lemma abc_only r : abc_m (s_pk asc r) = Some r -> r = a1 \/ r = a2 \/ r = a3.
Proof. unfold abc, puts, put, fold_left. repeat destruct (beqb _ _); intros [= <-]; auto. Qed.

Lemma scores_differ : tells_apart asc abc_m by_score.
Proof.
  split.
  - unfold strict_weak, by_score. repeat split; intros *; rewrite ?N.ltb_irrefl, ?N.ltb_lt, ?N.ltb_ge; auto; lia.
  - intros a b A B N. apply abc_only in A, B. destruct A as [-> | [-> | ->]], B as [-> | [-> | ->]]; try congruence; vm_compute; auto.
Qed.

Ltac asked_for := split; [reflexivity|split; [eexists; split; [left; reflexivity|]; vm_compute; intuition congruence|vm_compute; auto]].
Ltac not_asked := intros (X & (P & [<-|[]] & Y) & Z); vm_compute in X, Y, Z; intuition congruence.

Lemma filter_asks r : abc_m (s_pk asc r) = Some r -> asks_for accts by_filter r <-> r = a1 \/ r = a3.
Proof.
  intros ST. apply abc_only in ST. destruct ST as [-> | [-> | ->]].
  - split; [auto|intros _]. asked_for.
  - split; [not_asked|intros [H|H]; discriminate].
  - split; [auto|intros _]. asked_for.
Qed.

Lemma kind_asks r : abc_m (s_pk asc r) = Some r -> asks_for accts of_kind r <-> r = a1 \/ r = a3.
Proof.
  intros ST. apply abc_only in ST. destruct ST as [-> | [-> | ->]].
  - split; [auto|intros _]. asked_for.
  - split; [not_asked|intros [H|H]; discriminate].
  - split; [auto|intros _]. asked_for.
Qed.

Lemma all_asked r : abc_m (s_pk asc r) = Some r -> asks_for accts all_ids r.
Proof. intros ST. apply abc_only in ST. destruct ST as [-> | [-> | ->]]; asked_for. Qed.

Lemma same_asked r : abc_m (s_pk asc r) = Some r -> asks_for accts by_filter r <-> asks_for accts by_kind r.
Proof. intros ST. rewrite filter_asks by exact ST. symmetry. exact (kind_asks r ST). Qed.

Lemma both_asked r : abc_m (s_pk asc r) = Some r -> (forall x, In x (by_both :: q_inter by_both) -> asks_for accts x r) <-> asks_for accts by_filter r.
Proof.
  intros ST. rewrite filter_asks by exact ST. split.
  - intros H. apply (kind_asks r ST), H. right. left. reflexivity.
  - intros E x [<-|[<-|[]]]; [exact (all_asked r ST)|]. apply (kind_asks r ST), E.
Qed.

(** all accounts by score, and an order in which no two accounts differ *)
Definition all_scores : query acct := q_with (new_query accts) acct_by_score (SRange (Acct 0 0 0 false) (Acct 9 9 9 false)).
Definition no_order (a b : acct) : bool := false.

Lemma all_scores_exact : exact_selector accts acct_by_score abc_m (q_sel all_scores).
Proof.
  split; [split; vm_compute; reflexivity|]. split; [split; vm_compute; reflexivity|]. split; [vm_compute; discriminate|].
  intros r x ST E. apply abc_only in ST. destruct ST as [-> | [-> | ->]]; vm_compute in E; discriminate.
Qed.

Lemma all_scored r : abc_m (s_pk asc r) = Some r -> asks_for accts (q_order all_ids no_order) r <-> asks_for accts (q_order all_scores no_order) r.
Proof. intros ST. split; intros _; apply abc_only in ST; destruct ST as [-> | [-> | ->]]; asked_for. Qed.

Lemma no_order_weak : strict_weak no_order.
Proof. repeat split; intros; cbn in *; auto; discriminate. Qed.

Lemma ties fuel : 5 <= fuel -> run fuel (q_with_limit (q_order all_ids no_order) 1) = Ok [a1] /\ run fuel (q_with_limit (q_order all_scores no_order) 1) = Ok [a2].
Proof. intro H. split; revert fuel H; fuels 5. Qed.
