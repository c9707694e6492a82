(** Concrete queries on which unguarded claims fail, and material for examples. *)

From Coq Require Import List NArith ZArith Lia Bool Sorting.Sorted Sorting.Permutation Arith.
From Verif.Model Require Import Bytes Go Keys Pebble Index Table Scan Query.
From Verif.Spec Require Import KeySpec StoreSpec TableSpec HistSpec ScanSpec QuerySpec.
From Verif.Proofs Require Import BytesFacts KeysFacts PebbleFacts TableFacts Witness TableProps TableBugs ScanBugs.
Import ListNotations.

(** ** A sort *)

Fixpoint put_in {A} (less : A -> A -> bool) (x : A) (l : list A) : list A :=
  match l with
  | [] => [x]
  | y :: l' => if less y x then y :: put_in less x l' else x :: l
  end.
Definition isort {A} (less : A -> A -> bool) (l : list A) : list A := fold_right (put_in less) [] l.

Lemma put_in_perm {A} (less : A -> A -> bool) x l : Permutation (put_in less x l) (x :: l).
Proof. induction l as [|y l IH]; cbn; auto. destruct (less y x); auto. rewrite IH. apply perm_swap. Qed.

Lemma isort_sorts {A} : sorts (@isort A).
Proof.
  intros less l. split.
  - induction l as [|x l IH]; cbn; auto. rewrite put_in_perm. auto.
  - intros [IR [TR NT]]. induction l as [|x l IH]; [constructor|]. cbn [isort fold_right]. fold (isort less l).
    revert IH. generalize (isort less l) as s. induction s as [|y s IH]; intro S; cbn [put_in]; [repeat constructor|].
    inversion S as [|? ? S1 FA]; subst. destruct (less y x) eqn:E.
    + constructor; auto. rewrite Forall_forall in *. intros z Hz. apply (Permutation_in _ (put_in_perm less x s)) in Hz.
      destruct Hz as [<-|Hz]; auto. destruct (less x y) eqn:E2; auto. specialize (TR y x y E E2). specialize (IR y). congruence.
    + constructor; auto. constructor; auto. rewrite Forall_forall in *. intros z Hz. specialize (FA z Hz). eapply NT; eauto.
Qed.

Lemma lt_strict_weak {A} (f : A -> N) : strict_weak (fun a b => (f a <? f b)%N).
Proof.
  split; [|split]; intros.
  - apply N.ltb_irrefl.
  - apply N.ltb_lt in H, H0. apply N.ltb_lt. lia.
  - apply N.ltb_ge in H, H0. apply N.ltb_ge. lia.
Qed.

Definition by_score (a b : acct) : bool := (a_score a <? a_score b)%N.

(** the whole table [abc] by primary key, as a range *)
Definition all_ids : query acct := q_with (new_query accts) primary_index (SRange (Acct 0 0 0 false) (Acct 9 0 0 false)).
Definition run (fuel : nat) (q : query acct) : res (list acct) := execute accts env1 isort fuel abc_db tt q NoBatch.
Definition a1 := Acct 1 10 6 true.
Definition a2 := Acct 2 11 0 false.
Definition a3 := Acct 3 10 5 true.

Tactic Notation "fuels" integer(n) := let f := fresh "fuel" in let H := fresh "H" in
  intros f H; do n (destruct f as [|f]; [lia|]); vm_compute; reflexivity.

Lemma all_ids_rows fuel : 5 <= fuel -> run fuel all_ids = Ok [a1; a2; a3].
Proof. revert fuel. fuels 5. Qed.

(** offset + limit overflows *)
Lemma overflow_loses fuel : 5 <= fuel ->
  run fuel (q_with_limit (q_with_offset all_ids 1) (2 ^ 64 - 1)) = Ok [a2].
Proof. revert fuel. fuels 5. Qed.

(** a limit of 2^63 or more *)
Lemma huge_limit_panics fuel : 5 <= fuel ->
  run fuel (q_with_limit (q_order all_ids by_score) (2 ^ 64 - 1)) = Panic /\
  run fuel (q_with_limit (q_with all_ids primary_index (SRange (Acct 5 0 0 false) (Acct 9 0 0 false))) (2 ^ 64 - 1)) = Panic.
Proof. intro H. split; revert fuel H; fuels 5. Qed.

(** after with reverse *)
Lemma after_reverse fuel : 5 <= fuel ->
  run fuel (q_reverse all_ids) = Ok [a3; a2; a1] /\ run fuel (q_with_after (q_reverse all_ids) a2) = Ok [a3; a2].
Proof. intro H. split; revert fuel H; fuels 5. Qed.

(** after a row in front of the selection *)
Lemma after_in_front fuel : 5 <= fuel ->
  let q := q_with all_ids primary_index (SRange (Acct 3 0 0 false) (Acct 9 0 0 false)) in
  run fuel q = Ok [a3] /\ run fuel (q_with_after q a1) = Ok [a2; a3].
Proof. intro H. split; revert fuel H; fuels 5. Qed.

(** after a row behind the last range *)
Lemma after_behind_panics fuel : 5 <= fuel ->
  let q := q_with all_ids primary_index (SRanges [[Acct 1 0 0 false; Acct 2 0 0 false]]) in
  run fuel q = Ok [a1; a2] /\ run fuel (q_with_after q a3) = Panic.
Proof. intro H. split; revert fuel H; fuels 5. Qed.

(** paging over points of the primary index *)
Definition id_points : query acct := q_with all_ids primary_index (SPoints [a1; a2; a3]).

Lemma points_step fuel : 5 <= fuel ->
  run fuel id_points = Ok [a1; a2; a3] /\
  run fuel (page (q_with_limit id_points 1) None) = Ok [a1] /\
  run fuel (page (q_with_limit id_points 1) (Some a1)) = Ok [a2] /\
  run fuel (page (q_with_limit id_points 1) (Some a2)) = Ok [a2].
Proof. intro H. repeat split; revert fuel H; fuels 5. Qed.

Lemma points_pages fuel : 5 <= fuel -> forall n, pages (fun a => run fuel (page (q_with_limit id_points 1) a)) n None = Diverge.
Proof.
  intros H n. destruct (points_step fuel H) as [_ [E0 [E1 E2]]].
  assert (X : forall n, pages (fun a => run fuel (page (q_with_limit id_points 1) a)) n (Some a2) = Diverge).
  { clear n. induction n as [|n IH]; cbn [pages]; auto. rewrite E2. cbn [last]. rewrite IH. reflexivity. }
  destruct n as [|n]; cbn [pages]; auto. rewrite E0. cbn [last]. destruct n as [|n]; cbn [pages]; auto. rewrite E1. cbn [last].
  rewrite X. reflexivity.
Qed.

(** ** Intersections *)

Definition of_kind : query acct := q_with (new_query accts) acct_by_kind (SPoint (Acct 0 10 (2 ^ 64 - 1) true)).
Definition both : query acct := q_intersects all_ids [of_kind].

Lemma both_rows fuel : 5 <= fuel -> run fuel both = Ok [a1; a3].
Proof. revert fuel. fuels 5. Qed.

Lemma both_reverse fuel : 5 <= fuel -> run fuel (q_reverse both) = Ok [a1; a3].
Proof. revert fuel. fuels 5. Qed.

Lemma both_after_offset fuel : 5 <= fuel ->
  run fuel (q_with_after both a1) = Ok [a3] /\ run fuel (q_with_offset (q_with_after both a1) 1) = Ok [a3].
Proof. intro H. split; revert fuel H; fuels 5. Qed.

Lemma both_in_batch fuel : 5 <= fuel ->
  execute accts env1 isort fuel a_db tt all_ids (ABatch bc_batch) = Ok [a1; a2; a3] /\
  execute accts env1 isort fuel a_db tt of_kind (ABatch bc_batch) = Ok [a1; a3] /\
  execute accts env1 isort fuel a_db tt both (ABatch bc_batch) = Err ENotFound.
Proof. intro H. repeat split; revert fuel H; fuels 5. Qed.

Lemma nested_ignored fuel : 5 <= fuel ->
  let none := q_with all_ids primary_index (SRange (Acct 5 0 0 false) (Acct 9 0 0 false)) in
  run fuel none = Ok [] /\ run fuel (q_intersects all_ids [q_intersects of_kind [none]]) = Ok [a1; a3].
Proof. intro H. split; revert fuel H; fuels 5. Qed.
