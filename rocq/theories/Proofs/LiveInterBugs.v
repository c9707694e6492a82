(** Concrete intersecting queries while rows are written. *)

From Coq Require Import List NArith ZArith Lia Bool Arith Sorting.Sorted.
From Verif.Model Require Import Bytes Go Keys Pebble Index Table Scan LiveScan Query LiveInter.
From Verif.Spec Require Import KeySpec StoreSpec TableSpec HistSpec ScanSpec QuerySpec PagingSpec LiveScanSpec LiveInterSpec.
From Verif.Proofs Require Import BytesFacts TableFacts Witness TableBugs ScanBugs QueryProps QueryBugs ConcurBugs PagingBugs LiveBugs.
Import ListNotations.

Definition score (n : N) : query acct := q_with (new_query accts) acct_by_score (SPoint (Acct 0 0 n true)).
Definition kind10_score (n : N) : query acct := q_intersects of_kind [score n].

(** part [i] of an intersection sees moment [i] *)
Definition in_turn (i n : nat) (lo hi : bytes) : nat := i.
(** everything before the rows are fetched sees moment 0 *)
Definition at_once (i n : nat) (lo hi : bytes) : nat := 0.

Definition live_run (rows : nat -> list acct) sees last fuel (q : query acct) : res (list acct) :=
  live_execute accts env1 isort (fun k => look_at (rows k)) sees last fuel q.
Definition still_run (rows : list acct) fuel (q : query acct) : res (list acct) :=
  execute accts env1 isort fuel (lk_db (look_at rows)) tt q NoBatch.

(** row 3 is moved from kind 10 and score 5 to kind 12 and score 7 *)
Definition a3m := Acct 3 12 7 true.
Definition moving (k : nat) : list acct := match k with O => [a1; a2; a3] | S _ => [a1; a2; a3m] end.
(** row 3 is deleted *)
Definition going (k : nat) : list acct := match k with O => [a1; a2; a3] | S _ => [a1; a2] end.

Lemma moving_ok k : consistent accts (lk_db (look_at (moving k))) tt (puts asc empty_map (moving k)).
Proof. destruct k; stands. Qed.
Lemma going_ok k : consistent accts (lk_db (look_at (going k))) tt (puts asc empty_map (going k)).
Proof. destruct k; stands. Qed.

Lemma never_matched fuel : 5 <= fuel ->
  still_run (moving 0) fuel (kind10_score 7) = Ok [] /\ still_run (moving 1) fuel (kind10_score 7) = Ok [] /\
  live_run moving in_turn 1 fuel (kind10_score 7) = Ok [a3m].
Proof. intro H. repeat split; revert fuel H; fuels 5. Qed.

Lemma gone_fails fuel : 5 <= fuel ->
  still_run (going 0) fuel (kind10_score 5) = Ok [a3] /\ still_run (going 1) fuel (kind10_score 5) = Ok [] /\
  live_run going at_once 1 fuel (kind10_score 5) = Err ENotFound.
Proof. intro H. repeat split; revert fuel H; fuels 5. Qed.

(** row 2 is written while kinds 10 and 11 are intersected with scores 6 and 5 *)
Definition kinds_scores : query acct :=
  q_intersects (q_with (new_query accts) acct_by_kind (SPoints [Acct 0 10 9 true; Acct 0 11 9 true]))
    [q_with (new_query accts) acct_by_score (SPoints [Acct 0 0 6 true; Acct 0 0 5 true])].
Definition writing (k : nat) : list acct := match k with O => [a1; a2; a3] | S _ => [a1; Acct 2 10 5 true; a3] end.
Definition one_by_one (i n : nat) (lo hi : bytes) : nat := i + n.

Lemma live_inter_case :
  (forall k, consistent accts (lk_db (look_at (writing k))) tt (puts asc empty_map (writing k))) /\
  (forall x, In x (kinds_scores :: q_inter kinds_scores) -> In (q_index x) (primary_index :: t_indexes accts) /\
     forall k, exact_selector accts (q_index x) (puts asc empty_map (writing k)) (q_sel x)) /\
  (forall x, In x (q_inter kinds_scores) -> plain_part x) /\
  still_run (writing 1) 5 kinds_scores = Ok [a1; Acct 2 10 5 true; a3] /\
  live_run writing one_by_one 2 5 kinds_scores = Ok [a1; a3].
Proof.
  split; [intro k; destruct k; stands|]. split; [|split].
  - intros x [<-|[<-|[]]].
    + split; [right; left; reflexivity|]. intro k. split; [discriminate|].
      intros p [<-|[<-|[]]]; (split; [split; vm_compute; reflexivity|vm_compute; discriminate]).
    + split; [right; right; left; reflexivity|]. intro k. split; [discriminate|].
      intros p [<-|[<-|[]]]; (split; [split; vm_compute; reflexivity|vm_compute; discriminate]).
  - intros x [<-|[]]. repeat split.
  - split; vm_compute; reflexivity.
Qed.
