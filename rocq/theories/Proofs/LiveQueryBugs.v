(** Concrete queries while rows are written. *)

From Coq Require Import List NArith ZArith Lia Bool Arith Sorting.Sorted.
From Verif.Model Require Import Bytes Go Keys Pebble Index Table Scan LiveScan Query LiveQuery.
From Verif.Spec Require Import KeySpec StoreSpec TableSpec HistSpec ScanSpec QuerySpec PagingSpec LiveScanSpec LiveQuerySpec.
From Verif.Proofs Require Import BytesFacts TableFacts Witness TableBugs ScanBugs QueryProps QueryBugs ConcurBugs PagingBugs LiveBugs.
Import ListNotations.

(** row 1, the best of kind 10, becomes the worst while the query runs *)
Definition a1low := Acct 1 10 1 true.
Definition best10 : query acct := q_with (new_query accts) acct_by_kind kind10.
Definition ask_live (a b : list acct) gets fuel (q : query acct) : res (list acct) :=
  live_query accts env1 isort (then_ a b) at_first gets fuel q.
Definition ask_still (rows : list acct) fuel (q : query acct) : res (list acct) :=
  execute_query accts env1 isort fuel (lk_db (look_at rows)) tt q NoBatch.

Lemma low_at : consistent accts (lk_db (look_at [a1low; a2; a3])) tt (puts asc empty_map [a1low; a2; a3]).
Proof. stands. Qed.

Lemma low_query fuel : 5 <= fuel ->
  ask_still [a1; a2; a3] fuel (q_with_limit best10 1) = Ok [a1] /\ ask_still [a1low; a2; a3] fuel (q_with_limit best10 1) = Ok [a3] /\
  ask_live [a1; a2; a3] [a1low; a2; a3] at_last fuel (q_with_limit best10 1) = Ok [a1low] /\
  ask_live [a1; a2; a3] [a1low; a2; a3] at_last fuel best10 = Ok [a1low; a3].
Proof. intro H. repeat split; revert fuel H; fuels 5. Qed.

Lemma low_unordered : ~ StronglySorted (pos_lt asc (sindex_of acct_by_kind)) [a1low; a3].
Proof. intro S. inversion S as [|? ? _ F]; subst. apply Forall_inv in F. vm_compute in F. discriminate. Qed.

(** five rows of kind 10, read in blocks of three; row 5 goes when the first block has been read *)
Definition five := [Acct 1 10 9 true; Acct 2 10 8 true; Acct 3 10 7 true; Acct 4 10 6 true; Acct 5 10 5 true].
Definition four := [Acct 1 10 9 true; Acct 2 10 8 true; Acct 3 10 7 true; Acct 4 10 6 true].
Definition by_round (n : nat) : nat := n.

Lemma five_ok : (forall k, consistent accts (lk_db (then_ five four k)) tt (match k with O => puts asc empty_map five | S _ => puts asc empty_map four end)) /\
  forall k, exact_selector accts acct_by_kind (match k with O => puts asc empty_map five | S _ => puts asc empty_map four end) kind10.
Proof. split; [intros [|k]; stands|intro k; apply kind10_exact]. Qed.

Definition even_id (r : acct) : bool := N.even (a_id r).

Lemma live_query_case :
  ask_live five four by_round 9 (q_with_limit (q_with_filter best10 even_id) 1) = Ok [Acct 2 10 8 true] /\
  ask_live five four by_round 9 (q_with_filter best10 even_id) = Err ENotFound /\
  ask_live five four by_round 9 (q_with_limit (q_with_offset best10 1) 2) = Ok [Acct 2 10 8 true; Acct 3 10 7 true] /\
  ask_live five four by_round 9 (q_with_limit (q_with_offset best10 2) 1) = Err ENotFound /\
  ask_live five four by_round 9 (q_with_limit best10 3) = Ok (firstn 3 five) /\
  ask_live four five by_round 9 (q_order (q_with_filter best10 even_id) (fun a b => N.ltb (a_score a) (a_score b))) = Ok [Acct 4 10 6 true; Acct 2 10 8 true] /\
  ask_live four five by_round 9 (q_with_after best10 (Acct 2 10 8 true)) = Ok [Acct 3 10 7 true; Acct 4 10 6 true].
Proof. repeat split; vm_compute; reflexivity. Qed.

Lemma after_two : after_fits asc (sindex_of acct_by_kind) false (Acct 2 10 8 true) kind10.
Proof. split; [split; vm_compute; reflexivity|]. split; vm_compute; [reflexivity|discriminate]. Qed.
