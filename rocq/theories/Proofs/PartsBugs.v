(** Intersections of the same parts. *)

From Coq Require Import List NArith Lia Bool Arith.
From Verif.Model Require Import Bytes Go Keys Pebble Index Table Scan Query.
From Verif.Spec Require Import KeySpec StoreSpec TableSpec ScanSpec QuerySpec PartsSpec.
From Verif.Proofs Require Import Witness TableBugs ScanBugs QueryBugs FaultQueryBugs PushBugs.
Import ListNotations.

Definition swapped : query acct := q_intersects of_kind [all_ids; all_ids].
(** the filter on the query, and on the part in Intersects *)
Definition filtered_first : query acct := q_intersects (q_with_filter all_ids low) [of_kind].
Definition filtered_second : query acct := q_intersects of_kind [q_with_filter all_ids low].

Lemma both_short : forall x, In x (both :: q_inter both) -> In (q_index x) (primary_index :: t_indexes accts) /\ short_sel (sindex_of (q_index x)) (q_sel x).
Proof.
  intros x [<-|[<-|[]]].
  - split; [left; reflexivity|]. split; split; vm_compute; reflexivity.
  - split; [right; left; reflexivity|]. split; vm_compute; reflexivity.
Qed.

Lemma swapped_plain x : In x (q_inter both) \/ In x (q_inter swapped) -> plain_part x.
Proof. intros [H|H]; [exact (both_plain x H)|]. destruct H as [<-|[<-|[]]]; repeat split. Qed.

Lemma both_swapped : same_parts both swapped.
Proof.
  intros i s. split; intros (x & I & A & B).
  - destruct I as [<-|[<-|[]]]; [exists all_ids|exists swapped]; (split; [|split; [exact A|exact B]]); [right; left; reflexivity|left; reflexivity].
  - destruct I as [<-|[<-|[<-|[]]]]; [exists of_kind|exists both|exists both]; (split; [|split; [exact A|exact B]]); [right; left; reflexivity|left; reflexivity|left; reflexivity].
Qed.

Lemma filtered_parts : same_parts filtered_first filtered_second.
Proof.
  intros i s. split; intros (x & I & A & B).
  - destruct I as [<-|[<-|[]]]; [exists (q_with_filter all_ids low)|exists filtered_second]; (split; [|split; [exact A|exact B]]); [right; left; reflexivity|left; reflexivity].
  - destruct I as [<-|[<-|[]]]; [exists of_kind|exists filtered_first]; (split; [|split; [exact A|exact B]]); [right; left; reflexivity|left; reflexivity].
Qed.

Lemma filtered_runs fuel : 5 <= fuel -> run fuel filtered_first = Ok [a3] /\ run fuel filtered_second = Err EQuery.
Proof. intro H. split; [revert fuel H; fuels 5|reflexivity]. Qed.
