(** Property C100: the parts of an intersecting query. *)

From Coq Require Import List NArith Lia Bool Arith.
From Verif.Model Require Import Bytes Go Keys Pebble Index Table Scan Query.
From Verif.Spec Require Import KeySpec StoreSpec TableSpec HistSpec ScanSpec QuerySpec PartsSpec.
From Verif.Proofs Require Import Witness TableBugs ScanBugs QueryBugs FaultQueryBugs PartsFacts PartsBugs.
Import ListNotations.

(** C100. Two queries with Intersects and the same parts (pairs of an index and a selector), whichever is the query and which are in Intersects, in whatever order and
    however often, with the same Filter, Order, Offset, Limit and After, have the same outcome: the same rows in the same order, or the same error. Also through a batch
    that has changed rows, and for selectors that select more than they say ([visits] is what a scan really visits). *)
Theorem C100_any_parts : forall (T F : Type) (tb : table T F), good_table tb -> forall ev srt db fl ob m, reads tb db fl ob m -> quiet ev ->
  forall q q', (forall x, In x (q :: q_inter q) -> In (q_index x) (primary_index :: t_indexes tb) /\ short_sel (sindex_of (q_index x)) (q_sel x)) ->
  q_inter q <> [] -> q_inter q' <> [] -> (forall x, In x (q_inter q) \/ In x (q_inter q') -> plain_part x) -> same_parts q q' ->
  q_filter q' = q_filter q -> q_less q' = q_less q -> q_offset q' = q_offset q -> q_limit q' = q_limit q -> q_after q' = q_after q ->
  exists ls, Forall2 (fun x l => visits tb (q_index x) m (q_sel x) l) (q :: q_inter q) ls /\
  forall fuel, (forall l, In l ls -> length l <= fuel) -> execute tb ev srt fuel db fl q ob = execute tb ev srt fuel db fl q' ob.
Proof. exact @any_parts. Qed.
Print Assumptions C100_any_parts.

(** The accounts in a range of ids and of kind 10, by id first and by kind first, there with the range of ids twice; directly and through a batch with two of the rows,
    where both fail. *)
Example C100_any_parts_case : good_table accts /\ reads accts abc_db tt NoBatch abc_m /\ reads accts a_db tt (ABatch bc_batch) abc_m /\ quiet (env1 (T:=acct)) /\
  (forall x, In x (both :: q_inter both) -> In (q_index x) (primary_index :: t_indexes accts) /\ short_sel (sindex_of (q_index x)) (q_sel x)) /\
  q_inter both <> [] /\ q_inter swapped <> [] /\ (forall x, In x (q_inter both) \/ In x (q_inter swapped) -> plain_part x) /\ same_parts both swapped /\
  run 5 both = Ok [a1; a3] /\ run 5 swapped = Ok [a1; a3] /\
  execute accts env1 isort 5 a_db tt both (ABatch bc_batch) = Err ENotFound /\ execute accts env1 isort 5 a_db tt swapped (ABatch bc_batch) = Err ENotFound.
Proof.
  split; [exact accts_good|]. split; [exact abc_reads|]. split; [exact abc_batch_reads|]. split; [apply demo_env_quiet|]. split; [exact both_short|].
  split; [exact both_some|]. split; [discriminate|]. split; [exact swapped_plain|]. split; [exact both_swapped|]. repeat split; vm_compute; reflexivity.
Qed.

(** The condition that parts in Intersects are plain is needed: a filter on a part in Intersects is refused, on the query it is not. *)
Example C100_filter_case : reads accts abc_db tt NoBatch abc_m /\ same_parts filtered_first filtered_second /\
  forall fuel, 5 <= fuel -> run fuel filtered_first = Ok [a3] /\ run fuel filtered_second = Err EQuery.
Proof. exact (conj abc_reads (conj filtered_parts filtered_runs)). Qed.
