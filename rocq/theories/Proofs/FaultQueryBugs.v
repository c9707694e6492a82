(** Queries when reads fail: concrete cases, and material for the examples. *)

From Coq Require Import String List NArith Lia Bool Arith.
From Verif.Model Require Import Bytes Go Keys Pebble Index Table Scan Query LiveScan Faults FaultQuery.
From Verif.Spec Require Import KeySpec StoreSpec TableSpec ScanSpec QuerySpec FaultSpec.
From Verif.Proofs Require Import BytesFacts PebbleFacts TableFacts Witness TableBugs ScanBugs QueryBugs LiveBugs PagingBugs FaultBugs.
Import ListNotations.

(** [all_ids] and others on the rows 1, 2 and 3 *)
Definition frun (io : faults) (q : query acct) : res (list acct) := fexecute io accts env1 isort 9 abc_db tt q None.

Lemma kind_query_cut : frun (bad [2]) of_kind = Err EOther /\ frun (bad [5]) of_kind = Err ENotFound /\ frun (bad []) of_kind = Ok [a1; a3] /\
  frun (bad [4]) (q_with_limit all_ids 1) = Ok [a1] /\ frun (bad [2]) (q_with_after all_ids a1) = Err EOther /\ frun (bad []) (q_with_after all_ids a1) = Ok [a2; a3].
Proof. repeat split; vm_compute; reflexivity. Qed.

(** the point of row 1 is not read *)
Lemma id_query_lost : frun (bad [2]) id_points = Ok [a2; a3] /\ frun (bad []) id_points = Ok [a1; a2; a3] /\
  frun (bad [2]) (q_with_limit id_points 1) = Ok [a2] /\ frun (bad [2]) (q_with_limit (q_order id_points by_score) 1) = Ok [a2].
Proof. repeat split; vm_compute; reflexivity. Qed.

(** the first index of the intersection is read up to row 1, or the second not at all *)
Lemma both_lost : frun (bad [2]) both = Ok [a1] /\ frun (bad [6]) both = Ok [] /\ frun (bad []) both = Ok [a1; a3] /\ frun (bad [10]) both = Err ENotFound /\
  frun (bad [2]) (q_with_offset both 1) = Ok [] /\ frun (bad []) (q_with_offset both 1) = Ok [a3].
Proof. repeat split; vm_compute; reflexivity. Qed.

Lemma both_exact : forall x, In x (both :: q_inter both) -> In (q_index x) (primary_index :: t_indexes accts) /\ exact_selector accts (q_index x) abc_m (q_sel x).
Proof.
  intros x [<-|[<-|[]]].
  - split; [left; reflexivity|exact (all_ids_exact abc_m)].
  - split; [right; left; reflexivity|exact (kind10_exact abc_m)].
Qed.

Lemma both_plain : forall x, In x (q_inter both) -> plain_part x.
Proof. intros x [<-|[]]. repeat split; reflexivity. Qed.

Lemma unmade_query : frun unmade all_ids = Ok [] /\ frun unmade (q_order all_ids by_score) = Ok [].
Proof. split; vm_compute; reflexivity. Qed.

Lemma both_some : q_inter both <> [].
Proof. discriminate. Qed.
