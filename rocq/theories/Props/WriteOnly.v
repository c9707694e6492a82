(** Property C33: reading through a write-only batch. *)

From Coq Require Import List NArith Lia Bool Arith Sorting.Sorted.
From Verif.Model Require Import Bytes Go Keys Pebble Index Table Scan Query.
From Verif.Spec Require Import KeySpec StoreSpec TableSpec HistSpec ScanSpec QuerySpec.
From Verif.Proofs Require Import Witness TableBugs ScanBugs QueryBugs WriteOnlyFacts.
Import ListNotations.

(** C33, what happens instead. Whatever the database and the batch hold, every scan ends at once without
    calling back and without an error, every query returns no row, Get of a point reports that the row is
    absent, Get of points returns as many nil rows, Get of ranges returns no row and Exist answers no. *)
Theorem C33_write_only_exact : forall (T F : Type) (tb : table T F), good_table tb -> forall ev srt db fl b, b_rw b = false -> env_ok ev ->
  let isin idx := In idx (primary_index :: t_indexes tb) in
  (forall idx sel W (f : W -> bytes -> prog W) fuel rv s, isin idx -> short_sel (sindex_of idx) sel ->
     scan_index_for_each tb ev fuel db fl idx sel f rv (ABatch b) s = (s, Ok tt)) /\
  (forall q fuel, sorts srt -> (forall x, In x (q :: q_inter q) -> isin (q_index x) /\ short_sel (sindex_of (q_index x)) (q_sel x)) ->
     (forall x, In x (q_inter q) -> plain_part x) ->
     (q_after q = None \/ q_less q <> None \/ q_inter q <> []) -> (q_offset q < 2 ^ 63)%N -> (q_limit q < 2 ^ 63)%N ->
     execute tb ev srt fuel db fl q (ABatch b) = Ok []) /\
  (forall p fuel, get_sel tb ev fuel db fl (ABatch b) (SPoint p) = Err ENotFound) /\
  (forall ps fuel, get_sel tb ev fuel db fl (ABatch b) (SPoints ps) = Ok (repeat (t_nil tb) (length ps))) /\
  (forall sel fuel, (exists lo hi, sel = SRange lo hi) \/ (exists rs, sel = SRanges rs) -> short_sel (@sprimary T) sel ->
     get_sel tb ev fuel db fl (ABatch b) sel = Ok []) /\
  (forall p, exist tb db fl (Some b) p = false).
Proof. exact @write_only_reads. Qed.
Print Assumptions C33_write_only_exact.

Example C33_exact_case : forall b, b_rw b = false ->
  good_table accts /\ env_ok (env1 (T:=acct)) /\ short_sel (@sprimary acct) (q_sel all_ids) /\
  run 5 all_ids = Ok [a1; a2; a3] /\ execute accts env1 isort 5 abc_db tt all_ids (ABatch b) = Ok [] /\
  get_sel accts env1 5 abc_db tt NoBatch (SPoints [a3; a1]) = Ok [a3; a1] /\
  get_sel accts env1 5 abc_db tt (ABatch b) (SPoints [a3; a1]) = Ok [t_nil accts; t_nil accts].
Proof.
  intros b WO. split; [exact accts_good|]. split; [exact (demo_env_ok 10 ltac:(lia))|]. split; [split; split; vm_compute; reflexivity|].
  split; [vm_compute; reflexivity|]. split; [|split; [vm_compute; reflexivity|]].
  - apply (C33_write_only_exact _ _ accts accts_good env1 isort abc_db tt b WO (demo_env_ok 10 ltac:(lia))); auto using isort_sorts; try reflexivity.
    + intros x [<-|[]]. split; [left; reflexivity|]. split; split; vm_compute; reflexivity.
    + intros x [].
  - apply (C33_write_only_exact _ _ accts accts_good env1 isort abc_db tt b WO (demo_env_ok 10 ltac:(lia))).
Qed.
