(** Property C94: the stored database does not tell how the rows came about. *)

From Coq Require Import List NArith Bool Arith Lia.
From Verif.Model Require Import Bytes Go Keys Pebble Index Table ReIndex.
From Verif.Spec Require Import KeySpec StoreSpec TableSpec HistSpec RetrySpec LawSpec ReIndexSpec.
From Verif.Proofs Require Import Witness TableBugs RetryBugs ReIndexBugs TraceFacts TraceBugs TraceIndex.
Import ListNotations.

(** C94. Two histories of write calls on the same database, cancelled and failing calls included: if every Get answers the same afterwards, then the databases
    are the same, index entries and all keys outside of the table included.
    Missing: histories with repeated keys in a call or with Deletes of records that differ from the stored ones, false there, see [C94_stale_refuted]. *)
Theorem C94_no_history_partial : forall T F (tb : table T F), good_table tb -> forall h h' db fl m d1 f1 o1 d2 f2 o2,
  Forall (fun ec => env_ok (fst ec)) h -> Forall (fun ec => env_ok (fst ec)) h' -> consistent tb db fl m ->
  run_hist tb db fl h = (d1, f1, o1) -> admissible_hist (schema_of tb) m o1 -> run_hist tb db fl h' = (d2, f2, o2) -> admissible_hist (schema_of tb) m o2 ->
  (forall r, get_point tb d1 f1 None r = get_point tb d2 f2 None r) -> d1 = d2.
Proof. exact @no_history. Qed.
Print Assumptions C94_no_history_partial.

(** Row 8 inserted; row 8 inserted with other fields, inserted again in vain, and updated. *)
Example C94_no_history_case : Forall (fun ec : env acct * call acct => env_ok (fst ec)) way_1 /\ Forall (fun ec : env acct * call acct => env_ok (fst ec)) way_2 /\
  consistent accts abc_db tt abc_map /\
  run_hist accts abc_db tt way_1 = (with_8, tt, [(insert_8, true)]) /\ admissible_hist asc abc_map [(insert_8, true)] /\
  run_hist accts abc_db tt way_2 = (with_8, tt, [(CInsert [other_8], true); (insert_8, false); (CUpdate [row_8], true)]) /\
  admissible_hist asc abc_map [(CInsert [other_8], true); (insert_8, false); (CUpdate [row_8], true)] /\ length with_8 = length abc_db + 3.
Proof.
  split; [exact (proj1 ways_ok)|]. split; [exact (proj2 ways_ok)|]. split; [exact abc_stored|]. split; [exact way_1_run|]. split; [exact way_1_admissible|].
  split; [exact way_2_run|]. split; [exact way_2_admissible|vm_compute; reflexivity].
Qed.

(** C94. An Insert followed by the Delete of its rows leaves the database that was there before. *)
Theorem C94_insert_undone : forall T F (tb : table T F), good_table tb -> forall ev ev' l db fl m w w',
  env_ok ev -> env_ok ev' -> consistent tb db fl m -> admissible (schema_of tb) m (CInsert l) ->
  run_call tb ev db fl None (CInsert l) = (w, Ok tt) -> run_call tb ev' (r_db w) (r_flt w) None (CDelete l) = (w', Ok tt) -> r_db w' = db.
Proof. exact @insert_undone. Qed.
Print Assumptions C94_insert_undone.

Example C94_insert_undone_case : consistent accts abc_db tt abc_map /\ admissible asc abc_map (CInsert [row_8; Acct 9 12 1 true]) /\
  snd (run_call accts (demo_env 2) abc_db tt None (CInsert [row_8; Acct 9 12 1 true])) = Ok tt /\
  snd (run_call accts (demo_env 2) (left_by (CInsert [row_8; Acct 9 12 1 true]) abc_db) tt None (CDelete [row_8; Acct 9 12 1 true])) = Ok tt.
Proof.
  split; [exact abc_stored|]. split; [|split; vm_compute; reflexivity]. split; [apply acct_rows_ok|].
  constructor; [intros [E|[]]; revert E; vm_compute; discriminate|]. constructor; [intros []|constructor].
Qed.

(** C94. A Delete of stored rows followed by their Insert leaves the database that was there before. *)
Theorem C94_delete_undone : forall T F (tb : table T F), good_table tb -> forall ev ev' l db fl m w w',
  env_ok ev -> env_ok ev' -> consistent tb db fl m -> NoDup (map (s_pk (schema_of tb)) l) -> (forall r, In r l -> m (s_pk (schema_of tb) r) = Some r) ->
  run_call tb ev db fl None (CDelete l) = (w, Ok tt) -> run_call tb ev' (r_db w) (r_flt w) None (CInsert l) = (w', Ok tt) -> r_db w' = db.
Proof. exact @delete_undone. Qed.
Print Assumptions C94_delete_undone.

Example C94_delete_undone_case : consistent accts abc_db tt abc_map /\ NoDup (map (s_pk asc) abc) /\ (forall r, In r abc -> abc_map (s_pk asc r) = Some r) /\
  snd (run_call accts (demo_env 2) abc_db tt None (CDelete abc)) = Ok tt /\ left_by (CDelete abc) abc_db = [] /\
  snd (run_call accts (demo_env 2) [] tt None (CInsert abc)) = Ok tt.
Proof.
  split; [exact abc_stored|]. split; [exact abc_distinct|]. split; [exact abc_there|]. repeat split; vm_compute; reflexivity.
Qed.

(** C94. An Update followed by the Update with the rows that were stored leaves the database that was there before. *)
Theorem C94_update_undone : forall T F (tb : table T F), good_table tb -> forall ev ev' l olds db fl m w w',
  env_ok ev -> env_ok ev' -> consistent tb db fl m -> admissible (schema_of tb) m (CUpdate l) ->
  map (s_pk (schema_of tb)) olds = map (s_pk (schema_of tb)) l -> (forall r, In r olds -> m (s_pk (schema_of tb) r) = Some r) ->
  run_call tb ev db fl None (CUpdate l) = (w, Ok tt) -> run_call tb ev' (r_db w) (r_flt w) None (CUpdate olds) = (w', Ok tt) -> r_db w' = db.
Proof. exact @update_undone. Qed.
Print Assumptions C94_update_undone.

Example C94_update_undone_case : consistent accts abc_db tt abc_map /\ admissible asc abc_map (CUpdate [stale_1]) /\ map (s_pk asc) [stored_1] = map (s_pk asc) [stale_1] /\
  (forall r, In r [stored_1] -> abc_map (s_pk asc r) = Some r) /\ snd (run_call accts (demo_env 2) abc_db tt None (CUpdate [stale_1])) = Ok tt /\
  left_by (CUpdate [stale_1]) abc_db <> abc_db /\ snd (run_call accts (demo_env 2) (left_by (CUpdate [stale_1]) abc_db) tt None (CUpdate [stored_1])) = Ok tt.
Proof.
  split; [exact abc_stored|]. split; [exact (proj2 (one_row_admissible _ [stale_1] eq_refl))|]. split; [vm_compute; reflexivity|].
  split; [intros r [<-|[]]; vm_compute; reflexivity|]. split; [vm_compute; reflexivity|]. split; [vm_compute; discriminate|vm_compute; reflexivity].
Qed.

(** C94. An Update with the rows that are stored already changes nothing. *)
Theorem C94_nothing_new : forall T F (tb : table T F), good_table tb -> forall ev l db fl m w,
  env_ok ev -> consistent tb db fl m -> NoDup (map (s_pk (schema_of tb)) l) -> (forall r, In r l -> m (s_pk (schema_of tb) r) = Some r) ->
  run_call tb ev db fl None (CUpdate l) = (w, Ok tt) -> r_db w = db.
Proof. exact @nothing_new. Qed.
Print Assumptions C94_nothing_new.

Example C94_nothing_new_case : consistent accts abc_db tt abc_map /\ NoDup (map (s_pk asc) abc) /\ (forall r, In r abc -> abc_map (s_pk asc r) = Some r) /\
  snd (run_call accts (demo_env 2) abc_db tt None (CUpdate abc)) = Ok tt.
Proof. split; [exact abc_stored|]. split; [exact abc_distinct|]. split; [exact abc_there|vm_compute; reflexivity]. Qed.

(** C94. An index that is added with reindexing after any history is, byte by byte, as if it had been there from the beginning, with any other history after
    which every Get answers the same.
    Missing: indexes with id 255, which ReIndex does not clear first (C36). *)
Theorem C94_index_later_partial : forall T F (tb : table T F), good_table tb -> forall idxs, good_table (with_indexes tb (t_indexes tb ++ idxs)) ->
  forall rev h h' db fl fl' m d1 f1 o1 d2 f2 o2, let tb' := with_indexes tb (t_indexes tb ++ idxs) in
  Forall (fun ec => env_ok (fst ec)) h -> Forall (fun ec => env_ok (fst ec)) h' -> consistent tb db fl m -> consistent tb' db fl' m ->
  run_hist tb db fl h = (d1, f1, o1) -> admissible_hist (schema_of tb) m o1 -> run_hist tb' db fl' h' = (d2, f2, o2) -> admissible_hist (schema_of tb') m o2 ->
  (forall r, get_point tb d1 f1 None r = get_point tb' d2 f2 None r) -> (forall n, r_write rev n = true) -> (forall ix, In ix idxs -> ix_id ix <> xff) ->
  add_index_call rev tb (IxState (t_indexes tb) false) d1 idxs true = (IxState (t_indexes tb ++ idxs) false, d2, Ok tt).
Proof. exact @index_later. Qed.
Print Assumptions C94_index_later_partial.

(** Three rows, and then an index on their flag; the index, and then the rows in two calls. *)
Example C94_index_later_case : good_table accts /\ good_table (more_accts x05) /\ consistent accts [] tt empty_map /\ consistent (more_accts x05) [] tt empty_map /\
  Forall (fun ec : env acct * call acct => env_ok (fst ec)) rows_first /\ Forall (fun ec : env acct * call acct => env_ok (fst ec)) index_first /\
  run_hist accts [] tt rows_first = (abc_db, tt, [(CInsert abc, true)]) /\ admissible_hist asc empty_map [(CInsert abc, true)] /\
  run_hist (more_accts x05) [] tt index_first = (flag_db, tt, [(CInsert (tl abc), true); (CInsert (firstn 1 abc), true)]) /\
  admissible_hist (schema_of (more_accts x05)) empty_map [(CInsert (tl abc), true); (CInsert (firstn 1 abc), true)] /\
  (forall r, get_point accts abc_db tt None r = get_point (more_accts x05) flag_db tt None r) /\ length flag_db = length abc_db + 3.
Proof.
  split; [exact accts_good|]. split; [exact flag_good|]. split; [exact accts_empty|]. split; [exact flag_empty|].
  split; [constructor; [exact demo2|constructor]|]. split; [constructor; [exact demo2|constructor; [exact demo2|constructor]]|].
  split; [exact rows_first_run|]. split; [exact rows_first_admissible|]. split; [exact index_first_run|]. split; [exact index_first_admissible|].
  split; [exact flag_gets|vm_compute; reflexivity].
Qed.

(** C94, refuted for a Delete given a record with another score: every Get answers as after the right Delete, and two index entries are left. *)
Theorem C94_stale_refuted : exists a b : acct, s_pk asc a = s_pk asc b /\ consistent accts abc_db tt abc_map /\
  snd (run_call accts (demo_env 2) abc_db tt None (CDelete [a])) = Ok tt /\ snd (run_call accts (demo_env 2) abc_db tt None (CDelete [b])) = Ok tt /\
  (forall r, get_point accts (left_by (CDelete [a]) abc_db) tt None r = get_point accts (left_by (CDelete [b]) abc_db) tt None r) /\
  length (left_by (CDelete [a]) abc_db) = length (left_by (CDelete [b]) abc_db) + 2.
Proof. exact (ex_intro _ stale_1 (ex_intro _ stored_1 (conj eq_refl (conj abc_stored stale_residue)))). Qed.
Print Assumptions C94_stale_refuted.
