(** Property C85: what calls that fail leave in their batch. *)

From Coq Require Import List NArith Lia Bool Arith.
From Verif.Model Require Import Bytes Go Keys Pebble Index Table Scan.
From Verif.Spec Require Import KeySpec StoreSpec TableSpec HistSpec ScanSpec PartSpec.
From Verif.Proofs Require Import Witness TableBugs ScanBugs BatchPart BatchPartBugs.
Import ListNotations.

(** C85. A call with a batch, however it ends, leaves the database alone and does to the batch
    what a call with the rows it has handled does: rows, index entries and filter agree. *)
Theorem C85_call_does_a_part_partial : forall (T F : Type) (tb : table T F), good_table tb ->
  forall ev c db fl b m w res, env_ok ev -> kv_ok db -> b_rw b = true ->
  consistent tb (view db (Some b)) fl m -> admissible (schema_of tb) m c -> run_call tb ev db fl (Some b) c = (w, res) ->
  exists b' L l1, r_batch w = Some b' /\ b_rw b' = true /\ r_db w = db /\
    in_order (schema_of tb) (e_chunk ev) c L /\ handles (schema_of tb) (e_ctx ev) m c L l1 res /\
    consistent tb (view db (Some b')) (r_flt w) (effect (schema_of tb) m (with_rows c l1)) /\
    same_outside (schema_of tb) (view db (Some b)) (view db (Some b')).
Proof. exact @batch_call_part. Qed.
Print Assumptions C85_call_does_a_part_partial.

(** C85. Any number of calls with one batch, of which any fail. *)
Theorem C85_batch_stays_consistent_partial : forall (T F : Type) (tb : table T F), good_table tb ->
  forall h db fl b m b' fl' oks, Forall (fun ec => env_ok (fst ec)) h -> kv_ok db -> b_rw b = true ->
  consistent tb (view db (Some b)) fl m -> fit (schema_of tb) m (map (fun ec => (e_chunk (fst ec), snd ec)) h) ->
  run_batch_hist tb db fl b h = (b', fl', oks) ->
  map fst oks = map snd h /\ b_rw b' = true /\
  exists m', parts (schema_of tb) (map (fun ec => e_chunk (fst ec)) h) m oks m' /\ consistent tb (view db (Some b')) fl' m' /\
    same_outside (schema_of tb) (view db (Some b)) (view db (Some b')).
Proof. exact @batch_hist_part. Qed.
Print Assumptions C85_batch_stays_consistent_partial.

(** C85. So committing a new batch after calls on it have failed leaves a consistent
    table, with the rows of parts of the calls that failed. *)
Theorem C85_commit_after_failures_partial : forall (T F : Type) (tb : table T F), good_table tb ->
  forall h db fl m b' fl' oks, Forall (fun ec => env_ok (fst ec)) h -> consistent tb db fl m ->
  fit (schema_of tb) m (map (fun ec => (e_chunk (fst ec), snd ec)) h) ->
  run_batch_hist tb db fl (Batch true []) h = (b', fl', oks) ->
  exists m', parts (schema_of tb) (map (fun ec => e_chunk (fst ec)) h) m oks m' /\
    consistent tb (apply_ops db (b_ops b')) fl' m' /\ same_outside (schema_of tb) db (apply_ops db (b_ops b')).
Proof. exact @committed_part. Qed.
Print Assumptions C85_commit_after_failures_partial.

Example C85_case : Forall (fun ec => env_ok (fst ec)) halves /\ consistent accts abc_db tt (puts asc empty_map abc) /\
  fit asc (puts asc empty_map abc) (map (fun ec => (e_chunk (fst ec), snd ec)) halves) /\
  exists b oks, run_batch_hist accts abc_db tt (Batch true []) halves = (b, tt, oks) /\ map snd oks = [false; false; true; false] /\
  forall fuel, 7 <= fuel -> scan accts env1 fuel (apply_ops abc_db (b_ops b)) tt [] false NoBatch =
    ([Acct 0 3 3 true; Acct 2 11 0 false; Acct 3 10 5 true; Acct 4 9 9 true; Acct 5 8 8 true], Ok tt).
Proof. exact (conj halves_env (conj abc_stored (conj halves_fit halves_run))). Qed.

(** C85 is false as stated: an Insert returns an error, and after the commit of its batch one of its rows is stored. *)
Theorem C85_failed_call_leaves_nothing_refuted : exists ev c b r, env_ok ev /\
  run_batch_hist accts abc_db tt (Batch true []) [(ev, c)] = (b, tt, [(c, false)]) /\ In r (rows_of c) /\
  get_point accts abc_db tt None r = Err ENotFound /\ get_point accts (apply_ops abc_db (b_ops b)) tt None r = Ok r.
Proof. exact row_left_behind. Qed.
Print Assumptions C85_failed_call_leaves_nothing_refuted.
