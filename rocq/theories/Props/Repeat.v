(** Properties C14, C15, C17: calls given a primary key in several of their chunks. *)

From Coq Require Import List NArith Lia Bool Arith.
From Verif.Model Require Import Bytes Go Keys Pebble Index Table Scan.
From Verif.Spec Require Import KeySpec TableSpec HistSpec RepeatSpec.
From Verif.Proofs Require Import Witness TableBugs ScanBugs Repeats RepeatBugs.
Import ListNotations.

(** C14. What every Insert that succeeds leaves, whatever rows it was given: the last
    version of each row, and the entries of all versions. Missing against C14: the
    Insert should not succeed when a key is repeated. *)
Theorem C14_insert_leaves_partial : forall (T F : Type) (tb : table T F), good_table tb -> forall ev, env_ok ev ->
  forall db fl m rows w, consistent tb db fl m -> Forall (row_ok (schema_of tb)) rows ->
  insert tb ev db fl None rows = (w, Ok tt) -> RepVersions (schema_of tb) m rows (r_db w).
Proof. exact @insert_any_rows. Qed.
Print Assumptions C14_insert_leaves_partial.

(** chunks of two, the first key comes again in the second chunk *)
Example C14_leaves_case :
  exists w, insert accts (demo_env 2) [] tt None [Acct 1 10 6 true; Acct 2 11 0 true; Acct 1 12 6 true] = (w, Ok tt) /\
    get_point accts (r_db w) tt None (Acct 1 0 0 true) = Ok (Acct 1 12 6 true) /\
    kv_get (r_db w) (entry_key asc (sindex_of acct_by_kind) (Acct 1 10 6 true)) = Some [] /\
    kv_get (r_db w) (entry_key asc (sindex_of acct_by_kind) (Acct 1 12 6 true)) = Some [].
Proof. eexists. split; [vm_compute; reflexivity|]. repeat split; vm_compute; reflexivity. Qed.

(** C15. What every Update that succeeds leaves, whatever rows it was given: it takes
    one version of each key from every chunk. The last one is stored. Missing against
    C15: the indexes should follow the stored version. *)
Theorem C15_update_leaves_partial : forall (T F : Type) (tb : table T F), good_table tb -> forall ev, env_ok ev ->
  forall db fl m rows cs w, consistent tb db fl m -> Forall (row_ok (schema_of tb)) rows -> is_chunks (e_chunk ev) rows cs ->
  update tb ev db fl None rows = (w, Ok tt) ->
  exists wss, Forall2 (one_each (schema_of tb)) cs wss /\ RepVersions (schema_of tb) m (concat wss) (r_db w).
Proof. exact @update_any_rows. Qed.
Print Assumptions C15_update_leaves_partial.

(** C15. Refuted: for every chunk size an Update that succeeds and after which a stored
    row has no entry in an index that it belongs to. *)
Theorem C15_update_loses_entry_refuted : forall n, 1 <= n -> (N.of_nat n < 2 ^ 64)%N ->
  exists db m rows w, consistent accts db tt m /\ length rows = S n /\
    update accts (demo_env n) db tt None rows = (w, Ok tt) /\
    kv_get (r_db w) (row_key asc (s_pk asc (Acct 0 0 0 true))) = s_val asc (Acct 0 0 0 true) /\
    si_filter (sindex_of acct_by_kind) (Acct 0 0 0 true) = true /\
    kv_get (r_db w) (entry_key asc (sindex_of acct_by_kind) (Acct 0 0 0 true)) = None.
Proof. exact update_loses_entry. Qed.
Print Assumptions C15_update_loses_entry_refuted.

(** the row is there and no scan of the index finds it *)
Example C15_leaves_case :
  exists w, update accts (demo_env 1) one_stored tt None [Acct 1 11 0 true; Acct 1 10 0 true] = (w, Ok tt) /\
    get_point accts (r_db w) tt None (Acct 1 0 0 true) = Ok (Acct 1 10 0 true) /\
    scan_index accts env1 9 (r_db w) tt acct_by_kind (SRange (Acct 0 10 99 true) (Acct 9 10 0 true)) [] false NoBatch = ([], Ok tt).
Proof. eexists. split; [vm_compute; reflexivity|]. split; vm_compute; reflexivity. Qed.

(** C17. What every Upsert that succeeds leaves if no key is repeated within a chunk:
    every version is merged with the row stored before the call, not with the versions
    of earlier chunks. *)
Theorem C17_upsert_leaves_partial : forall (T F : Type) (tb : table T F), good_table tb -> forall ev, env_ok ev ->
  forall f db fl m rows cs w, consistent tb db fl m -> Forall (row_ok (schema_of tb)) rows -> is_chunks (e_chunk ev) rows cs ->
  Forall (fun c => NoDup (map (s_pk (schema_of tb)) c)) cs ->
  (forall old r, s_pk (schema_of tb) old = s_pk (schema_of tb) r -> row_ok (schema_of tb) old -> row_ok (schema_of tb) r ->
     s_pk (schema_of tb) (f old r) = s_pk (schema_of tb) r /\ row_ok (schema_of tb) (f old r)) ->
  upsert tb ev f db fl None rows = (w, Ok tt) ->
  RepVersions (schema_of tb) m
    (map (fun r => match m (s_pk (schema_of tb) r) with Some old => f old r | None => r end) rows) (r_db w).
Proof. exact @upsert_any_chunks. Qed.
Print Assumptions C17_upsert_leaves_partial.

(** adding up scores in chunks of one: the first addition is lost *)
Example C17_leaves_case :
  let add := fun old new => Acct (a_id old) (a_kind old) (a_score old + a_score new) true in
  exists w, upsert accts (demo_env 1) add one_stored tt None [Acct 1 10 5 true; Acct 1 10 7 true] = (w, Ok tt) /\
    get_point accts (r_db w) tt None (Acct 1 0 0 true) = Ok (Acct 1 10 7 true) /\
    kv_get (r_db w) (entry_key asc (sindex_of acct_by_score) (Acct 1 10 5 true)) = Some [].
Proof. eexists. split; [vm_compute; reflexivity|]. split; vm_compute; reflexivity. Qed.
