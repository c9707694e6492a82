(** Properties C12-C21, C31, C32, C44, C55, C57, C58: write calls, point reads,
    histories, isolation of tables, batches, filters. *)

From Coq Require Import List NArith Lia Bool Arith.
From Verif.Model Require Import Bytes Go Keys Pebble Index Table.
From Verif.Spec Require Import KeySpec StoreSpec TableSpec HistSpec.
From Verif.Proofs Require Import UpsertAll UpsertKeep PebbleFacts WriteFacts ReadFacts HistFacts FilterSim FoldFacts UpsertFacts UnsafeFacts Witness TableProps TableBugs RowSim AnyDelete.
Import ListNotations.

(** C12. Insert of new rows adds exactly them. *)
Theorem C12_insert_adds_rows : forall (T F : Type) (tb : table T F), good_table tb -> forall ev, env_ok ev ->
  forall db fl m rows, quiet ev -> consistent tb db fl m ->
  Forall (row_ok (schema_of tb)) rows -> NoDup (map (s_pk (schema_of tb)) rows) ->
  (forall r, In r rows -> m (s_pk (schema_of tb) r) = None /\ s_val (schema_of tb) r <> None) ->
  exists w, insert tb ev db fl None rows = (w, Ok tt) /\
    consistent tb (r_db w) (r_flt w) (puts (schema_of tb) m rows) /\ same_outside (schema_of tb) db (r_db w).
Proof. exact @insert_ok. Qed.
Print Assumptions C12_insert_adds_rows.

Example C12_case : consistent accts [] tt empty_map /\ NoDup (map (s_pk asc) abc) /\
  (forall r, In r abc -> (empty_map : tmap acct) (s_pk asc r) = None /\ s_val asc r <> None) /\
  snd (insert accts (demo_env 2) [] tt None abc) = Ok tt /\ length abc_db = 8 /\
  get_point accts abc_db tt None (Acct 2 0 0 true) = Ok (Acct 2 11 0 false).
Proof.
  split; [exact accts_empty|]. split; [exact abc_nodup|]. split; [exact abc_new|]. split; [vm_compute; reflexivity|].
  split; vm_compute; reflexivity.
Qed.

(** C12. If some primary key is present, Insert reports one that is present (or repeated) and changes nothing. *)
Theorem C12_insert_present_fails : forall (T F : Type) (tb : table T F), good_table tb -> forall ev, env_ok ev ->
  forall db fl m rows r0, quiet ev -> consistent tb db fl m ->
  (forall r, In r rows -> s_val (schema_of tb) r <> None) -> In r0 rows -> m (s_pk (schema_of tb) r0) <> None ->
  exists w r, insert tb ev db fl None rows = (w, Err (EExists ([x00; x00; x00; x00] ++ s_pk (schema_of tb) r))) /\
    r_db w = db /\ In r rows /\ (m (s_pk (schema_of tb) r) <> None \/ repeated (schema_of tb) rows (s_pk (schema_of tb) r)).
Proof. exact @insert_present. Qed.
Print Assumptions C12_insert_present_fails.

Example C12_present_case : puts asc empty_map abc (s_pk asc (Acct 1 99 0 true)) <> None /\
  exists w, insert accts (demo_env 2) abc_db tt None [Acct 9 0 0 true; Acct 1 99 0 true]
            = (w, Err (EExists ([x00; x00; x00; x00] ++ s_pk asc (Acct 1 99 0 true)))) /\ r_db w = abc_db.
Proof. split; [vm_compute; discriminate|]. eexists. split; vm_compute; reflexivity. Qed.

(** C12/C14. All outcomes of Insert without a batch, for any rows and any cancellation. *)
Theorem C12_insert_outcomes : forall (T F : Type) (tb : table T F), good_table tb -> forall ev, env_ok ev ->
  forall db fl m rows w res, consistent tb db fl m -> insert tb ev db fl None rows = (w, res) ->
  let sc := schema_of tb in
  (res = Ok tt /\ (forall r, In r rows -> m (s_pk sc r) = None /\ s_val sc r <> None) /\
     (forall i, i < length rows -> e_ctx ev i = false) /\
     (forall cs, is_chunks (e_chunk ev) rows cs -> Forall (fun c => NoDup (map (s_pk sc) c)) cs)) \/
  (exists e, res = Err e /\ r_db w = db /\
    (e = ECtx /\ (exists i, i < length rows /\ e_ctx ev i = true) \/
     e = ESerialize /\ (exists r, In r rows /\ s_val sc r = None) \/
     e = ECommit /\ e_commit ev = false \/
     exists r, In r rows /\ e = EExists ([x00; x00; x00; x00] ++ s_pk sc r) /\ (m (s_pk sc r) <> None \/ repeated sc rows (s_pk sc r)))).
Proof. exact @insert_any. Qed.
Print Assumptions C12_insert_outcomes.

(** C13. A failed call without external batch leaves the database untouched. *)
Theorem C13_failed_call_changes_nothing : forall (T F : Type) (tb : table T F) ev db fl c w res,
  run_call tb ev db fl None c = (w, res) -> res <> Ok tt -> r_db w = db.
Proof. exact @failed_call. Qed.
Print Assumptions C13_failed_call_changes_nothing.

Theorem C13_failed_unsafe_call_changes_nothing : forall (T F : Type) (tb : table T F) ev db fl rows olds w res,
  unsafe_insert tb ev db fl None rows = (w, res) \/ unsafe_update tb ev db fl None rows olds = (w, res) ->
  res <> Ok tt -> r_db w = db.
Proof. exact @failed_unsafe. Qed.
Print Assumptions C13_failed_unsafe_call_changes_nothing.

(** C13. Cancellation noticed at any row makes the call fail (hence change nothing). *)
Theorem C13_cancelled_call_fails : forall (T F : Type) (tb : table T F) ev, env_ok ev ->
  forall db fl ob rows olds w i, i < length rows -> e_ctx ev i = true ->
  insert tb ev db fl ob rows <> (w, Ok tt) /\ update tb ev db fl ob rows <> (w, Ok tt) /\
  delete tb ev db fl ob rows <> (w, Ok tt) /\ unsafe_insert tb ev db fl ob rows <> (w, Ok tt) /\
  unsafe_update tb ev db fl ob rows olds <> (w, Ok tt).
Proof. exact @calls_cancelled. Qed.
Print Assumptions C13_cancelled_call_fails.

Theorem C13_cancelled_upsert_fails : forall (T F : Type) (tb : table T F), good_table tb -> forall ev, env_ok ev ->
  forall f db fl m rows w i, consistent tb db fl m -> admissible (schema_of tb) m (CUpsert f rows) ->
  i < length rows -> e_ctx ev i = true -> upsert tb ev f db fl None rows <> (w, Ok tt).
Proof. exact @upsert_cancelled. Qed.
Print Assumptions C13_cancelled_upsert_fails.

(** cancelled at the third of three rows (second chunk): an error and no row stored *)
Example C13_case : env_ok (cancel_at 2) /\
  exists w, insert accts (cancel_at 2) [] tt None abc = (w, Err ECtx) /\ r_db w = [] /\
  exists w', upsert accts (cancel_at 2) newest abc_db tt None abc = (w', Err ECtx) /\ r_db w' = abc_db.
Proof. split; [apply cancel_at_ok|]. eexists. split; [vm_compute; reflexivity|]. split; [reflexivity|]. eexists. split; vm_compute; reflexivity. Qed.

(** C14. Refuted: for every chunk size n (5000 in the code) there are n+1 rows with a
    repeated primary key that Insert accepts, and the table is inconsistent afterwards. *)
Theorem C14_repeated_key_accepted_refuted : forall n, 1 <= n -> (N.of_nat n < 2 ^ 64)%N ->
  exists rows w, length rows = S n /\ repeated asc rows (s_pk asc (Acct 0 0 0 true)) /\
    insert accts (demo_env n) [] tt None rows = (w, Ok tt) /\ (forall m', ~ Rep asc (r_db w) m').
Proof. exact insert_repeated_accepted. Qed.
Print Assumptions C14_repeated_key_accepted_refuted.

(** C14. What holds: a repetition within one chunk is rejected, and so is any
    repetition when the call goes through a read-write batch. Missing: repetitions
    in different chunks of a call without a read-write batch. *)
Theorem C14_repeated_key_in_chunk_partial : forall (T F : Type) (tb : table T F), good_table tb -> forall ev, env_ok ev ->
  forall db fl m rows cs c, consistent tb db fl m ->
  is_chunks (e_chunk ev) rows cs -> In c cs -> ~ NoDup (map (s_pk (schema_of tb)) c) ->
  exists w e, insert tb ev db fl None rows = (w, Err e) /\ r_db w = db.
Proof. exact @insert_repeated_in_chunk. Qed.
Print Assumptions C14_repeated_key_in_chunk_partial.

Theorem C14_repeated_key_in_batch_partial : forall (T F : Type) (tb : table T F), good_table tb -> forall ev, env_ok ev ->
  forall db fl m rows b, kv_ok db -> b_rw b = true -> consistent tb (view db (Some b)) fl m ->
  Forall (row_ok (schema_of tb)) rows -> ~ NoDup (map (s_pk (schema_of tb)) rows) ->
  exists w e, insert tb ev db fl (Some b) rows = (w, Err e) /\ r_db w = db.
Proof. exact @insert_repeated_batch. Qed.
Print Assumptions C14_repeated_key_in_batch_partial.

(** three rows in chunks of two: the repetition 1 ... 1 is found through a
    read-write batch, and not without *)
Example C14_case :
  let rows := [Acct 1 10 0 true; Acct 2 10 0 true; Acct 1 11 0 true] in
  snd (insert accts (demo_env 3) [] tt None rows) = Err (EExists ([x00; x00; x00; x00] ++ s_pk asc (Acct 1 0 0 true))) /\
  snd (insert accts (demo_env 2) [] tt (Some (Batch true [])) rows) = Err (EExists ([x00; x00; x00; x00] ++ s_pk asc (Acct 1 0 0 true))) /\
  snd (insert accts (demo_env 2) [] tt None rows) = Ok tt.
Proof. repeat split; vm_compute; reflexivity. Qed.

(** C15. Update of present rows replaces exactly them. *)
Theorem C15_update_replaces_rows : forall (T F : Type) (tb : table T F), good_table tb -> forall ev, env_ok ev ->
  forall db fl m rows, quiet ev -> consistent tb db fl m ->
  Forall (row_ok (schema_of tb)) rows -> NoDup (map (s_pk (schema_of tb)) rows) ->
  (forall r, In r rows -> m (s_pk (schema_of tb) r) <> None /\ s_val (schema_of tb) r <> None) ->
  exists w, update tb ev db fl None rows = (w, Ok tt) /\
    consistent tb (r_db w) (r_flt w) (puts (schema_of tb) m rows) /\ same_outside (schema_of tb) db (r_db w).
Proof. exact @update_ok. Qed.
Print Assumptions C15_update_replaces_rows.

(** C15. Repeated keys within one chunk: one of the given versions is stored, indexes follow it. *)
Theorem C15_update_repeated_keys : forall (T F : Type) (tb : table T F), good_table tb -> forall ev, env_ok ev ->
  forall db fl m rows, quiet ev -> consistent tb db fl m ->
  Forall (row_ok (schema_of tb)) rows -> length rows <= e_chunk ev ->
  (forall r, In r rows -> m (s_pk (schema_of tb) r) <> None /\ s_val (schema_of tb) r <> None) ->
  exists w m', update tb ev db fl None rows = (w, Ok tt) /\ consistent tb (r_db w) (r_flt w) m' /\
    (forall p, (exists r, In r rows /\ s_pk (schema_of tb) r = p /\ m' p = Some r) \/
               ((forall r, In r rows -> s_pk (schema_of tb) r <> p) /\ m' p = m p)) /\
    same_outside (schema_of tb) db (r_db w).
Proof. exact @update_repeated. Qed.
Print Assumptions C15_update_repeated_keys.

(** C15. The same for any number of rows through a read-write batch. *)
Theorem C15_update_repeated_keys_in_batch : forall (T F : Type) (tb : table T F), good_table tb -> forall ev, env_ok ev ->
  forall db fl m rows b, kv_ok db -> b_rw b = true -> quiet ev -> consistent tb (view db (Some b)) fl m ->
  Forall (row_ok (schema_of tb)) rows ->
  (forall r, In r rows -> m (s_pk (schema_of tb) r) <> None /\ s_val (schema_of tb) r <> None) ->
  exists w b' m', update tb ev db fl (Some b) rows = (w, Ok tt) /\ r_db w = db /\ r_batch w = Some b' /\
    consistent tb (view db (Some b')) (r_flt w) m' /\
    (forall p, (exists r, In r rows /\ s_pk (schema_of tb) r = p /\ m' p = Some r) \/
               ((forall r, In r rows -> s_pk (schema_of tb) r <> p) /\ m' p = m p)).
Proof. exact @update_repeated_batch. Qed.
Print Assumptions C15_update_repeated_keys_in_batch.

(** Row 2 given twice, in one chunk of three and in chunks of one into a batch: one of the two versions is stored, with its entry and not the other's. *)
Example C15_repeated_case : let rows := [Acct 2 10 7 true; Acct 1 12 0 true; Acct 2 13 1 true] in
  (forall r, In r rows -> puts asc empty_map abc (s_pk asc r) <> None /\ s_val asc r <> None) /\ ~ NoDup (map (s_pk asc) rows) /\
  (exists w, update accts (demo_env 3) abc_db tt None rows = (w, Ok tt) /\
    get_point accts (r_db w) tt None (Acct 2 0 0 true) = Ok (Acct 2 13 1 true) /\
    kv_get (r_db w) (entry_key asc (sindex_of acct_by_kind) (Acct 2 13 1 true)) = Some [] /\
    kv_get (r_db w) (entry_key asc (sindex_of acct_by_kind) (Acct 2 10 7 true)) = None) /\
  (exists w b, update accts (demo_env 1) abc_db tt (Some (Batch true [])) rows = (w, Ok tt) /\ r_batch w = Some b /\ r_db w = abc_db /\
    get_point accts (r_db w) tt (Some b) (Acct 2 0 0 true) = Ok (Acct 2 13 1 true) /\
    kv_get (view (r_db w) (Some b)) (entry_key asc (sindex_of acct_by_kind) (Acct 2 10 7 true)) = None).
Proof.
  cbn zeta. split; [intros r [<-|[<-|[<-|[]]]]; (split; vm_compute; discriminate)|].
  split; [intros N; apply NoDup_cons_iff in N; apply (proj1 N); right; left; reflexivity|].
  split; [eexists; split; [vm_compute; reflexivity|]; repeat split; vm_compute; reflexivity|].
  eexists _, _. split; [vm_compute; reflexivity|]. split; [reflexivity|]. repeat split; vm_compute; reflexivity.
Qed.

Theorem C15_update_missing_fails : forall (T F : Type) (tb : table T F), good_table tb -> forall ev, env_ok ev ->
  forall db fl m rows r0, quiet ev -> consistent tb db fl m ->
  (forall r, In r rows -> s_val (schema_of tb) r <> None) -> In r0 rows -> m (s_pk (schema_of tb) r0) = None ->
  exists w r, update tb ev db fl None rows = (w, Err (EMissing ([x00; x00; x00; x00] ++ s_pk (schema_of tb) r))) /\
    r_db w = db /\ In r rows /\ m (s_pk (schema_of tb) r) = None.
Proof. exact @update_missing. Qed.
Print Assumptions C15_update_missing_fails.

(** C15. Refuted without the distinctness: for every chunk size n an update of n+1
    present rows that succeeds and leaves the indexes inconsistent. *)
Theorem C15_update_across_chunks_refuted : forall n, 1 <= n -> (N.of_nat n < 2 ^ 64)%N ->
  exists db m rows w, consistent accts db tt m /\ length rows = S n /\
    (forall r, In r rows -> m (s_pk asc r) <> None /\ s_val asc r <> None) /\
    update accts (demo_env n) db tt None rows = (w, Ok tt) /\ (forall m', ~ Rep asc (r_db w) m').
Proof. exact update_repeated_breaks. Qed.
Print Assumptions C15_update_across_chunks_refuted.

Example C15_case :
  let rows := [Acct 2 10 7 true; Acct 3 12 5 false] in
  (forall r, In r rows -> puts asc empty_map abc (s_pk asc r) <> None /\ s_val asc r <> None) /\
  exists w, update accts (demo_env 1) abc_db tt None rows = (w, Ok tt) /\
    kv_get (r_db w) (entry_key asc (sindex_of acct_by_kind) (Acct 2 10 7 true)) = Some [] /\
    kv_get (r_db w) (entry_key asc (sindex_of acct_by_kind) (Acct 3 10 5 true)) = None /\
    kv_get (r_db w) (entry_key asc (sindex_of acct_by_kind) (Acct 1 10 6 true)) = Some [] /\
    snd (update accts (demo_env 1) abc_db tt None [Acct 2 10 7 true; Acct 8 0 0 true])
      = Err (EMissing ([x00; x00; x00; x00] ++ s_pk asc (Acct 8 0 0 true))).
Proof.
  cbn zeta. split.
  - intros r [<-|[<-|[]]]; (split; vm_compute; discriminate).
  - eexists. split; [vm_compute; reflexivity|]. repeat split; vm_compute; reflexivity.
Qed.

(** C16. Upsert with distinct keys inserts the absent rows and merges the present ones. *)
Theorem C16_upsert_merges_rows : forall (T F : Type) (tb : table T F), good_table tb -> forall ev, env_ok ev ->
  forall f db fl m rows, quiet ev -> consistent tb db fl m ->
  Forall (row_ok (schema_of tb)) rows -> NoDup (map (s_pk (schema_of tb)) rows) ->
  (forall old r, s_pk (schema_of tb) old = s_pk (schema_of tb) r -> row_ok (schema_of tb) old -> row_ok (schema_of tb) r ->
     s_pk (schema_of tb) (f old r) = s_pk (schema_of tb) r /\ row_ok (schema_of tb) (f old r)) ->
  (forall r, In r rows -> s_val (schema_of tb) (match m (s_pk (schema_of tb) r) with Some old => f old r | None => r end) <> None) ->
  exists w, upsert tb ev f db fl None rows = (w, Ok tt) /\
    consistent tb (r_db w) (r_flt w) (merges (schema_of tb) f m rows) /\ same_outside (schema_of tb) db (r_db w).
Proof. exact @upsert_ok. Qed.
Print Assumptions C16_upsert_merges_rows.

(** the scores of row 1 are added up, row 9 is new *)
Example C16_case :
  let f old new := Acct (a_id new) (a_kind new) (a_score old + a_score new) (a_on new) in
  exists w, upsert accts (demo_env 2) f abc_db tt None [Acct 9 5 5 true; Acct 1 10 4 true] = (w, Ok tt) /\
    get_point accts (r_db w) tt None (Acct 1 0 0 true) = Ok (Acct 1 10 10 true) /\
    get_point accts (r_db w) tt None (Acct 9 0 0 true) = Ok (Acct 9 5 5 true) /\
    kv_get (r_db w) (entry_key asc (sindex_of acct_by_kind) (Acct 1 10 6 true)) = None /\
    kv_get (r_db w) (entry_key asc (sindex_of acct_by_kind) (Acct 1 10 10 true)) = Some [].
Proof. cbn zeta. eexists. split; [vm_compute; reflexivity|]. repeat split; vm_compute; reflexivity. Qed.

(** C17. Refuted: with a repeated key another row of the call is stored under the key,
    even though onConflict keeps primary keys. *)
Theorem C17_upsert_stores_other_row_refuted : exists rows a b w,
  (forall old r, s_pk asc (newest old r) = s_pk asc r) /\ In a rows /\
  upsert accts (demo_env 10) newest [] tt None rows = (w, Ok tt) /\
  get_point accts (r_db w) tt None a = Ok b /\ a_id b <> a_id a.
Proof. exact upsert_wrong_row. Qed.
Print Assumptions C17_upsert_stores_other_row_refuted.

(** C17. Refuted: repeating a stored key leaves the index entry of the old version behind. *)
Theorem C17_upsert_stale_entry_refuted : exists m rows w, consistent accts one_stored tt m /\
  upsert accts (demo_env 10) newest one_stored tt None rows = (w, Ok tt) /\ (forall m', ~ Rep asc (r_db w) m').
Proof. exact upsert_stale_entry. Qed.
Print Assumptions C17_upsert_stale_entry_refuted.

(** C17. What holds: the fold, when the rows come sorted by key, fit one chunk and
    only absent keys are repeated. Missing: the other cases, refuted above. *)
Theorem C17_upsert_folds_partial : forall (T F : Type) (tb : table T F), good_table tb -> forall ev, env_ok ev ->
  forall f db fl m rows, quiet ev -> consistent tb db fl m -> Forall (row_ok (schema_of tb)) rows ->
  (forall old r, s_pk (schema_of tb) old = s_pk (schema_of tb) r -> row_ok (schema_of tb) old -> row_ok (schema_of tb) r ->
     s_pk (schema_of tb) (f old r) = s_pk (schema_of tb) r /\ row_ok (schema_of tb) (f old r)) ->
  length rows <= e_chunk ev -> e_sort ev (map (data_key tb) rows) = seq 0 (length rows) ->
  (forall r, In r rows -> m (s_pk (schema_of tb) r) <> None -> ~ repeated (schema_of tb) rows (s_pk (schema_of tb) r)) ->
  (forall p x, merges (schema_of tb) f m rows p = Some x -> s_val (schema_of tb) x <> None) ->
  exists w, upsert tb ev f db fl None rows = (w, Ok tt) /\
    Rep (schema_of tb) (r_db w) (merges (schema_of tb) f m rows) /\ same_outside (schema_of tb) db (r_db w).
Proof. exact @upsert_folds_good. Qed.
Print Assumptions C17_upsert_folds_partial.

(** four sorted rows, key 4 three times: the scores are folded *)
Example C17_case :
  let f old new := Acct (a_id new) (a_kind new) (a_score old + a_score new) (a_on new) in
  let rows := [Acct 2 11 1 true; Acct 4 10 1 true; Acct 4 10 2 true; Acct 4 11 3 true] in
  e_sort (demo_env 5 : env acct) (map (data_key accts) rows) = seq 0 4 /\ repeated asc rows (s_pk asc (Acct 4 0 0 true)) /\
  exists w, upsert accts (demo_env 5) f abc_db tt None rows = (w, Ok tt) /\
    get_point accts (r_db w) tt None (Acct 4 0 0 true) = Ok (Acct 4 11 6 true).
Proof.
  cbn zeta. split; [vm_compute; reflexivity|]. split; [vm_compute; lia|]. eexists. split; vm_compute; reflexivity.
Qed.

(** C17. What every call of one chunk stores under every key, whatever rows it is given in whatever order, repeated or not, and whatever
    onConflict does: see [upserted]. Directly or through a read-write batch. Missing: the index entries (refuted above), several chunks. *)
Theorem C17_what_is_stored_partial : forall (T F : Type) (tb : table T F), good_table tb -> forall ev, env_ok ev ->
  forall f db fl ob m rows, quiet ev -> kv_ok db -> consistent tb (view db ob) fl m -> readable ob -> length rows <= e_chunk ev ->
  (forall r, In r rows -> s_val (schema_of tb) (upserted (schema_of tb) f m rows r) <> None) ->
  exists w, upsert tb ev f db fl ob rows = (w, Ok tt) /\ same_outside (schema_of tb) (view db ob) (view (r_db w) (r_batch w)) /\
    forall p,
      (exists r, In r rows /\ s_pk (schema_of tb) r = p /\
         kv_get (view (r_db w) (r_batch w)) (row_key (schema_of tb) p) = s_val (schema_of tb) (upserted (schema_of tb) f m rows r)) \/
      (~ In p (map (s_pk (schema_of tb)) rows) /\
         kv_get (view (r_db w) (r_batch w)) (row_key (schema_of tb) p) = kv_get (view db ob) (row_key (schema_of tb) p)).
Proof. exact @upsert_all_good. Qed.
Print Assumptions C17_what_is_stored_partial.

(** key 1, which is stored, twice and key 4 once: under key 1 the row of key 4, which stands second, is merged instead of the second row of key 1 *)
Example C17_what_is_stored_case :
  let f old new := Acct (a_id old) (a_kind new) (a_score old + a_score new) (a_on new) in
  let rows := [Acct 1 10 1 true; Acct 4 20 2 true; Acct 1 30 4 true] in
  consistent accts abc_db tt (puts asc empty_map abc) /\
  (forall r, In r rows -> s_val asc (upserted asc f (puts asc empty_map abc) rows r) <> None) /\
  upserted asc f (puts asc empty_map abc) rows (Acct 1 10 1 true) = Acct 1 20 9 true /\
  exists w, upsert accts (demo_env 5) f abc_db tt None rows = (w, Ok tt) /\
    get_point accts (r_db w) tt None (Acct 1 0 0 true) = Ok (Acct 1 20 9 true).
Proof.
  cbn zeta. split; [exact abc_stored|]. split; [intros r [<-|[<-|[<-|[]]]]; vm_compute; discriminate|].
  split; [vm_compute; reflexivity|]. eexists. split; vm_compute; reflexivity.
Qed.

(** C17. With an onConflict that keeps the key of its first argument, and keys that are repeated only within a chunk and only if they are not
    stored, the rows and every index agree after the call, for any number of chunks and any order of the rows; what is stored is again
    [upserted], by the chunk the key is in. Missing: other onConflict functions, stored keys given twice and keys in several chunks (refuted above
    and for C14, C15). *)
Theorem C17_key_kept_partial : forall (T F : Type) (tb : table T F), good_table tb -> forall ev, env_ok ev ->
  forall f db fl ob m rows cs, quiet ev -> kv_ok db -> consistent tb (view db ob) fl m -> readable ob -> Forall (row_ok (schema_of tb)) rows ->
  (forall a b, row_ok (schema_of tb) a -> row_ok (schema_of tb) b ->
     s_pk (schema_of tb) (f a b) = s_pk (schema_of tb) a /\ row_ok (schema_of tb) (f a b)) ->
  is_chunks (e_chunk ev) rows cs ->
  ForallOrdPairs (fun c c' => forall x y, In x c -> In y c' -> s_pk (schema_of tb) x <> s_pk (schema_of tb) y) cs ->
  (forall c r, In c cs -> In r c -> m (s_pk (schema_of tb) r) <> None -> ~ repeated (schema_of tb) c (s_pk (schema_of tb) r)) ->
  (forall c r, In c cs -> In r c -> s_val (schema_of tb) (upserted (schema_of tb) f m c r) <> None) ->
  exists w m', upsert tb ev f db fl ob rows = (w, Ok tt) /\
    consistent tb (view (r_db w) (r_batch w)) (r_flt w) m' /\ same_outside (schema_of tb) (view db ob) (view (r_db w) (r_batch w)) /\
    forall p, (exists c r, In c cs /\ In r c /\ s_pk (schema_of tb) r = p /\ m' p = Some (upserted (schema_of tb) f m c r)) \/
              (~ In p (map (s_pk (schema_of tb)) rows) /\ m' p = m p).
Proof. exact @upsert_keep_good. Qed.
Print Assumptions C17_key_kept_partial.

(** two chunks; in the first, key 4 is given twice and merged with the row of key 5 that stands between; in the second, key 1 is stored *)
Example C17_key_kept_case :
  let f old new := Acct (a_id old) (a_kind new) (a_score old + a_score new) (a_on new) in
  let c1 := [Acct 4 10 1 true; Acct 5 20 2 true; Acct 4 30 4 true] in let c2 := [Acct 1 40 8 true] in
  is_chunks 3 (c1 ++ c2) [c1; c2] /\
  ForallOrdPairs (fun c c' => forall x y, In x c -> In y c' -> s_pk asc x <> s_pk asc y) [c1; c2] /\
  (forall c r, In c [c1; c2] -> In r c -> puts asc empty_map abc (s_pk asc r) <> None -> ~ repeated asc c (s_pk asc r)) /\
  (forall a b, s_pk asc (f a b) = s_pk asc a) /\ repeated asc c1 (s_pk asc (Acct 4 0 0 true)) /\
  exists w, upsert accts (demo_env 3) f abc_db tt None (c1 ++ c2) = (w, Ok tt) /\
    map (get_point accts (r_db w) tt None) [Acct 1 0 0 true; Acct 4 0 0 true; Acct 5 0 0 true] =
      [Ok (Acct 1 40 14 true); Ok (Acct 4 20 3 true); Ok (Acct 5 20 2 true)].
Proof.
  cbn zeta. split; [apply (ic_cons 3); [reflexivity|easy|]; apply ic_last; cbn; lia|].
  split. { constructor; [|constructor; constructor]. constructor; [|constructor]. intros x y [<-|[<-|[<-|[]]]] [<-|[]]; vm_compute; discriminate. }
  split. { intros c r [<-|[<-|[]]].
    - intros [<-|[<-|[<-|[]]]] N; exfalso; apply N; vm_compute; reflexivity.
    - intros [<-|[]] _. vm_compute. lia. }
  split; [reflexivity|]. split; [vm_compute; lia|]. eexists. split; vm_compute; reflexivity.
Qed.

(** C18. Delete with records that carry the stored index keys. *)
Theorem C18_delete_removes_rows_partial : forall (T F : Type) (tb : table T F), good_table tb -> forall ev, env_ok ev ->
  forall db fl m rows, quiet ev -> consistent tb db fl m -> Forall (row_ok (schema_of tb)) rows ->
  (forall r o, In r rows -> m (s_pk (schema_of tb) r) = Some o -> same_index_entries (schema_of tb) r o) ->
  exists w, delete tb ev db fl None rows = (w, Ok tt) /\
    consistent tb (r_db w) (r_flt w) (removes (schema_of tb) m rows) /\ same_outside (schema_of tb) db (r_db w).
Proof. exact @delete_ok. Qed.
Print Assumptions C18_delete_removes_rows_partial.

(** one stored and one absent row *)
Example C18_case :
  puts asc empty_map abc (s_pk asc (Acct 1 10 6 true)) = Some (Acct 1 10 6 true) /\
  puts asc empty_map abc (s_pk asc (Acct 8 0 0 true)) = None /\
  exists w, delete accts (demo_env 2) abc_db tt None [Acct 1 10 6 true; Acct 8 0 0 true] = (w, Ok tt) /\ length (r_db w) = 5 /\
    exist accts (r_db w) tt None (Acct 1 0 0 true) = false.
Proof. repeat split; try (vm_compute; reflexivity). eexists. split; [vm_compute; reflexivity|]. split; vm_compute; reflexivity. Qed.

(** C18. Refuted without that: Delete given the right primary key and other index
    fields removes the row and leaves its index entry. *)
Theorem C18_delete_stale_entry_refuted : exists m r w, consistent accts one_stored tt m /\ m (s_pk asc r) <> None /\
  delete accts (demo_env 10) one_stored tt None [r] = (w, Ok tt) /\ (forall m', ~ Rep asc (r_db w) m').
Proof. exact delete_stale_entry. Qed.
Print Assumptions C18_delete_stale_entry_refuted.

(** C18. Delete with any records: the rows are gone, every row that stays keeps its
    entries, and the only entries left behind are those of the deleted rows that the
    given record does not have. *)
Theorem C18_delete_any_record_partial : forall (T F : Type) (tb : table T F), good_table tb ->
  forall ev db fl m rows, env_ok ev -> quiet ev -> consistent tb db fl m -> Forall (row_ok (schema_of tb)) rows ->
  exists w, delete tb ev db fl None rows = (w, Ok tt) /\
    RepOver (schema_of tb) [rows] (r_db w) (removes (schema_of tb) m rows) /\ same_outside (schema_of tb) db (r_db w).
Proof. exact @delete_any. Qed.
Print Assumptions C18_delete_any_record_partial.

(** a record with another kind: one entry of the row stays, the others go *)
Example C18_any_case :
  exists w, delete accts (demo_env 2) abc_db tt None [Acct 1 12 6 true] = (w, Ok tt) /\
    get_point accts (r_db w) tt None (Acct 1 0 0 true) = Err ENotFound /\
    kv_get (r_db w) (entry_key asc (sindex_of acct_by_kind) (Acct 1 10 6 true)) = Some [] /\
    kv_get (r_db w) (entry_key asc (sindex_of acct_by_score) (Acct 1 10 6 true)) = None /\
    kv_get (r_db w) (entry_key asc (sindex_of acct_by_kind) (Acct 3 10 5 true)) = Some [].
Proof. eexists. split; [vm_compute; reflexivity|]. repeat split; vm_compute; reflexivity. Qed.

(** C19. After every history of admissible calls, failed or not, the store is exactly
    the outcome of the successful ones. *)
Theorem C19_histories_stay_consistent_partial : forall (T F : Type) (tb : table T F), good_table tb ->
  forall h db fl m db' fl' oks, Forall (fun ec => env_ok (fst ec)) h -> consistent tb db fl m ->
  run_hist tb db fl h = (db', fl', oks) -> admissible_hist (schema_of tb) m oks ->
  consistent tb db' fl' (outcome (schema_of tb) m oks) /\ same_outside (schema_of tb) db db'.
Proof. exact @hist_run. Qed.
Print Assumptions C19_histories_stay_consistent_partial.

(** a history with a failing insert in the middle *)
Example C19_case :
  let h := [(demo_env 2, CInsert abc); (demo_env 2, CInsert [Acct 7 0 0 true; Acct 1 0 0 true]); (cancel_at 0, CUpdate abc);
            (demo_env 2, CUpsert newest [Acct 2 12 1 true]); (demo_env 2, CDelete [Acct 1 10 6 true])] in
  exists db, run_hist accts [] tt h = (db, tt, [(CInsert abc, true); (CInsert [Acct 7 0 0 true; Acct 1 0 0 true], false);
     (CUpdate abc, false); (CUpsert newest [Acct 2 12 1 true], true); (CDelete [Acct 1 10 6 true], true)]) /\ length db = 6.
Proof. cbn zeta. eexists. split; vm_compute; reflexivity. Qed.

(** C19. The same for histories in which Delete is given any records. *)
Theorem C19_any_deletes_partial : forall (T F : Type) (tb : table T F), good_table tb ->
  forall h db fl m db' fl' oks, Forall (fun ec => env_ok (fst ec)) h -> consistent tb db fl m ->
  run_hist tb db fl h = (db', fl', oks) -> Forall (fun co => tame (schema_of tb) (fst co)) oks ->
  RepOver (schema_of tb) (deleted oks) db' (outcome (schema_of tb) m oks) /\ same_outside (schema_of tb) db db'.
Proof. exact @hist_any_deletes. Qed.
Print Assumptions C19_any_deletes_partial.

(** a Delete with another kind, then the primary key is used again *)
Example C19_any_case :
  let h := [(demo_env 2, CInsert abc); (demo_env 2, CDelete [Acct 1 12 6 true]); (demo_env 2, CInsert [Acct 1 13 2 true])] in
  exists db oks, run_hist accts [] tt h = (db, tt, oks) /\ Forall (fun co => tame asc (fst co)) oks /\
    deleted oks = [[Acct 1 12 6 true]] /\
    kv_get db (entry_key asc (sindex_of acct_by_kind) (Acct 1 10 6 true)) = Some [] /\
    kv_get db (entry_key asc (sindex_of acct_by_kind) (Acct 1 13 2 true)) = Some [] /\ length db = 9.
Proof.
  cbn zeta. eexists _, _. split; [vm_compute; reflexivity|]. split.
  - assert (N : NoDup (map (s_pk asc) abc)) by (vm_compute; repeat constructor; cbn; intuition discriminate).
    assert (N' : NoDup (map (s_pk asc) [Acct 1 13 2 true])) by (vm_compute; repeat constructor; cbn; intuition discriminate).
    constructor; [split; [apply acct_rows_ok|exact N]|]. constructor; [apply acct_rows_ok|].
    constructor; [split; [apply acct_rows_ok|exact N']|constructor].
  - repeat split; vm_compute; reflexivity.
Qed.

(** C19. Refuted for all calls: two successful calls after which no table content matches the store. *)
Theorem C19_stale_delete_refuted : exists h db fl oks, Forall (fun ec => env_ok (fst ec) /\ quiet (fst ec)) h /\
  run_hist accts [] tt h = (db, fl, oks) /\ Forall (fun co => snd co = true) oks /\ (forall m', ~ Rep asc db m').
Proof. exact hist_stale_entry. Qed.
Print Assumptions C19_stale_delete_refuted.

(** C20. Reads after a history from an empty table. The calls need only satisfy the
    admissibility of the table without its indexes: Delete may be given any record
    with the right primary key. *)
Theorem C20_reads_return_latest_write : forall (T F : Type) (tb : table T F), good_table tb ->
  forall h db' fl' oks, Forall (fun ec => env_ok (fst ec)) h ->
  forall fl0, run_hist tb [] fl0 h = (db', fl', oks) -> admissible_hist (schema_of (no_indexes tb)) empty_map oks ->
  forall r,
    get_point tb db' fl' None r =
      match outcome (schema_of tb) empty_map oks (s_pk (schema_of tb) r) with Some x => Ok x | None => Err ENotFound end
    /\ exist tb db' fl' None r =
      match outcome (schema_of tb) empty_map oks (s_pk (schema_of tb) r) with Some _ => true | None => false end.
Proof. exact @reads_after_any_deletes. Qed.
Print Assumptions C20_reads_return_latest_write.

Example C20_case :
  let h := [(demo_env 2, CInsert abc); (demo_env 2, CUpsert newest [Acct 2 12 1 true]); (demo_env 2, CDelete [Acct 1 99 99 false])] in
  exists db oks, run_hist accts [] tt h = (db, tt, oks) /\ admissible_hist (schema_of (no_indexes accts)) empty_map oks /\
    get_point accts db tt None (Acct 2 0 0 true) = Ok (Acct 2 12 1 true) /\
    get_point accts db tt None (Acct 1 0 0 true) = Err ENotFound /\ exist accts db tt None (Acct 3 0 0 true) = true.
Proof.
  cbn zeta. eexists _, _. split; [vm_compute; reflexivity|]. split; [|repeat split; vm_compute; reflexivity].
  cbn [admissible_hist]. split; [|split; [|split; [|exact I]]].
  - split; [apply row_ok_no_indexes|exact abc_nodup].
  - split; [apply row_ok_no_indexes|]. split; [constructor; [intros []|constructor]|].
    intros old r E _ _. split; [reflexivity|]. intros ix [].
  - split; [apply row_ok_no_indexes|]. intros r o _ _ ix [].
Qed.

(** C21. Get of a points selector, for any number, order and repetition of points. *)
Theorem C21_points_are_positional_partial : forall (T F : Type) (tb : table T F), good_table tb -> forall ev, env_ok ev ->
  forall db fl ob m pts, kv_ok db -> consistent tb (view db ob) fl m -> readable ob ->
  (forall p x, m p = Some x -> s_val (schema_of tb) x <> Some []) ->
  get_points tb ev db fl ob pts
  = Ok (map (fun p => match m (s_pk (schema_of tb) p) with Some x => x | None => t_nil tb end) pts).
Proof. exact @points_positional. Qed.
Print Assumptions C21_points_are_positional_partial.

Example C21_case :
  get_points accts (demo_env 2) abc_db tt None [Acct 3 0 0 true; Acct 8 0 0 true; Acct 1 0 0 true; Acct 3 9 9 false]
  = Ok [Acct 3 10 5 true; acct_zero; Acct 1 10 6 true; Acct 3 10 5 true].
Proof. vm_compute. reflexivity. Qed.

(** C21. Refuted for rows whose encoding has no bytes: Get(points) says absent, GetPoint finds it. *)
Theorem C21_empty_encoding_refuted : exists db m p,
  consistent ptrs db tt m /\ m (s_pk (schema_of ptrs) p) = Some p /\
  get_point ptrs db tt None p = Ok p /\ get_points ptrs (demo_env 10) db tt None [p] = Ok [t_nil ptrs] /\ t_nil ptrs <> p.
Proof. exact empty_value_lost. Qed.
Print Assumptions C21_empty_encoding_refuted.

(** C31. A write call, with or without batch, valid or not, changes only keys of its table. *)
Theorem C31_calls_change_only_their_table : forall (T F : Type) (tb : table T F), good_table tb -> forall ev, env_ok ev ->
  forall db fl ob c w res, kv_ok db -> run_call tb ev db fl ob c = (w, res) ->
  same_outside (schema_of tb) db (r_db w) /\
  match ob with
  | Some b => r_db w = db /\ exists os, r_batch w = Some (Batch (b_rw b) (b_ops b ++ os)) /\
                forall st, kv_ok st -> same_outside (schema_of tb) st (apply_ops st os)
  | None => r_batch w = None
  end.
Proof. exact @call_frame. Qed.
Print Assumptions C31_calls_change_only_their_table.

Theorem C31_unsafe_calls_change_only_their_table : forall (T F : Type) (tb : table T F), good_table tb -> forall ev, env_ok ev ->
  forall db fl ob rows olds w res, kv_ok db ->
  (unsafe_insert tb ev db fl ob rows = (w, res) \/ unsafe_update tb ev db fl ob rows olds = (w, res)) ->
  same_outside (schema_of tb) db (r_db w).
Proof. exact @unsafe_frame. Qed.
Print Assumptions C31_unsafe_calls_change_only_their_table.

(** C31. Its result and what it writes depend only on the keys of its table. *)
Theorem C31_calls_read_only_their_table : forall (T F : Type) (tb : table T F), good_table tb -> forall ev, env_ok ev ->
  forall db1 db2 fl ob c w1 r1 w2 r2, kv_ok db1 -> kv_ok db2 ->
  (forall k, in_table (schema_of tb) k -> kv_get db1 k = kv_get db2 k) ->
  run_call tb ev db1 fl ob c = (w1, r1) -> run_call tb ev db2 fl ob c = (w2, r2) ->
  r1 = r2 /\ r_batch w1 = r_batch w2 /\ r_flt w1 = r_flt w2 /\
  (forall k, in_table (schema_of tb) k -> kv_get (r_db w1) k = kv_get (r_db w2) k).
Proof. exact @call_local. Qed.
Print Assumptions C31_calls_read_only_their_table.

(** Keys of another table (first byte) are outside. *)
Theorem C31_other_tables_are_outside : forall (T F : Type) (tb : table T F) t k,
  t <> t_id tb -> ~ in_table (schema_of tb) (t :: k).
Proof. exact @other_table_key. Qed.
Print Assumptions C31_other_tables_are_outside.

Theorem C31_reads_depend_on_the_row_only : forall (T F : Type) (tb : table T F) db1 db2 fl ob r, kv_ok db1 -> kv_ok db2 ->
  kv_get db1 (data_key tb r) = kv_get db2 (data_key tb r) ->
  get_point tb db1 fl ob r = get_point tb db2 fl ob r /\ exist tb db1 fl ob r = exist tb db2 fl ob r.
Proof. exact @read_local. Qed.
Print Assumptions C31_reads_depend_on_the_row_only.

(** Two databases that agree on the accounts: the same answers and the same accounts afterwards. *)
Example C31_local_case : let db1 := ([x06; x01], [xff]) :: abc_db in let db2 := abc_db ++ [([x08; x00; x01], [x02])] in
  db1 <> db2 /\ (forall k, in_table asc k -> kv_get db1 k = kv_get db2 k) /\
  snd (run_call accts (demo_env 2) db1 tt None (CUpdate [Acct 3 12 5 true; Acct 8 0 0 true])) = snd (run_call accts (demo_env 2) db2 tt None (CUpdate [Acct 3 12 5 true; Acct 8 0 0 true])) /\
  tl (r_db (fst (unsafe_insert accts (demo_env 2) db1 tt None [Acct 9 9 9 true]))) = removelast (r_db (fst (unsafe_insert accts (demo_env 2) db2 tt None [Acct 9 9 9 true]))) /\
  get_point accts db1 tt None (Acct 3 0 0 true) = Ok (Acct 3 10 5 true).
Proof.
  cbn zeta. split; [vm_compute; discriminate|]. split; [|repeat split; vm_compute; reflexivity].
  intros k H. destruct k as [|t k]; [reflexivity|]. destruct (Byte.byte_eq_dec t x07) as [->|N]; [|destruct (C31_other_tables_are_outside acct unit accts t k N H)].
  cbn [kv_get app]. reflexivity.
Qed.

(** the same call over another table's data *)
Example C31_case :
  let other := [([x06; x01], [xff])] in
  kv_get (r_db (fst (insert accts (demo_env 2) other tt None abc))) [x06; x01] = Some [xff] /\
  tl (r_db (fst (insert accts (demo_env 2) other tt None abc))) = abc_db.
Proof. split; vm_compute; reflexivity. Qed.

(** C32. Each call on a read-write batch acts on the database with the batch applied,
    and leaves the database alone. *)
Theorem C32_batch_reads_its_writes : forall (T F : Type) (tb : table T F), good_table tb ->
  forall ev c db fl b m, env_ok ev -> kv_ok db -> b_rw b = true ->
  consistent tb (view db (Some b)) fl m -> admissible (schema_of tb) m c ->
  exists w res b', run_call tb ev db fl (Some b) c = (w, res)
    /\ r_db w = db /\ r_batch w = Some b' /\ b_rw b' = true
    /\ ((exists e, res = Err e) \/
        res = Ok tt /\ consistent tb (view db (Some b')) (r_flt w) (effect (schema_of tb) m c)
          /\ same_outside (schema_of tb) (view db (Some b)) (view db (Some b')) /\ succeeds (schema_of tb) m c)
    /\ (quiet ev -> succeeds (schema_of tb) m c -> res = Ok tt).
Proof. exact @batch_step. Qed.
Print Assumptions C32_batch_reads_its_writes.

(** C32. A batch of calls, then Commit, gives the very store that the direct calls give. *)
Theorem C32_batch_equals_direct : forall (T F : Type) (tb : table T F), good_table tb ->
  forall h db fl m, Forall (fun ec => env_ok (fst ec) /\ quiet (fst ec)) h ->
  consistent tb db fl m -> all_succeed (schema_of tb) m (map snd h) ->
  exists b' fl1 db' fl2,
    run_batch_hist tb db fl (Batch true []) h = (b', fl1, map (fun ec => (snd ec, true)) h) /\
    run_hist tb db fl h = (db', fl2, map (fun ec => (snd ec, true)) h) /\
    apply_ops db (b_ops b') = db' /\ consistent tb db' fl1 (total_effect (schema_of tb) m (map snd h)).
Proof. exact @batch_equals_direct. Qed.
Print Assumptions C32_batch_equals_direct.

Example C32_case :
  let h := [(demo_env 2, CInsert abc); (demo_env 2, CUpdate [Acct 2 12 1 true]); (demo_env 2, CDelete [Acct 1 10 6 true])] in
  let '(b, _, oks) := run_batch_hist accts [] tt (Batch true []) h in
  let '(db, _, _) := run_hist accts [] tt h in
  map snd oks = [true; true; true] /\ apply_ops [] (b_ops b) = db /\ length db = 6.
Proof. vm_compute. repeat split; reflexivity. Qed.

(** C44. A filter without false negatives that covers the stored keys is invisible
    to writes and point reads, and goes on covering them. *)
Theorem C44_filter_invisible_to_writes : forall (T F : Type) (tb : table T F), good_table tb -> forall ev, env_ok ev ->
  forall c db fl fl0 ob, kv_ok db -> covers tb fl db ->
  (forall b, ob = Some b -> ops_covered tb fl (b_ops b)) ->
  let '(w, r) := run_call tb ev db fl ob c in
  let '(w0, r0) := run_call (no_filter tb) ev db fl0 ob c in
  r = r0 /\ r_db w = r_db w0 /\ r_batch w = r_batch w0 /\ covers tb (r_flt w) (r_db w) /\
  (forall b, r_batch w = Some b -> ops_covered tb (r_flt w) (b_ops b)).
Proof. exact @filter_calls. Qed.
Print Assumptions C44_filter_invisible_to_writes.

Theorem C44_filter_invisible_to_reads : forall (T F : Type) (tb : table T F), good_table tb -> forall ev, env_ok ev ->
  forall db fl fl0 ob r pts, kv_ok db -> covers tb fl db ->
  (forall b, ob = Some b -> ops_covered tb fl (b_ops b)) ->
  exist tb db fl ob r = exist (no_filter tb) db fl0 ob r /\
  get_point tb db fl ob r = get_point (no_filter tb) db fl0 ob r /\
  get_points tb ev db fl ob pts = get_points (no_filter tb) ev db fl0 ob pts.
Proof. exact @filter_reads. Qed.
Print Assumptions C44_filter_invisible_to_reads.

Example C44_case : good_table seen_accts /\
  let '(w, r) := run_call seen_accts (demo_env 2) [] [] None (CInsert abc) in
  let '(w0, r0) := run_call (no_filter seen_accts) (demo_env 2) [] [] None (CInsert abc) in
  r = r0 /\ r_db w = r_db w0 /\ length (r_flt w) = 3.
Proof. split; [exact seen_accts_good|]. vm_compute. repeat split; reflexivity. Qed.

(** C55. Chunked processing: the pieces are consecutive, non-empty, of the chunk size
    except possibly the last, and run one after another until the first error. *)
Theorem C55_chunks : forall (A St : Type) bs (items : list A), 0 < bs ->
  exists cs, is_chunks bs items cs /\ concat cs = items /\ Forall (fun c => c <> []) cs /\ Forall (fun c => length c <= bs) cs /\
    forall (f : list A -> St -> St * res unit) s, batched items bs f s = run_chunks f cs s.
Proof. exact @batched_spec. Qed.
Print Assumptions C55_chunks.

Example C55_case : batched [1; 2; 3; 4; 5] 2 (fun c s => (s ++ [c], Ok tt)) [] = ([[1; 2]; [3; 4]; [5]], Ok tt) /\
  batched [1; 2; 3; 4] 2 (fun c s => (s ++ [c], Ok tt)) [] = ([[1; 2]; [3; 4]], Ok tt) /\
  batched [1; 2; 3; 4] 2 (fun c s => (s ++ [c], Err ECtx)) [] = ([[1; 2]], Err ECtx).
Proof. repeat split; vm_compute; reflexivity. Qed.

(** C57. With a serializer that overwrites the whole variable, the entries an Update
    leaves for a row depend on that row alone: not on the other rows of the call, nor
    on the rest of the table. *)
Theorem C57_update_rows_independent_partial : forall (T F : Type) (tb : table T F), good_table tb -> forall ev, env_ok ev ->
  forall db1 fl1 m1 rows1 db2 fl2 m2 rows2 r, quiet ev ->
  consistent tb db1 fl1 m1 -> consistent tb db2 fl2 m2 ->
  Forall (row_ok (schema_of tb)) rows1 -> Forall (row_ok (schema_of tb)) rows2 ->
  NoDup (map (s_pk (schema_of tb)) rows1) -> NoDup (map (s_pk (schema_of tb)) rows2) ->
  (forall x, In x rows1 -> m1 (s_pk (schema_of tb) x) <> None /\ s_val (schema_of tb) x <> None) ->
  (forall x, In x rows2 -> m2 (s_pk (schema_of tb) x) <> None /\ s_val (schema_of tb) x <> None) ->
  In r rows1 -> In r rows2 ->
  exists w1 w2, update tb ev db1 fl1 None rows1 = (w1, Ok tt) /\ update tb ev db2 fl2 None rows2 = (w2, Ok tt) /\
    forall ix x, In ix (s_indexes (schema_of tb)) -> row_ok (schema_of tb) x -> s_pk (schema_of tb) x = s_pk (schema_of tb) r ->
      kv_get (r_db w1) (entry_key (schema_of tb) ix x) = kv_get (r_db w2) (entry_key (schema_of tb) ix x).
Proof. exact @update_independent. Qed.
Print Assumptions C57_update_rows_independent_partial.

(** C57. The same for Upsert: what it leaves for a row depends on the row and its stored version alone. *)
Theorem C57_upsert_rows_independent_partial : forall (T F : Type) (tb : table T F), good_table tb -> forall ev, env_ok ev ->
  forall f db1 fl1 m1 rows1 db2 fl2 m2 rows2 r, quiet ev ->
  consistent tb db1 fl1 m1 -> consistent tb db2 fl2 m2 ->
  Forall (row_ok (schema_of tb)) rows1 -> Forall (row_ok (schema_of tb)) rows2 ->
  NoDup (map (s_pk (schema_of tb)) rows1) -> NoDup (map (s_pk (schema_of tb)) rows2) ->
  (forall old r, s_pk (schema_of tb) old = s_pk (schema_of tb) r -> row_ok (schema_of tb) old -> row_ok (schema_of tb) r ->
     s_pk (schema_of tb) (f old r) = s_pk (schema_of tb) r /\ row_ok (schema_of tb) (f old r)) ->
  (forall x, In x rows1 -> s_val (schema_of tb) (match m1 (s_pk (schema_of tb) x) with Some old => f old x | None => x end) <> None) ->
  (forall x, In x rows2 -> s_val (schema_of tb) (match m2 (s_pk (schema_of tb) x) with Some old => f old x | None => x end) <> None) ->
  In r rows1 -> In r rows2 -> m1 (s_pk (schema_of tb) r) = m2 (s_pk (schema_of tb) r) ->
  exists w1 w2, upsert tb ev f db1 fl1 None rows1 = (w1, Ok tt) /\ upsert tb ev f db2 fl2 None rows2 = (w2, Ok tt) /\
    kv_get (r_db w1) (data_key tb r) = kv_get (r_db w2) (data_key tb r) /\
    forall ix x, In ix (s_indexes (schema_of tb)) -> row_ok (schema_of tb) x -> s_pk (schema_of tb) x = s_pk (schema_of tb) r ->
      kv_get (r_db w1) (entry_key (schema_of tb) ix x) = kv_get (r_db w2) (entry_key (schema_of tb) ix x).
Proof. exact @upsert_independent. Qed.
Print Assumptions C57_upsert_rows_independent_partial.

(** Account 1, stored with score 6 in both databases, is given 4 more by two calls with different other rows, in chunks of different content. *)
Example C57_upsert_case :
  let f old new := Acct (a_id new) (a_kind new) (a_score old + a_score new) (a_on new) in
  let one_db := r_db (fst (insert accts (demo_env 10) [] tt None [Acct 1 10 6 true])) in
  exists w1 w2, upsert accts (demo_env 2) f abc_db tt None [Acct 9 5 5 true; Acct 1 10 4 true] = (w1, Ok tt) /\
    upsert accts (demo_env 2) f one_db tt None [Acct 1 10 4 true; Acct 7 5 5 true; Acct 8 5 5 true] = (w2, Ok tt) /\
    kv_get (r_db w1) (entry_key asc (sindex_of acct_by_kind) (Acct 1 10 10 true)) = Some [] /\
    kv_get (r_db w2) (entry_key asc (sindex_of acct_by_kind) (Acct 1 10 10 true)) = Some [] /\
    kv_get (r_db w1) (entry_key asc (sindex_of acct_by_kind) (Acct 1 10 6 true)) = None /\
    kv_get (r_db w2) (entry_key asc (sindex_of acct_by_kind) (Acct 1 10 6 true)) = None /\
    kv_get (r_db w1) (data_key accts (Acct 1 0 0 true)) = kv_get (r_db w2) (data_key accts (Acct 1 0 0 true)).
Proof. cbn zeta. eexists _, _. split; [vm_compute; reflexivity|]. split; [vm_compute; reflexivity|]. repeat split; vm_compute; reflexivity. Qed.

(** C57. Refuted for a serializer that restores values into fresh variables but keeps
    omitted fields of a used one: the second row's old index entry survives, although
    it is removed when that row is updated alone. *)
Theorem C57_update_depends_on_other_rows_refuted : ser_fresh tags /\ exists rows w,
  Rep (schema_of tags) two_tags (puts (schema_of tags) empty_map [Tagged 1 5; Tagged 2 0]) /\
  rows = [Tagged 1 5; Tagged 2 7] /\
  update tags (demo_env 10) two_tags tt None rows = (w, Ok tt) /\ (forall m', ~ Rep (schema_of tags) (r_db w) m').
Proof. exact (conj tags_fresh update_depends_on_others). Qed.
Print Assumptions C57_update_depends_on_other_rows_refuted.

Theorem C57_upsert_depends_on_other_rows_refuted : ser_fresh tags /\ exists rows w,
  Rep (schema_of tags) two_tags (puts (schema_of tags) empty_map [Tagged 1 5; Tagged 2 0]) /\
  rows = [Tagged 1 5; Tagged 2 7] /\
  upsert tags (demo_env 10) (fun _ new => new) two_tags tt None rows = (w, Ok tt) /\ (forall m', ~ Rep (schema_of tags) (r_db w) m').
Proof. exact (conj tags_fresh upsert_depends_on_others). Qed.
Print Assumptions C57_upsert_depends_on_other_rows_refuted.

Theorem C57_update_alone : exists w,
  update tags (demo_env 10) two_tags tt None [Tagged 2 7] = (w, Ok tt) /\
  kv_get (r_db w) (entry_key (schema_of tags) (sindex_of by_tag) (Tagged 2 0)) = None /\
  kv_get (r_db w) (entry_key (schema_of tags) (sindex_of by_tag) (Tagged 2 7)) = Some [].
Proof. exact update_alone_fine. Qed.

(** C58. The unsafe variants do the same as the safe ones on valid input. *)
Theorem C58_unsafe_insert_adds_rows : forall (T F : Type) (tb : table T F), good_table tb -> forall ev, env_ok ev ->
  forall db fl m rows, quiet ev -> consistent tb db fl m ->
  Forall (row_ok (schema_of tb)) rows -> NoDup (map (s_pk (schema_of tb)) rows) ->
  (forall r, In r rows -> m (s_pk (schema_of tb) r) = None /\ s_val (schema_of tb) r <> None) ->
  exists w, unsafe_insert tb ev db fl None rows = (w, Ok tt) /\
    consistent tb (r_db w) (r_flt w) (puts (schema_of tb) m rows) /\ same_outside (schema_of tb) db (r_db w).
Proof. exact @unsafe_insert_good. Qed.
Print Assumptions C58_unsafe_insert_adds_rows.

Theorem C58_unsafe_update_replaces_rows : forall (T F : Type) (tb : table T F), good_table tb -> forall ev, env_ok ev ->
  forall db fl m rows olds, quiet ev -> consistent tb db fl m ->
  Forall (row_ok (schema_of tb)) rows -> NoDup (map (s_pk (schema_of tb)) rows) ->
  Forall2 (fun r o => m (s_pk (schema_of tb) r) = Some o) rows olds ->
  (forall r, In r rows -> s_val (schema_of tb) r <> None) ->
  exists w, unsafe_update tb ev db fl None rows olds = (w, Ok tt) /\
    consistent tb (r_db w) (r_flt w) (puts (schema_of tb) m rows) /\ same_outside (schema_of tb) db (r_db w).
Proof. exact @unsafe_update_good. Qed.
Print Assumptions C58_unsafe_update_replaces_rows.

Example C58_case :
  r_db (fst (unsafe_insert accts (demo_env 2) [] tt None abc)) = abc_db /\
  r_db (fst (unsafe_update accts (demo_env 2) abc_db tt None [Acct 2 12 1 true] [Acct 2 11 0 false]))
  = r_db (fst (update accts (demo_env 2) abc_db tt None [Acct 2 12 1 true])).
Proof. split; vm_compute; reflexivity. Qed.
