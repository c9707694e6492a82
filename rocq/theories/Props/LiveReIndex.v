(** Property C66: ReIndex while other calls write. *)

From Coq Require Import List NArith Bool Arith Lia.
From Verif.Model Require Import Bytes Go Keys Pebble Index Table Scan Concur ReIndex LiveReIndex.
From Verif.Spec Require Import KeySpec StoreSpec TableSpec HistSpec ReIndexSpec LiveReIndexSpec.
From Verif.Proofs Require Import Witness TableBugs ScanBugs QueryBugs ReIndexFacts ReIndexBugs PagingBugs LiveBugs LiveReIndexFacts LiveInserts LiveReIndexBugs.
Import ListNotations.

(** C66. ReIndex whose writes succeed, while any batches are committed between its steps, in a store that holds the rows [m] when its
    iterator is created: it succeeds. Everything outside the indexes it builds is as if it had not run. A key of one of these
    indexes that nobody else wrote is there if and only if it is the entry of a row of [m]. *)
Theorem C66_among_writers_partial : forall (T F : Type) (tb : table T F) os ev, (forall n, r_write ev n = true) ->
  forall idxs db (m : tmap T), lawful (with_indexes tb idxs) -> kv_ok db -> ser_fresh tb ->
  Rep (schema_of (with_indexes tb [])) (apply_ops db (before_open os (length idxs))) m ->
  exists db' n, live_re_index ev os tb db idxs = (db', n, Ok tt) /\ length idxs < n /\ kv_ok db' /\
  (forall k, ~ index_area (t_id tb) idxs k -> kv_get db' k = kv_get (apply_ops db (all_of os (length idxs) n)) k) /\
  (forall ix rest v, In ix idxs -> ix_id ix <> xff -> leaves (t_id tb :: ix_id ix :: rest) (all_of os (length idxs) n) ->
    kv_get db' (t_id tb :: ix_id ix :: rest) = Some v <->
    v = [] /\ exists r, m (s_pk (schema_of tb) r) = Some r /\ ix_filter ix r = true /\ t_id tb :: ix_id ix :: rest = entry_key (schema_of tb) (sindex_of ix) r).
Proof. exact @live_keys. Qed.
Print Assumptions C66_among_writers_partial.

(** Row 3 is deleted while the index by flag is built: the entry of row 1 is not concerned. *)
Example C66_case : let os := late flagged (CDelete [a3]) in
  lawful (with_indexes flagged [by_flag]) /\ Rep (schema_of (with_indexes flagged [])) (apply_ops rows123 (before_open os 1)) (puts asc empty_map [a1; a2; a3]) /\
  snd (live_re_index one_batch os flagged rows123 [by_flag]) = Ok tt /\ snd (fst (live_re_index one_batch os flagged rows123 [by_flag])) = 2 /\
  leaves (entry_key fsc (sindex_of by_flag) a1) (all_of os 1 2) /\ length (all_of os 1 2) = 4 /\
  kv_get (built os) (entry_key fsc (sindex_of by_flag) a1) = Some [].
Proof.
  cbv zeta. split; [apply flag_lawful; discriminate|]. split.
  { change (apply_ops rows123 (before_open (late flagged (CDelete [a3])) 1)) with rows123. destruct (cons_rep _ _ _ _ rows123_stored) as [R1 R2 R3 R4].
    constructor; [|exact R2|exact R3|easy]. intros p r M. destruct (R1 p r M) as (A & _ & B). split; [exact A|]. split; [easy|exact B]. }
  split; [vm_compute; reflexivity|]. split; [vm_compute; reflexivity|]. split; [apply leaves_effect; vm_compute; reflexivity|].
  split; vm_compute; reflexivity.
Qed.

(** C66. If the others only add new rows, the result is exact: the table holds the old and the new rows, all its indexes hold exactly
    their entries. Batches committed before the iterator is created may lack the entries of the indexes being built. *)
Theorem C66_new_rows : forall (T F : Type) (tb : table T F) old idxs, lawful (with_indexes tb (old ++ idxs)) ->
  forall ev os, (forall n, r_write ev n = true) -> forall at_ open db (m : tmap T), let sc := schema_of (with_indexes tb (old ++ idxs)) in
  kv_ok db -> ser_fresh tb -> Rep (schema_of (with_indexes tb old)) db m ->
  (forall ix, In ix idxs -> ix_id ix <> xff) -> (forall pk r, m pk = Some r -> row_ok sc r) ->
  (forall n, n < length idxs -> adds sc (fun ix => In ix (map sindex_of old)) (at_ n) (o_at os n)) ->
  adds sc (fun ix => In ix (map sindex_of old)) open (o_open os) ->
  (forall n, length idxs <= n -> adds sc (fun _ => True) (at_ n) (o_at os n)) ->
  (forall n, new_rows sc m (rows_all at_ open (length idxs) n)) ->
  exists db' n, live_re_index ev os tb db idxs = (db', n, Ok tt) /\ kv_ok db' /\ Rep sc db' (puts sc m (rows_all at_ open (length idxs) n)).
Proof. exact @live_adds. Qed.
Print Assumptions C66_new_rows.

(** C66. The batch of an Insert call that succeeds, whatever databases it meets: it adds the rows, with their entries in the indexes
    [mine] that the table had when the call began. *)
Theorem C66_insert_batch : forall (T F : Type) (tb : table T F) mine full, lawful (with_indexes tb full) -> incl mine full ->
  forall ev rows fl seen, env_ok ev -> th_res (call_at (with_indexes tb mine) ev (CInsert rows) fl seen) = Some (Ok tt) ->
  adds (schema_of (with_indexes tb full)) (fun ix => In ix (map sindex_of mine)) rows (batch_at (with_indexes tb mine) ev (CInsert rows) fl seen).
Proof. exact @insert_call_adds. Qed.
Print Assumptions C66_insert_batch.

(** Row 4 is inserted by a call that knows only the old indexes, before the iterator; row 5 by one that knows all, after it. *)
Example C66_new_rows_case : let at_ := fun j => match j with 1 => [a5] | _ => [] end in
  th_res (call_at accts (demo_env 5) (CInsert [a4]) tt sees) = Some (Ok tt) /\ th_res (call_at flagged (demo_env 5) (CInsert [a5]) tt sees) = Some (Ok tt) /\
  (forall n, n < 1 -> adds fsc (fun ix => In ix (map sindex_of (t_indexes accts))) (at_ n) (o_at adding45 n)) /\
  adds fsc (fun ix => In ix (map sindex_of (t_indexes accts))) [a4] (o_open adding45) /\
  (forall n, 1 <= n -> adds fsc (fun _ => True) (at_ n) (o_at adding45 n)) /\
  (forall n, new_rows fsc (puts asc empty_map [a1; a2; a3]) (rows_all at_ [a4] 1 n)) /\
  on_rows (built adding45) 9 = ([a1; a3; a4; a5], Ok tt).
Proof.
  cbv zeta. split; [vm_compute; reflexivity|]. split; [vm_compute; reflexivity|]. split.
  { intros n L. replace n with 0 by lia. apply adds_nil. }
  split; [apply (C66_insert_batch acct unit accts (t_indexes accts) (t_indexes flagged)); [exact flagged_lawful|intros x I; apply in_app_iff; now left|apply demo_env_ok; lia|vm_compute; reflexivity]|].
  split.
  { intros n L. destruct n as [|[|n]]; [lia| |apply adds_nil]. apply (adds_weaken _ (fun ix => In ix (map sindex_of (t_indexes flagged)))); [intros ix I _; exact I|].
    apply (C66_insert_batch acct unit flagged (t_indexes flagged) (t_indexes flagged)); [exact flagged_lawful|intros x I; exact I|apply demo_env_ok; lia|vm_compute; reflexivity]. }
  split; [exact new45|]. vm_compute. reflexivity.
Qed.

(** C66. With no other writer it is the ReIndex of C36. *)
Theorem C66_alone : forall (T F : Type) (tb : table T F) ev os db idxs, (forall n, o_at os n = []) -> o_open os = [] ->
  let '(db', n, r) := live_re_index ev os tb db idxs in (db', r) = re_index ev tb db idxs.
Proof. exact @live_alone. Qed.
Print Assumptions C66_alone.

(** C66 is false for deletions: a Delete that commits between the iterator and the batch of ReIndex leaves an entry without a row.
    Both calls succeed, and scans of the new index fail from then on. *)
Theorem C66_delete_refuted : let os := late flagged (CDelete [a3]) in
  consistent accts rows123 tt (puts asc empty_map [a1; a2; a3]) /\ th_res (call_at flagged (demo_env 5) (CDelete [a3]) tt sees) = Some (Ok tt) /\
  live_re_index one_batch os flagged rows123 [by_flag] = (built os, 2, Ok tt) /\
  (~ exists m, Rep fsc (built os) m) /\ forall fuel, 5 <= fuel -> on_rows (built os) fuel = ([], Err ENotFound).
Proof.
  cbv zeta. split; [exact rows123_stored|]. split; [vm_compute; reflexivity|]. split; [vm_compute; reflexivity|].
  split; [apply (dangling _ a3); vm_compute; reflexivity|]. fuels 5.
Qed.
Print Assumptions C66_delete_refuted.

(** C66 is false for updates: afterwards the new index finds row 1 under the value it no longer has. *)
Theorem C66_update_refuted : let a1' := Acct 1 10 4 false in let os := late flagged (CUpdate [a1']) in
  th_res (call_at flagged (demo_env 5) (CUpdate [a1']) tt sees) = Some (Ok tt) /\
  live_re_index one_batch os flagged rows123 [by_flag] = (built os, 2, Ok tt) /\
  forall fuel, 5 <= fuel -> on_rows (built os) fuel = ([a1'; a3], Ok tt).
Proof. cbv zeta. split; [vm_compute; reflexivity|]. split; [vm_compute; reflexivity|]. fuels 5. Qed.
Print Assumptions C66_update_refuted.

(** C66 is false for an Insert that began before AddIndex and commits after the iterator was created: the row has no entry. *)
Theorem C66_old_insert_refuted : let os := late accts (CInsert [a4]) in
  th_res (call_at accts (demo_env 5) (CInsert [a4]) tt sees) = Some (Ok tt) /\
  live_re_index one_batch os flagged rows123 [by_flag] = (built os, 2, Ok tt) /\
  kv_get (built os) (row_key fsc (s_pk fsc a4)) = t_ser accts a4 /\ (~ exists m, Rep fsc (built os) m) /\
  forall fuel, 5 <= fuel -> on_rows (built os) fuel = ([a1; a3], Ok tt).
Proof.
  cbv zeta. split; [vm_compute; reflexivity|]. split; [vm_compute; reflexivity|]. split; [vm_compute; reflexivity|].
  split; [eapply (missing _ a4); vm_compute; reflexivity|]. fuels 5.
Qed.
Print Assumptions C66_old_insert_refuted.
