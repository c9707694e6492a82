(** Property C81: contexts. *)

From Coq Require Import String List Bool Arith Lia NArith.
From Verif.Model Require Import Bytes Go Keys Pebble Index Table Scan Query Context.
From Verif.Spec Require Import KeySpec StoreSpec TableSpec HistSpec ScanSpec QuerySpec ContextSpec.
From Verif.Proofs Require Import Witness TableBugs ScanBugs QueryBugs LiveBugs ContextFacts ContextBugs.
Import ListNotations.

(** C81. However a program derives a context from Background, keeping off the two strings bond uses: the batch retrieved from it is
    the one given last, nil if none was given or the last one was nil; likewise the sync batch. *)
Theorem C81_context_values : forall (B P X : Type) (l : list (cstep B P X)), Forall keeps_off l -> exists c, derive l = Ok c /\
  (forall x, last_picked gives_batch l x -> context_retrieve_batch (Some c) = Ok x) /\
  (forall x, last_picked gives_sync l x -> context_retrieve_sync_batch (Some c) = Ok x).
Proof. exact @derived. Qed.
Print Assumptions C81_context_values.

Example C81_values_case : let l := [StBatch (Some 1); StSync (Some 5); StWrap; StBatch (Some 2); StValue (KOther 3) (VOther true); StBatch None; StBatch (Some 4)] in
  Forall keeps_off l /\ (exists c, derive l = Ok c /\ context_retrieve_batch (Some c) = Ok (Some 4) /\ context_retrieve_sync_batch (Some c) = Ok (Some 5)) /\
  exists c, derive (l ++ [StBatch None]) = Ok c /\ context_retrieve_batch (Some c) = Ok None.
Proof. cbn zeta. split; [repeat constructor; discriminate|]. split; eexists; repeat split. Qed.

(** C81 fails if another package uses the same string as a key: retrieving the batch panics. *)
Theorem C81_foreign_value_refuted : exists (l : list (cstep nat nat bool)) c, derive l = Ok c /\
  last_picked gives_batch l (Some 7) /\ context_retrieve_batch (Some c) = Panic.
Proof. exact foreign_value. Qed.
Print Assumptions C81_foreign_value_refuted.

(** C81. Whatever the database holds and whenever the context is cancelled: a write call returns the context's error, or it does
    what it would do with a context that is never cancelled. *)
Theorem C81_write_error_or_same : forall (T F : Type) (tb : table T F) ev db fl ob c,
  let out := run_call tb ev db fl ob c in snd out = Err ECtx \/ out = run_call tb (calm ev) db fl ob c.
Proof. exact @call_calm. Qed.
Print Assumptions C81_write_error_or_same.

Theorem C81_unsafe_error_or_same : forall (T F : Type) (tb : table T F) ev db fl ob l olds,
  (let out := unsafe_insert tb ev db fl ob l in snd out = Err ECtx \/ out = unsafe_insert tb (calm ev) db fl ob l) /\
  (let out := unsafe_update tb ev db fl ob l olds in snd out = Err ECtx \/ out = unsafe_update tb (calm ev) db fl ob l olds).
Proof. exact @unsafe_calm. Qed.
Print Assumptions C81_unsafe_error_or_same.

(** C81. The same for scans with any callback, and for queries: never a part of the answer without an error. *)
Theorem C81_scan_error_or_same : forall (T F W : Type) (tb : table T F) ev fuel db fl idx sel (f : W -> bytes -> prog (T:=T) W) rv ob s,
  let out := scan_index_for_each tb ev fuel db fl idx sel f rv ob s in
  snd out = Err ECtx \/ out = scan_index_for_each tb (calm ev) fuel db fl idx sel f rv ob s.
Proof. intros T F W tb ev. exact (scan_calm tb ev). Qed.
Print Assumptions C81_scan_error_or_same.

Theorem C81_query_error_or_same : forall (T F : Type) (tb : table T F) ev srt fuel db fl q ob,
  error_or (execute tb ev srt fuel db fl q ob) (execute tb (calm ev) srt fuel db fl q ob).
Proof. exact @execute_calm. Qed.
Print Assumptions C81_query_error_or_same.

(** cancelled at the second check: a scan of the table ends there, one by an index reads its one block; both are right *)
Example C81_error_or_same_case :
  execute accts soon_cancelled isort 9 abc_db tt (new_query accts) NoBatch = Err ECtx /\
  execute accts (calm soon_cancelled) isort 9 abc_db tt (new_query accts) NoBatch = Ok [a1; a2; a3] /\
  snd (insert accts soon_cancelled [] tt None [a1; a2; a3]) = Err ECtx /\
  snd (insert accts (calm soon_cancelled) [] tt None [a1; a2; a3]) = Ok tt.
Proof. repeat split; vm_compute; reflexivity. Qed.

(** C81. A context cancelled before the call: a write call of at least one row returns its error and leaves the database, the filter
    and the batch it was given alone; without rows it succeeds. *)
Theorem C81_cancelled_write : forall (T F : Type) (tb : table T F) ev, dead ev -> forall db fl ob c rows, env_ok ev ->
  (c = CInsert rows \/ c = CUpdate rows \/ (exists f, c = CUpsert f rows) \/ c = CDelete rows) ->
  run_call tb ev db fl ob c = match rows with [] => (WRes db fl ob, Ok tt) | _ => (WRes db fl ob, Err ECtx) end.
Proof. exact @call_dead. Qed.
Print Assumptions C81_cancelled_write.

Theorem C81_cancelled_unsafe : forall (T F : Type) (tb : table T F) ev, dead ev -> forall db fl ob (rows olds : list T), env_ok ev -> rows <> [] ->
  unsafe_insert tb ev db fl ob rows = (WRes db fl ob, Err ECtx) /\
  (length rows = length olds -> unsafe_update tb ev db fl ob rows olds = (WRes db fl ob, Err ECtx)).
Proof. exact @unsafe_dead. Qed.
Print Assumptions C81_cancelled_unsafe.

Example C81_cancelled_write_case : dead never_started /\ env_ok never_started /\
  update accts never_started abc_db tt (Some (Batch true [BDel [x07]])) [a3; a1] = (WRes abc_db tt (Some (Batch true [BDel [x07]])), Err ECtx).
Proof. split; [exact never_started_dead|]. split; [exact never_started_ok|]. vm_compute. reflexivity. Qed.

(** C81. A scan begun with a cancelled context does not call back; it returns the error if there is a row to visit and
    no error if there is none. *)
Theorem C81_cancelled_scan : forall (T F : Type) (tb : table T F), good_table tb -> forall ev, dead ev ->
  forall db fl ob m, reads tb db fl ob m -> forall idx sel, In idx (primary_index :: t_indexes tb) -> short_sel (sindex_of idx) sel ->
  exists l, visits tb idx m sel l /\
  forall W (f : W -> bytes -> prog (T:=T) W) rv fuel s, 0 < fuel ->
    scan_index_for_each tb ev fuel db fl idx sel f rv ob s = (s, match l with [] => Ok tt | _ => Err ECtx end).
Proof. exact @scan_cancelled. Qed.
Print Assumptions C81_cancelled_scan.

(** C81. So does a query; with Intersects it succeeds, with no rows, only if none of its parts has a row to visit. *)
Theorem C81_cancelled_query : forall (T F : Type) (tb : table T F), good_table tb -> forall ev, dead ev -> forall srt,
  forall db fl ob m, reads tb db fl ob m -> forall (q : query T), sorts srt -> In (q_index q) (primary_index :: t_indexes tb) ->
  short_sel (sindex_of (q_index q)) (q_sel q) -> q_inter q = [] -> (q_after q = None \/ q_less q <> None) ->
  (q_offset q < 2 ^ 63)%N -> (q_limit q < 2 ^ 63)%N ->
  exists l, visits tb (q_index q) m (q_sel q) l /\
  forall fuel, 0 < fuel -> execute tb ev srt fuel db fl q ob = match l with [] => Ok [] | _ => Err ECtx end.
Proof. exact @query_cancelled. Qed.
Print Assumptions C81_cancelled_query.

Theorem C81_cancelled_intersect : forall (T F : Type) (tb : table T F), good_table tb -> forall ev, dead ev -> forall srt,
  forall db fl ob m, reads tb db fl ob m -> forall (q : query T), sorts srt ->
  (forall x, In x (q :: q_inter q) -> In (q_index x) (primary_index :: t_indexes tb) /\ short_sel (sindex_of (q_index x)) (q_sel x)) ->
  q_inter q <> [] -> (forall x, In x (q_inter q) -> plain_part x) -> (q_offset q < 2 ^ 63)%N -> (q_limit q < 2 ^ 63)%N ->
  exists ls, Forall2 (fun x l => visits tb (q_index x) m (q_sel x) l) (q :: q_inter q) ls /\
  forall fuel, 0 < fuel -> execute tb ev srt fuel db fl q ob =
    if forallb (fun l => match l with [] => true | _ => false end) ls then Ok [] else Err ECtx.
Proof. exact @inter_cancelled. Qed.
Print Assumptions C81_cancelled_intersect.

Example C81_cancelled_read_case : dead never_started /\ reads accts abc_db tt NoBatch abc_m /\
  scan_index accts never_started 9 abc_db tt acct_by_kind (SPoint (Acct 0 10 9 true)) [] false NoBatch = ([], Err ECtx) /\
  scan_index accts never_started 9 abc_db tt acct_by_kind (SPoint (Acct 0 12 9 true)) [] false NoBatch = ([], Ok tt) /\
  execute accts never_started isort 9 abc_db tt (new_query accts) NoBatch = Err ECtx.
Proof. split; [exact never_started_dead|]. split; [exact abc_reads|]. repeat split; vm_compute; reflexivity. Qed.

(** A cancelled context need not be noticed: Get never looks at it, and a scan by an index looks once per block. *)
Theorem C81_get_ignores_refuted : reads accts abc_db tt NoBatch abc_m /\ dead never_started /\
  get_points accts never_started abc_db tt None [Acct 1 0 0 true; Acct 3 0 0 true] = Ok [a1; a3].
Proof. exact get_ignores. Qed.
Print Assumptions C81_get_ignores_refuted.

Theorem C81_scan_unnoticed_refuted : reads accts abc_db tt NoBatch abc_m /\ (forall n, e_ctx soon_cancelled (S n) = true) /\
  forall fuel, 4 <= fuel -> scan_index accts soon_cancelled fuel abc_db tt acct_by_score (SRange (Acct 0 0 0 true) (Acct 9 0 9 true)) [] false NoBatch
    = ([a2; a3; a1], Ok tt).
Proof. exact scan_unnoticed. Qed.
Print Assumptions C81_scan_unnoticed_refuted.
