(** Property C70: calls that share pooled buffers. *)

From Coq Require Import List NArith Bool Arith Lia.
From Verif.Model Require Import Bytes Go Keys Pebble Index Table Slices Mem.
From Verif.Spec Require Import SliceSpec TableSpec MemSpec.
From Verif.Proofs Require Import MemFacts MemCalls Witness TableBugs MemWitness.
Import ListNotations.

(** C70, Insert: for every table whose key functions append, all buffers that overlap nowhere, every growth of memory and everything other
    goroutines do to memory that is not held: the outcome is that of the call on values, of which Props/Table.v speaks; the buffers that go
    back to the pools overlap nowhere; and the call never changes what other slices show. *)
Theorem C70_insert : forall grow noise foreign T F (mt : mtable T F) (ev : env T) m ib vb keys db fl ob trs st out,
  leaves noise foreign -> implements mt -> env_ok ev ->
  buffers (m_heap m) (ib :: vb :: keys ++ foreign) -> length keys = Nat.min (length trs) (e_chunk ev) ->
  m_insert grow noise mt ev m ib vb keys db fl ob trs = (st, out) ->
  out = insert (mt_val mt) ev db fl ob trs /\ returned foreign m (ms_mem st) (ib :: vb :: ms_keys st).
Proof. exact @mem_insert. Qed.
Print Assumptions C70_insert.

(** C70, Update. *)
Theorem C70_update : forall grow noise foreign T F (mt : mtable T F) (ev : env T) m ib ib2 vb keys db fl ob trs st out,
  leaves noise foreign -> implements mt -> env_ok ev ->
  buffers (m_heap m) (ib :: ib2 :: vb :: keys ++ foreign) -> length keys = Nat.min (length trs) (e_chunk ev) ->
  m_update grow noise mt ev m ib ib2 vb keys db fl ob trs = (st, out) ->
  out = update (mt_val mt) ev db fl ob trs /\ returned foreign m (ms_mem st) (ib :: ib2 :: vb :: ms_keys st).
Proof. exact @mem_update. Qed.
Print Assumptions C70_update.

(** C70, Upsert. *)
Theorem C70_upsert : forall grow noise foreign T F (mt : mtable T F) (ev : env T) on_conflict m ib ib2 vb keys db fl ob trs st out,
  leaves noise foreign -> implements mt -> env_ok ev ->
  buffers (m_heap m) (ib :: ib2 :: vb :: keys ++ foreign) -> length keys = Nat.min (length trs) (e_chunk ev) ->
  m_upsert grow noise mt ev on_conflict m ib ib2 vb keys db fl ob trs = (st, out) ->
  out = upsert (mt_val mt) ev on_conflict db fl ob trs /\ returned foreign m (ms_mem st) (ib :: ib2 :: vb :: ms_keys st).
Proof. exact @mem_upsert. Qed.
Print Assumptions C70_upsert.

(** C70, Delete. *)
Theorem C70_delete : forall grow noise foreign T F (mt : mtable T F) (ev : env T) m kb ib db fl ob trs m' out,
  leaves noise foreign -> implements mt -> env_ok ev ->
  buffers (m_heap m) (kb :: ib :: foreign) -> m_delete grow noise mt ev m kb ib db fl ob trs = (m', out) ->
  out = delete (mt_val mt) ev db fl ob trs /\ returned foreign m m' [kb; ib].
Proof. exact @mem_delete. Qed.
Print Assumptions C70_delete.

(** C70, UnsafeInsert. *)
Theorem C70_unsafe_insert : forall grow noise foreign T F (mt : mtable T F) (ev : env T) m ib vb keys db fl ob trs st out,
  leaves noise foreign -> implements mt -> env_ok ev ->
  buffers (m_heap m) (ib :: vb :: keys ++ foreign) -> length keys = Nat.min (length trs) (e_chunk ev) ->
  m_unsafe_insert grow noise mt ev m ib vb keys db fl ob trs = (st, out) ->
  out = unsafe_insert (mt_val mt) ev db fl ob trs /\ returned foreign m (ms_mem st) (ib :: vb :: ms_keys st).
Proof. exact @mem_unsafe_insert. Qed.
Print Assumptions C70_unsafe_insert.

(** C70, UnsafeUpdate. *)
Theorem C70_unsafe_update : forall grow noise foreign T F (mt : mtable T F) (ev : env T) m kb ib ib2 vb db fl ob trs olds m' vb' out,
  leaves noise foreign -> implements mt -> env_ok ev ->
  buffers (m_heap m) (kb :: ib :: ib2 :: vb :: foreign) ->
  m_unsafe_update grow noise mt ev m kb ib ib2 vb db fl ob trs olds = (m', vb', out) ->
  out = unsafe_update (mt_val mt) ev db fl ob trs olds /\ returned foreign m m' [kb; ib; ib2; vb].
Proof. exact @mem_unsafe_update. Qed.
Print Assumptions C70_unsafe_update.

(** C70, Exist. *)
Theorem C70_exist : forall grow noise foreign T F (mt : mtable T F) m kb db fl ob tr m' r,
  leaves noise foreign -> implements mt -> buffers (m_heap m) (kb :: foreign) ->
  m_exist grow noise mt m kb db fl ob tr = (m', r) -> r = exist (mt_val mt) db fl ob tr /\ returned foreign m m' [kb].
Proof. exact @mem_exist. Qed.
Print Assumptions C70_exist.

(** C70, Get of one row. *)
Theorem C70_get_point : forall grow noise foreign T F (mt : mtable T F) m kb db fl ob tr m' r,
  leaves noise foreign -> implements mt -> buffers (m_heap m) (kb :: foreign) ->
  m_get_one grow noise mt m kb db fl ob tr = (m', r) -> r = get_one (mt_val mt) db fl ob tr /\ returned foreign m m' [kb].
Proof. exact @mem_get_one. Qed.
Print Assumptions C70_get_point.

(** C70, Get of several rows. *)
Theorem C70_get_points : forall grow noise foreign T F (mt : mtable T F) (ev : env T) m keys values db fl ob pts m' keys' values' r,
  leaves noise foreign -> implements mt -> env_ok ev ->
  buffers (m_heap m) (keys ++ values ++ foreign) -> length keys = length pts -> length values = length pts ->
  m_get_points grow noise mt ev m keys values db fl ob pts = (m', keys', values', r) ->
  r = get_points (mt_val mt) ev db fl ob pts /\ returned foreign m m' (keys' ++ values').
Proof. exact @mem_get_points. Qed.
Print Assumptions C70_get_points.

(** C70. Key functions made of builder calls (Model/Slices.v) append, whatever the capacity: the hypothesis [implements]. *)
Theorem C70_builder_functions : forall grow xs f,
  (forall b, exists k, add_fields (new_kb b) xs = Ok k /\ kb_buff k = f b) -> appends (h_fields grow xs) f.
Proof. exact fields_append. Qed.
Print Assumptions C70_builder_functions.

(** The accounts of Proofs/Witness.v on memory, other goroutines that write over a free array and allocate, buffers side by side in one array, some
    without enough room: Insert of three rows in chunks of two, Update of one, Get of two. *)
Example C70_case : implements accts_mem /\ leaves (scribble 4 others) others /\ buffers (m_heap room) (kb1 :: kb2 :: valb :: key_bufs ++ others) /\
  (let '(st, out) := m_insert dbl (scribble 4 others) accts_mem (demo_env 2) room kb1 valb (firstn 2 key_bufs) [] tt None abc in
   snd out = Ok tt /\ r_db (fst out) = abc_db /\ length (m_past (ms_mem st)) = 14 /\
   m_heap (ms_mem st) <> m_heap room /\ sl_read (m_heap (ms_mem st)) (Slc 3 0 3 3) = [x01; x02; x03]) /\
  (let '(st, out) := m_update dbl (scribble 4 others) accts_mem (demo_env 2) room kb1 kb2 valb [Slc 2 50 0 2] abc_db tt None [Acct 3 10 9 true] in
   out = update accts (demo_env 2) abc_db tt None [Acct 3 10 9 true] /\ snd out = Ok tt /\ r_db (fst out) <> abc_db) /\
  (let '(_, _, _, r) := m_get_points dbl (scribble 4 others) accts_mem (demo_env 2) room [Slc 2 50 0 2; Slc 2 0 0 25] [Slc 2 25 0 25; valb] abc_db tt None
      [Acct 3 0 0 false; Acct 1 0 0 false] in r = Ok [Acct 3 10 5 true; Acct 1 10 6 true]).
Proof.
  split; [exact accts_implements|]. split; [apply scribble_leaves|]. split; [exact room_buffers|].
  split; [|split]; vm_compute; repeat split; discriminate.
Qed.

(** Why the buffers must not overlap: with one buffer for both keys, Update finds no difference and the index entry of the old row stays. *)
Example C70_same_buffer :
  let '(st, out) := m_update dbl (scribble 4 others) accts_mem (demo_env 2) room kb1 kb1 valb [Slc 2 50 0 2] abc_db tt None [Acct 3 10 9 true] in
  snd out = Ok tt /\ r_db (fst out) <> r_db (fst (update accts (demo_env 2) abc_db tt None [Acct 3 10 9 true])).
Proof. vm_compute. split; [reflexivity|discriminate]. Qed.
