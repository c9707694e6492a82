(** Adding and rebuilding indexes: AddIndex and ReIndex of /repo/table.go. *)

From Coq Require Import List NArith Bool Arith.
From Verif.Model Require Import Bytes Go Keys Pebble Index Table.
Import ListNotations.

(** The part of a table that AddIndex changes: the map secondaryIndexes, in some order, and whether the mutex is
    held by a writer; /repo/table.go:135, 148. *)
Record ix_state (T : Type) := IxState { xs_map : list (index T); xs_held : bool }.
Arguments IxState {T}.
Arguments xs_map {T}.
Arguments xs_held {T}.

(** The table whose map is [l]; /repo/table.go:126-149. *)
Definition with_indexes {T F} (tb : table T F) (l : list (index T)) : table T F :=
  MkTable (t_id tb) (t_pk tb) l (t_ser tb) (t_deser tb) (t_nil tb) (t_empty tb) (t_prefetch tb) (t_filter tb).

(** The map lookup at /repo/table.go:251. *)
Definition has_index {T} (m : list (index T)) (i : byte) : bool := existsb (fun j => Byte.eqb (ix_id j) i) m.

(** The loop at /repo/table.go:250-256: the map it leaves and the id of the duplicate it stopped at. *)
Fixpoint add_loop {T} (m idxs : list (index T)) : list (index T) * option byte :=
  match idxs with
  | [] => (m, None)
  | ix :: idxs' => if has_index m (ix_id ix) then (m, Some (ix_id ix)) else add_loop (m ++ [ix]) idxs'
  end.

(** /repo/table.go:248-257: AddIndex up to the end of the locked part. The return inside the loop does not unlock.
    [Diverge]: the call waits for the mutex and nobody will release it (every other holder in /repo/table.go releases it,
    so a mutex found held is held forever). *)
Definition add_index {T} (st : ix_state T) (idxs : list (index T)) : ix_state T * res unit :=
  if xs_held st then (st, Diverge)
  else match add_loop (xs_map st) idxs with
       | (m, None) => (IxState m false, Ok tt)
       | (m, Some i) => (IxState m true, Err (EDuplicateIndex i))
       end.

(** A call that takes the read lock and works with the indexes: Indexes, SecondaryIndexes, Insert, Update, Delete, Upsert
    (/repo/table.go:197, 233, 339, 453, 578, 638) and the unsafe calls (/repo/table_unsafe.go:25, 114). *)
Definition with_read_lock {T A} (st : ix_state T) (f : list (index T) -> res A) : res A :=
  if xs_held st then Diverge else f (xs_map st).

(** What ReIndex does not determine: does the n-th write of the call (a DeleteRange or a batch commit) reach the database,
    and ReindexBatchSize (/repo/table.go:18, 10000 in the code). A crash after n writes leaves the database of a call whose
    write n fails. *)
Record renv := REnv { r_write : nat -> bool; r_batch : nat }.

(** /repo/table.go:267-275: the loop over the indexes; byte(idx.IndexID + 1) wraps. The flag tells whether all writes succeeded. *)
Fixpoint re_delete {T} (ev : renv) (tid : byte) (idxs : list (index T)) (n : nat) (db : kv) : kv * nat * bool :=
  match idxs with
  | [] => (db, n, true)
  | ix :: idxs' =>
      if r_write ev n
      then re_delete ev tid idxs' (S n) (kv_del_range db [tid; ix_id ix] [tid; n2b (b2n (ix_id ix) + 1)])
      else (db, n, false)
  end.

(** keyPrefix(t.id, t.primaryIndex, t.valueEmpty, _); /repo/table.go:279, 1250-1260 with primaryIndexKey (/repo/table.go:31). *)
Definition primary_prefix {T F} (tb : table T F) : bytes :=
  key_encode_raw (t_id tb) primary_index_id (Some (fun b => ix_key primary_index (new_kb b) (t_empty tb))) None None [].

(** The items met by [for iter.SeekGE(k); iter.Valid(); iter.Next()]; /repo/table.go:297. *)
Definition items_from (it : piter) (k : bytes) : kv :=
  match find_ge (pi_items it) k 0 with Some n => skipn n (pi_items it) | None => [] end.

(** /repo/table.go:294-331: the loop over the rows and the last commit. [ops] is the content of the current batch. A failed
    deserialization or write returns with the batch dropped. *)
Fixpoint re_rows {T F} (ev : renv) (tb : table T F) (idxs : list (index T)) (items : kv)
    (db : kv) (n : nat) (ops : list bop) (counter : nat) : kv * res unit :=
  match items with
  | [] => if r_write ev n then (apply_ops db ops, Ok tt) else (db, Err ECommit)
  | (_, v) :: items' =>
      match t_deser tb v (t_nil tb) with
      | None => (db, Err EDeserialize)
      | Some tr =>
          let ops := ops ++ flat_map (fun ix => on_insert (t_id tb) (t_pk tb) ix tr) idxs in
          if Nat.leb (r_batch ev) (S counter)
          then if r_write ev n then re_rows ev tb idxs items' (apply_ops db ops) (S n) [] 0 else (db, Err ECommit)
          else re_rows ev tb idxs items' db n ops (S counter)
      end
  end.

(** /repo/table.go:265-336 ReIndex. The iterator is a snapshot of the database after the DeleteRange calls. *)
Definition re_index {T F} (ev : renv) (tb : table T F) (db : kv) (idxs : list (index T)) : kv * res unit :=
  match re_delete ev (t_id tb) idxs 0 db with
  | (db', _, false) => (db', Err ECommit)
  | (db', n, true) =>
      let p := primary_prefix tb in
      re_rows ev tb idxs (items_from (new_iter db' p (key_successor p)) p) db' n [] 0
  end.

(** /repo/table.go:248-263 AddIndex with reIndex given. *)
Definition add_index_call {T F} (ev : renv) (tb : table T F) (st : ix_state T) (db : kv) (idxs : list (index T)) (re : bool) :
    ix_state T * kv * res unit :=
  match add_index st idxs with
  | (st', Ok _) => if re then let '(db', r) := re_index ev (with_indexes tb (xs_map st')) db idxs in (st', db', r) else (st', db, Ok tt)
  | (st', r) => (st', db, r)
  end.
