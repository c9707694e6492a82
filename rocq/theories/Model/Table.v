(** Tables: write calls and point reads of /repo/table.go and /repo/table_unsafe.go.

    Buffers and pools are modelled by value (Model/Mem.v has them as memory). The read lock taken to copy the
    index map (e.g. /repo/table.go:339-342) is not visible in a single call and is dropped here;
    the lock is modelled with AddIndex. *)

From Coq Require Import List NArith Bool Arith.
From Verif.Model Require Import Bytes Go Keys Pebble Index.
Import ListNotations.

(** A filter attached to a table: state [F], Add and MayContain; /repo/filter.go:15-22. *)
Record filt (F : Type) := Filt {
  f_add : F -> bytes -> F;
  f_may : F -> bytes -> bool
}.
Arguments Filt {F}.
Arguments f_add {F}.
Arguments f_may {F}.

(** /repo/table.go:126-149 _table. [t_indexes] lists the secondaryIndexes map in some
    order. [t_ser] is the serializer ([None] = error), [t_deser bs prior] decodes
    [bs] into a variable that held [prior]. [t_nil] is the zero value of T
    ([var tr T], valueNil), [t_empty] is valueEmpty = utils.MakeNew. *)
Record table (T F : Type) := MkTable {
  t_id : byte;
  t_pk : key_builder -> T -> bytes;
  t_indexes : list (index T);
  t_ser : T -> option bytes;
  t_deser : bytes -> T -> option T;
  t_nil : T;
  t_empty : T;
  t_prefetch : nat;
  t_filter : option (filt F)
}.
Arguments MkTable {T F}.
Arguments t_id {T F}.
Arguments t_pk {T F}.
Arguments t_indexes {T F}.
Arguments t_ser {T F}.
Arguments t_deser {T F}.
Arguments t_nil {T F}.
Arguments t_empty {T F}.
Arguments t_prefetch {T F}.
Arguments t_filter {T F}.

(** What a call does not determine itself:
    - [e_sort] the order in which sort.Sort (/repo/table.go:1196-1209) leaves the keys: position i holds
      the original position of the i-th smallest key;
    - [e_ctx n] is the n-th ctx.Done() check of the call positive;
    - [e_map n l] the order in which the n-th [range indexes] visits the map;
    - [e_chunk] persistentBatchSize (/repo/table.go:22, 5000 in the code);
    - [e_commit] does pebble's commit succeed. *)
Record env (T : Type) := Env {
  e_sort : list bytes -> list nat;
  e_ctx : nat -> bool;
  e_map : nat -> list (index T) -> list (index T);
  e_chunk : nat;
  e_commit : bool
}.
Arguments Env {T}.
Arguments e_sort {T}.
Arguments e_ctx {T}.
Arguments e_map {T}.
Arguments e_chunk {T}.
Arguments e_commit {T}.

(** /repo/table.go:1224-1234 key. *)
Definition data_key {T F} (tb : table T F) (tr : T) : bytes :=
  key_encode_raw (t_id tb) primary_index_id None None
    (Some (fun b => t_pk tb (new_kb b) tr)) [].

(** /repo/table.go:177 dataKeySpaceEnd. *)
Definition data_key_space_end {T F} (tb : table T F) : bytes :=
  [t_id tb; x01; x00; x00; x00; x00].

(** /repo/table.go:1196-1209 sortKeys: the sorted keys and keyOrder. *)
Definition sort_keys {T} (ev : env T) (keys : list bytes) : list bytes * list nat :=
  let order := e_sort ev keys in
  (map (fun i => nth i keys []) order, order).

(** key[_KeyPrefixSplitIndex(key):] of the error messages; /repo/table.go:407, 530. *)
Definition after_split (key : bytes) : bytes :=
  match split_index key with
  | Ok n => skipn (N.to_nat n) key
  | _ => []
  end.

(** State of a running write call: operations in the batch, filter, the reusable
    oldTr (/repo/table.go:498, 683) and the number of rows started. *)
Record wst (T F : Type) := WSt {
  w_ops : list bop;
  w_flt : F;
  w_old : T;
  w_tick : nat
}.
Arguments WSt {T F}.
Arguments w_ops {T F}.
Arguments w_flt {T F}.
Arguments w_old {T F}.
Arguments w_tick {T F}.

(** batch.Set/Delete calls append to the batch; /repo/table.go:417, 547, 613, 745. *)
Definition add_ops {T F} (s : wst T F) (os : list bop) : wst T F :=
  WSt (w_ops s ++ os) (w_flt s) (w_old s) (w_tick s).

(** Start of a loop iteration: one ctx.Done() check, /repo/table.go:399-403, 517-521, 603-607, 703-707.
    The counter only drives the oracles of [env]. *)
Definition tick {T F} (s : wst T F) : wst T F :=
  WSt (w_ops s) (w_flt s) (w_old s) (S (w_tick s)).

(** Assignment to oldTr; /repo/table.go:533, 718, 732. *)
Definition set_old {T F} (s : wst T F) (o : T) : wst T F :=
  WSt (w_ops s) (w_flt s) o (w_tick s).

(** t.filter.Add if a filter is set; /repo/table.go:431-433, 768-770. *)
Definition flt_add {T F} (tb : table T F) (key : bytes) (s : wst T F) : wst T F :=
  match t_filter tb with
  | Some f => WSt (w_ops s) (f_add f (w_flt s) key) (w_old s) (w_tick s)
  | None => s
  end.

(** t.filter == nil || t.filter.MayContain(key); /repo/table.go:805, 819, 867, 958. *)
Definition flt_may {T F} (tb : table T F) (fl : F) (key : bytes) : bool :=
  match t_filter tb with
  | Some f => f_may f fl key
  | None => true
  end.

(** /repo/table.go:818-834 exist, with the caller's iterator (all callers pass one). *)
Definition exist_key {T F} (tb : table T F) (fl : F) (it : piter) (key : bytes) : bool :=
  flt_may tb fl key &&
  (let it := it_seek_ge it key in it_valid it && beqb (it_key it) key).

(** /repo/bond.go:275-281 Iter and /repo/batch.go:110-112: over the database, or over the
    batch; reading a non-indexed batch gives an errIterator (/repo/iter.go:43-49). *)
Definition db_iter (db : kv) (ob : option batch) (lo hi : bytes) : piter :=
  match ob with
  | None => new_iter db lo hi
  | Some b => if b_rw b then new_iter (view db ob) lo hi else err_iter ENotIndexed
  end.

(** /repo/bond.go:242-249 Get and /repo/batch.go:94-96. *)
Definition db_get (db : kv) (ob : option batch) (key : bytes) : res bytes :=
  match ob with
  | None => match kv_get db key with Some v => Ok v | None => Err ENotFound end
  | Some b =>
      if b_rw b then match kv_get (view db ob) key with Some v => Ok v | None => Err ENotFound end
      else Err ENotIndexed
  end.

(** /repo/table.go:1278-1297 batched: [num] is batchNum; [f] runs on each slice
    items[start:end] with a state. *)
Fixpoint batched_loop {A S} (fuel : nat) (items : list A) (bs num : nat)
    (f : list A -> S -> S * res unit) (s : S) : S * res unit :=
  match fuel with
  | O => (s, Diverge)
  | Datatypes.S fuel' =>
      if Nat.ltb (num * bs) (length items) then
        let start := (num * bs)%nat in
        let end_ := (start + bs)%nat in
        let end_ := if Nat.ltb (length items) end_ then (start + length items mod bs)%nat else end_ in
        match f (firstn (end_ - start) (skipn start items)) s with
        | (s', Ok _) => batched_loop fuel' items bs (Datatypes.S num) f s'
        | r => r
        end
      else (s, Ok tt)
  end.

(** /repo/table.go:1278-1297 batched. One more iteration than items is enough fuel
    for a positive batch size. *)
Definition batched {A S} (items : list A) (bs : nat) (f : list A -> S -> S * res unit) (s : S) : S * res unit :=
  batched_loop (Datatypes.S (length items)) items bs 0 f s.

Section Calls.
  Context {T F : Type}.
  Variable tb : table T F.
  Variable ev : env T.

  (** The loop over the rows of one chunk of Insert, /repo/table.go:398-434. [prev]
      is keys[i-1] (keyDuplicate, /repo/table.go:1245-1247). [rows] pairs the sorted keys with keyOrder. *)
  Fixpoint insert_rows (it : piter) (trs : list T) (prev : option bytes)
      (rows : list (bytes * nat)) (s : wst T F) : wst T F * res unit :=
    match rows with
    | [] => (s, Ok tt)
    | (key, o) :: rows' =>
        let n := w_tick s in
        let s := tick s in
        if e_ctx ev n then (s, Err ECtx)
        else if (match prev with Some p => beqb key p | None => false end)
                || exist_key tb (w_flt s) it key
        then (s, Err (EExists (after_split key)))
        else
          match nth_error trs o with
          | None => (s, Panic)
          | Some tr =>
              match t_ser tb tr with
              | None => (s, Err ESerialize)
              | Some data =>
                  let s := add_ops s (BSet key data ::
                             flat_map (fun idx => on_insert (t_id tb) (t_pk tb) idx tr)
                                      (e_map ev n (t_indexes tb))) in
                  insert_rows it trs (Some key) rows' (flt_add tb key s)
              end
          end
    end.

  (** The snapshot a chunk reads: the batch contents for a read-write batch, else
      the database; /repo/table.go:357-359, 389-394 and the same lines in Update and Upsert. *)
  Definition chunk_snapshot (db : kv) (rw : bool) (ops : list bop) : kv :=
    if rw then apply_ops db ops else db.

  (** keys[0] as lower bound and dataKeySpaceEnd as upper bound; /repo/table.go:389-394. *)
  Definition chunk_iter (db : kv) (rw : bool) (ops : list bop) (keys : list bytes) : piter :=
    new_iter (chunk_snapshot db rw ops) (hd [] keys) (data_key_space_end tb).

  (** One chunk of Insert; /repo/table.go:381-437. keys[0] of an empty chunk would panic. *)
  Definition insert_chunk (db : kv) (rw : bool) (trs : list T) (s : wst T F) : wst T F * res unit :=
    let '(keys, order) := sort_keys ev (map (data_key tb) trs) in
    match keys with
    | [] => (s, Panic)
    | _ => insert_rows (chunk_iter db rw (w_ops s) keys) trs None (combine keys order) s
    end.

  (** The loop over the rows of one chunk of Update, /repo/table.go:516-559. *)
  Fixpoint update_rows (it : piter) (trs : list T)
      (rows : list (bytes * nat)) (s : wst T F) : wst T F * res unit :=
    match rows with
    | [] => (s, Ok tt)
    | (key, o) :: rows' =>
        let n := w_tick s in
        let s := tick s in
        if e_ctx ev n then (s, Err ECtx)
        else if (match rows' with (k2, _) :: _ => beqb k2 key | [] => false end)
        then update_rows it trs rows' s
        else
          let it' := it_seek_ge it key in
          if negb (it_valid it') || negb (beqb (it_key it') key)
          then (s, Err (EMissing (after_split key)))
          else
            match t_deser tb (it_value it') (w_old s) with
            | None => (s, Err EDeserialize)
            | Some old =>
                let s := set_old s old in
                match nth_error trs o with
                | None => (s, Panic)
                | Some tr =>
                    match t_ser tb tr with
                    | None => (s, Err ESerialize)
                    | Some data =>
                        update_rows it trs rows'
                          (add_ops s (BSet key data ::
                             flat_map (fun idx => on_update (t_id tb) (t_pk tb) idx old tr)
                                      (e_map ev n (t_indexes tb))))
                    end
                end
            end
    end.

  (** One chunk of Update; /repo/table.go:500-562. *)
  Definition update_chunk (db : kv) (rw : bool) (trs : list T) (s : wst T F) : wst T F * res unit :=
    let '(keys, order) := sort_keys ev (map (data_key tb) trs) in
    match keys with
    | [] => (s, Panic)
    | _ => update_rows (chunk_iter db rw (w_ops s) keys) trs (combine keys order) s
    end.

  Variable on_conflict : T -> T -> T.

  (** The inner loop of Upsert over repeated keys, /repo/table.go:731-736. It indexes the
      unsorted slice, trs[i], where i is a position in the sorted keys.
      Returns (i, oldTr, tr); [None] is an index out of range. *)
  Fixpoint upsert_dups (fuel : nat) (keys : list bytes) (trs : list T) (i : nat) (old tr : T)
      : option (nat * T * T) :=
    match fuel with
    | O => Some (i, old, tr)
    | S fuel' =>
        if Nat.ltb i (length keys - 1) && beqb (nth (S i) keys []) (nth i keys []) then
          match nth_error trs (S i) with
          | None => None
          | Some new => upsert_dups fuel' keys trs (S i) tr (on_conflict tr new)
          end
        else Some (i, old, tr)
    end.

  (** The loop of Upsert over the sorted keys, /repo/table.go:701-773; [fuel] bounds the
      number of iterations (the length of keys suffices as i grows). *)
  Fixpoint upsert_rows (fuel : nat) (it : piter) (trs : list T) (keys : list bytes) (order : list nat)
      (i : nat) (s : wst T F) : wst T F * res unit :=
    match fuel with
    | O => (s, if Nat.ltb i (length keys) then Diverge else Ok tt)
    | S fuel' =>
        if Nat.ltb i (length keys) then
          match nth_error trs (nth i order 0) with
          | None => (s, Panic)
          | Some tr =>
              let n := w_tick s in
              let s := tick s in
              if e_ctx ev n then (s, Err ECtx)
              else
                let key := nth i keys [] in
                let is_update := exist_key tb (w_flt s) it key in
                match (if is_update then t_deser tb (it_value (it_seek_ge it key)) (w_old s)
                       else Some (w_old s)) with
                | None => (s, Err EDeserialize)
                | Some old =>
                    let tr := if is_update then on_conflict old tr else tr in
                    match upsert_dups (length keys) keys trs i old tr with
                    | None => (set_old s old, Panic)
                    | Some (i', old', tr') =>
                        let s := set_old s old' in
                        match t_ser tb tr' with
                        | None => (s, Err ESerialize)
                        | Some data =>
                            let s := add_ops s (BSet key data ::
                               (if is_update
                                then flat_map (fun idx => on_update (t_id tb) (t_pk tb) idx old' tr')
                                              (e_map ev n (t_indexes tb))
                                else flat_map (fun idx => on_insert (t_id tb) (t_pk tb) idx tr')
                                              (e_map ev n (t_indexes tb)))) in
                            let s := if is_update then s else flt_add tb key s in
                            upsert_rows fuel' it trs keys order (S i') s
                        end
                    end
                end
          end
        else (s, Ok tt)
    end.

  (** One chunk of Upsert; /repo/table.go:685-776. *)
  Definition upsert_chunk (db : kv) (rw : bool) (trs : list T) (s : wst T F) : wst T F * res unit :=
    let '(keys, order) := sort_keys ev (map (data_key tb) trs) in
    match keys with
    | [] => (s, Panic)
    | _ => upsert_rows (length keys) (chunk_iter db rw (w_ops s) keys) trs keys order 0 s
    end.

  (** The loop of Delete; /repo/table.go:602-625. *)
  Fixpoint delete_rows (trs : list T) (s : wst T F) : wst T F * res unit :=
    match trs with
    | [] => (s, Ok tt)
    | tr :: trs' =>
        let n := w_tick s in
        let s := tick s in
        if e_ctx ev n then (s, Err ECtx)
        else
          delete_rows trs'
            (add_ops s (BDel (data_key tb tr) ::
               flat_map (fun idx => on_delete (t_id tb) (t_pk tb) idx tr)
                        (e_map ev n (t_indexes tb))))
    end.

  (** The loop of one chunk of UnsafeInsert; /repo/table_unsafe.go:156-187. *)
  Fixpoint unsafe_insert_rows (trs : list T) (s : wst T F) : wst T F * res unit :=
    match trs with
    | [] => (s, Ok tt)
    | tr :: trs' =>
        let n := w_tick s in
        let s := tick s in
        let key := data_key tb tr in
        if e_ctx ev n then (s, Err ECtx)
        else
          match t_ser tb tr with
          | None => (s, Err ESerialize)
          | Some data =>
              let s := add_ops s (BSet key data ::
                         flat_map (fun idx => on_insert (t_id tb) (t_pk tb) idx tr)
                                  (e_map ev n (t_indexes tb))) in
              unsafe_insert_rows trs' (flt_add tb key s)
          end
    end.

  (** The loop of UnsafeUpdate; /repo/table_unsafe.go:59-92. *)
  Fixpoint unsafe_update_rows (trs olds : list T) (s : wst T F) : wst T F * res unit :=
    match trs, olds with
    | tr :: trs', old :: olds' =>
        let n := w_tick s in
        let s := tick s in
        let key := data_key tb tr in
        if e_ctx ev n then (s, Err ECtx)
        else
          match t_ser tb tr with
          | None => (s, Err ESerialize)
          | Some data =>
              unsafe_update_rows trs' olds'
                (add_ops s (BSet key data ::
                   flat_map (fun idx => on_update (t_id tb) (t_pk tb) idx old tr)
                            (e_map ev n (t_indexes tb))))
          end
    | _, _ => (s, Ok tt)
    end.

  (** What a write call leaves behind: the database, the filter and the external
      batch (if one was given). *)
  Record wres := WRes { r_db : kv; r_flt : F; r_batch : option batch }.

  (** The frame shared by all write calls, e.g. /repo/table.go:344-359, 438-449: with an external
      batch the operations stay in that batch (also after an error); otherwise a
      fresh write-only batch is committed if the body succeeded and dropped if not.
      [e_commit] false: pebble's Commit returns an error and applies nothing. *)
  Definition run_write (db : kv) (fl : F) (ob : option batch)
      (body : bool -> wst T F -> wst T F * res unit) : wres * res unit :=
    match ob with
    | Some b =>
        let '(s, r) := body (b_rw b) (WSt (b_ops b) fl (t_nil tb) 0) in
        (WRes db (w_flt s) (Some (Batch (b_rw b) (w_ops s))), r)
    | None =>
        let '(s, r) := body false (WSt [] fl (t_nil tb) 0) in
        match r with
        | Ok _ =>
            match w_ops s with
            | [] => (WRes db (w_flt s) None, Ok tt)
            | ops => if e_commit ev then (WRes (apply_ops db ops) (w_flt s) None, Ok tt)
                     else (WRes db (w_flt s) None, Err ECommit)
            end
        | _ => (WRes db (w_flt s) None, r)
        end
    end.

  (** /repo/table.go:338-450 Insert. *)
  Definition insert (db : kv) (fl : F) (ob : option batch) (trs : list T) : wres * res unit :=
    run_write db fl ob (fun rw s => batched trs (e_chunk ev) (insert_chunk db rw) s).

  (** /repo/table.go:452-575 Update. *)
  Definition update (db : kv) (fl : F) (ob : option batch) (trs : list T) : wres * res unit :=
    run_write db fl ob (fun rw s => batched trs (e_chunk ev) (update_chunk db rw) s).

  (** /repo/table.go:637-789 Upsert. *)
  Definition upsert (db : kv) (fl : F) (ob : option batch) (trs : list T) : wres * res unit :=
    run_write db fl ob (fun rw s => batched trs (e_chunk ev) (upsert_chunk db rw) s).

  (** /repo/table.go:577-635 Delete. *)
  Definition delete (db : kv) (fl : F) (ob : option batch) (trs : list T) : wres * res unit :=
    run_write db fl ob (fun _ s => delete_rows trs s).

  (** /repo/table_unsafe.go:113-203 UnsafeInsert. *)
  Definition unsafe_insert (db : kv) (fl : F) (ob : option batch) (trs : list T) : wres * res unit :=
    run_write db fl ob (fun _ s => batched trs (e_chunk ev) unsafe_insert_rows s).

  (** /repo/table_unsafe.go:20-103 UnsafeUpdate. *)
  Definition unsafe_update (db : kv) (fl : F) (ob : option batch) (trs olds : list T) : wres * res unit :=
    if Nat.eqb (length trs) (length olds)
    then run_write db fl ob (fun _ s => unsafe_update_rows trs olds s)
    else (WRes db fl ob, Err EOther).

  (** /repo/table.go:791-816 Exist. *)
  Definition exist (db : kv) (fl : F) (ob : option batch) (tr : T) : bool :=
    flt_may tb fl (data_key tb tr) &&
    match db_get db ob (data_key tb tr) with Ok _ => true | _ => false end.

  (** /repo/table.go:856-883 Get with a point selector (the single row). Every error
      of db.Get becomes ErrNotFound (line 873). *)
  Definition get_one (db : kv) (fl : F) (ob : option batch) (tr : T) : res T :=
    let key := data_key tb tr in
    if negb (flt_may tb fl key) then Err ENotFound
    else match db_get db ob key with
         | Ok v => match t_deser tb v (t_nil tb) with Some r => Ok r | None => Err EDeserialize end
         | _ => Err ENotFound
         end.

  (** /repo/table.go:836-846 GetPoint: Get of a point selector returns one row or an error. *)
  Definition get_point (db : kv) (fl : F) (ob : option batch) (tr : T) : res T :=
    match get_one db fl ob tr with
    | Ok r => Ok r
    | e => e
    end.

  (** One step of the loop of get, /repo/table.go:957-981: the value, or [None] when absent. *)
  Definition get_value (fl : F) (it : piter) (key : bytes) : option bytes :=
    if negb (flt_may tb fl key) then None
    else let it' := it_seek_ge it key in
         if negb (it_valid it') || negb (beqb (it_key it') key) then None
         else Some (it_value it').

  (** The loop of get; with errorOnNotExist an absent key ends the call (/repo/table.go:959-960, 968-969),
      without it the value is empty (962, 971). *)
  Fixpoint get_values (fl : F) (it : piter) (keys : list bytes) (err_on_absent : bool) : res (list bytes) :=
    match keys with
    | [] => Ok []
    | k :: keys' =>
        match get_value fl it k with
        | None => if err_on_absent then Err ENotFound
                  else match get_values fl it keys' err_on_absent with
                       | Ok l => Ok ([] :: l)
                       | e => e
                       end
        | Some v => match get_values fl it keys' err_on_absent with
                    | Ok l => Ok (v :: l)
                    | e => e
                    end
        end
    end.

  (** Position of [x] in a list: where keyOrder holds [x], /repo/table.go:1211-1222. *)
  Fixpoint index_of (x : nat) (l : list nat) : option nat :=
    match l with
    | [] => None
    | y :: l' => if Nat.eqb x y then Some O else option_map S (index_of x l')
    end.

  (** /repo/table.go:1211-1222 reorderValues: sorts the values by keyOrder; keyOrder is
      a permutation of 0..n-1, so position i gets the value whose keyOrder is i. *)
  Definition reorder_values (values : list bytes) (order : list nat) : list bytes :=
    map (fun i => match index_of i order with Some j => nth j values [] | None => [] end)
        (seq 0 (length values)).

  (** /repo/table.go:941-990 get. *)
  Definition get_keys (db : kv) (fl : F) (ob : option batch) (keys : list bytes) (err_on_absent : bool)
      : res (list bytes) :=
    match keys with
    | [] => Ok []
    | _ =>
        let '(skeys, order) := sort_keys ev keys in
        let it := db_iter db ob (hd [] skeys) (data_key_space_end tb) in
        match get_values fl it skeys err_on_absent with
        | Ok vs => Ok (reorder_values vs order)
        | e => e
        end
    end.

  (** /repo/table.go:903-916: decoding the values of a points Get; an empty value is the nil row. *)
  Fixpoint decode_values (vs : list bytes) : res (list T) :=
    match vs with
    | [] => Ok []
    | v :: vs' =>
        let one := match v with
                   | [] => Ok (t_nil tb)
                   | _ => match t_deser tb v (t_nil tb) with Some r => Ok r | None => Err EDeserialize end
                   end in
        match one with
        | Ok r => match decode_values vs' with
                  | Ok l => Ok (r :: l)
                  | e => e
                  end
        | Err e => Err e
        | Panic => Panic
        | Diverge => Diverge
        end
    end.

  (** /repo/table.go:885-924 Get with a points selector. batched with the whole length
      (/repo/table.go:895) runs the body once, or not at all for no points. *)
  Definition get_points (db : kv) (fl : F) (ob : option batch) (pts : list T) : res (list T) :=
    let '(acc, r) := batched pts (length pts)
      (fun ps (acc : list T) =>
         match get_keys db fl ob (map (data_key tb) ps) false with
         | Ok vs => match decode_values vs with
                    | Ok rs => (acc ++ rs, Ok tt)
                    | Err e => (acc, Err e) | Panic => (acc, Panic) | Diverge => (acc, Diverge)
                    end
         | Err e => (acc, Err e) | Panic => (acc, Panic) | Diverge => (acc, Diverge)
         end) [] in
    match r with
    | Ok _ => Ok acc
    | Err e => Err e
    | Panic => Panic
    | Diverge => Diverge
    end.

End Calls.
Arguments WRes {F}.
Arguments r_db {F}.
Arguments r_flt {F}.
Arguments r_batch {F}.
