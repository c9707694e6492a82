(** The memory behind the calls of /repo/table.go and /repo/table_unsafe.go: pooled buffers, the slices cut out of them, and
    other goroutines at work in between. Model/Table.v has the same calls with every slice a value of its own. *)

From Coq Require Import List NArith Bool Arith.
From Verif.Model Require Import Bytes Go Keys Pebble Index Table Slices.
Import ListNotations.

(** s[:0]; /repo/table.go:362, 369, 374, 502 and all calls that pass a buffer. *)
Definition sl_reset (s : slc) : slc := Slc (sl_arr s) (sl_off s) 0 (sl_cap s).

(** s[len(s):]; /repo/table.go:1138, 1143. *)
Definition sl_tail (s : slc) : slc := Slc (sl_arr s) (sl_off s + sl_len s) 0 (sl_cap s - sl_len s).

(** The nil slice; [var deleteKey []byte], /repo/index.go:304. *)
Definition sl_nil : slc := Slc 0 0 0 0.

(** Memory, and what it was at each moment when other goroutines could look at it, last first. Memory of the buffers of /repo/bond.go:324-376. *)
Record mem := Mem { m_heap : heap byte; m_past : list (heap byte) }.

(** A function that appends to a slice and returns the result, as KeyBuilder functions do; /repo/table.go:1230, /repo/index.go:409-420. *)
Definition hfun := heap byte -> slc -> heap byte * slc.

(** A table whose user functions work on memory: [mt_pk] primaryKeyFunc, [mt_key] IndexKeyFunction, [mt_ord] IndexOrderFunction (of a
    builder over the given slice); [mt_buffered]: the serializer is a SerializerWithBuffer. /repo/table.go:126-149, 377-380, /repo/index.go:136-143. *)
Record mtable (T F : Type) := MTable {
  mt_val : table T F;
  mt_pk : T -> hfun;
  mt_key : index T -> T -> hfun;
  mt_ord : index T -> T -> hfun;
  mt_buffered : bool
}.
Arguments MTable {T F}.
Arguments mt_val {T F}.
Arguments mt_pk {T F}.
Arguments mt_key {T F}.
Arguments mt_ord {T F}.
Arguments mt_buffered {T F}.

Section Mem.
  Variable grow : nat -> nat -> nat.

  (** What other goroutines make of the memory, after the moments given first, while this call holds the slices [own];
      any goroutine using the pools of /repo/bond.go:324-338. *)
  Variable noise : list (heap byte) -> list slc -> heap byte -> heap byte.

  (** Other goroutines run; see [noise], /repo/bond.go:324-338. *)
  Definition stir (own : list slc) (m : mem) : mem := Mem (noise (m_past m) own (m_heap m)) (m_heap m :: m_past m).

  (** What a slice shows now; /repo/keys.go:143-145. *)
  Definition m_read (m : mem) (s : slc) : bytes := sl_read (m_heap m) s.

  (** /repo/keys.go:223-255 KeyEncodeRaw. *)
  Definition h_key_encode_raw (table_id index_id : byte) (index_f order_f pk_f : option hfun) : hfun := fun h buff =>
    let '(h, buff) := sl_append grow x00 h buff [table_id] in
    let '(h, buff) := sl_append grow x00 h buff [index_id] in
    let '(h, buff) := sl_append grow x00 h buff [x00; x00; x00; x00] in
    let len_index := sl_len buff - 4 in
    let '(h, buff) := match index_f with
                      | Some f => let '(h, buff) := f h buff in
                                  (sl_write h buff len_index (be_bytes 4 (N.of_nat (sl_len buff - (len_index + 4)))), buff)
                      | None => (h, buff)
                      end in
    match pk_f with
    | None => (h, buff)
    | Some pf =>
        let '(h, buff) := sl_append grow x00 h buff [x00; x00; x00; x00] in
        let len_index := sl_len buff - 4 in
        let '(h, buff) := match order_f with
                          | Some f => let '(h, buff) := f h buff in
                                      (sl_write h buff len_index (be_bytes 4 (N.of_nat (sl_len buff - (len_index + 4)))), buff)
                          | None => (h, buff)
                          end in
        pf h buff
    end.

  (** A user's key function: a builder over the slice, the fields [xs] added, and its bytes; /repo/keys.go:12-16, 143-145, /repo/table.go:1230,
      /repo/index.go:409-420. A chain that panics is not modelled here. *)
  Definition h_fields (xs : list field) : hfun := fun h s =>
    match h_run grow h (HKB s x00) (map SVal xs) with
    | Ok (h', b) => (h', hb_buff b)
    | _ => (h, s)
    end.

  Context {T F : Type}.
  Variable mt : mtable T F.
  Variable ev : env T.
  Notation tb := (mt_val mt).

  (** /repo/table.go:1224-1234 key. *)
  Definition h_data_key (tr : T) : hfun := h_key_encode_raw (t_id tb) primary_index_id None None (Some (mt_pk mt tr)).

  (** /repo/index.go:405-422 encodeIndexKey. *)
  Definition h_index_key (idx : index T) (tr : T) : hfun :=
    h_key_encode_raw (t_id tb) (ix_id idx) (Some (mt_key mt idx tr)) (Some (mt_ord mt idx tr)) (Some (mt_pk mt tr)).

  (** Building a key into buff[:0]; the other goroutines run before it is used. /repo/table.go:610, 1239, /repo/index.go:287, 310, 313, 347. *)
  Definition m_build (f : hfun) (own : list slc) (m : mem) (buff : slc) : mem * slc :=
    let '(h, k) := f (m_heap m) (sl_reset buff) in (stir (k :: own) (Mem h (m_past m)), k).

  (** /repo/index.go:280-290 OnInsert with the buffer [b]. *)
  Definition m_on_insert (idx : index T) (tr : T) (own : list slc) (b : slc) (m : mem) : mem * list bop :=
    if ix_filter idx tr then
      let '(m, k) := m_build (h_index_key idx tr) own m b in (m, [BSet (m_read m k) index_key_value])
    else (m, []).

  (** /repo/index.go:340-353 OnDelete. *)
  Definition m_on_delete (idx : index T) (tr : T) (own : list slc) (b : slc) (m : mem) : mem * list bop :=
    if ix_filter idx tr then
      let '(m, k) := m_build (h_index_key idx tr) own m b in (m, [BDel (m_read m k)])
    else (m, []).

  (** /repo/index.go:292-338 OnUpdate with two buffers. *)
  Definition m_on_update (idx : index T) (old tr : T) (own : list slc) (b b2 : slc) (m : mem) : mem * list bop :=
    let '(m, delete_key) := if ix_filter idx old
                            then let '(m, k) := m_build (h_index_key idx old) (b2 :: own) m b in (m, Some k)
                            else (m, None) in
    let held := match delete_key with Some d => d :: own | None => own end in
    let '(m, set_key) := if ix_filter idx tr
                         then let '(m, k) := m_build (h_index_key idx tr) held m b2 in (m, Some k)
                         else (m, None) in
    (m, match delete_key, set_key with
        | Some d, Some k => if beqb (m_read m d) (m_read m k) then [] else [BDel (m_read m d); BSet (m_read m k) index_key_value]
        | Some d, None => [BDel (m_read m d)]
        | None, Some k => [BSet (m_read m k) index_key_value]
        | None, None => []
        end).

  (** The loop over the indexes, e.g. /repo/table.go:423-428. *)
  Fixpoint m_each (f : index T -> mem -> mem * list bop) (ixs : list (index T)) (m : mem) : mem * list bop :=
    match ixs with
    | [] => (m, [])
    | idx :: ixs' =>
        let '(m, os) := f idx m in
        let '(m, os') := m_each f ixs' m in
        (m, os ++ os')
    end.

  (** serialize(&tr): into the buffer [vb] (a bytes.Buffer that is reset, /repo/serializers/cbor.go:36-42), or into new memory. The data, and the
      buffer afterwards. /repo/table.go:372-380, 412. One write of all the bytes (simplified: an encoder may write in pieces). *)
  Definition m_serialize (tr : T) (vb : slc) (m : mem) : option (mem * slc * slc) :=
    match t_ser tb tr with
    | None => None
    | Some d =>
        if mt_buffered mt
        then let '(h, s) := sl_append grow x00 (m_heap m) (sl_reset vb) d in Some (Mem h (m_past m), s, s)
        else Some (Mem (m_heap m ++ [d]) (m_past m), Slc (length (m_heap m)) 0 (length d) (length d), vb)
    end.

  (** /repo/table.go:1236-1243 keysExternal: [done] and [todo] are the slices of the array keys, before and behind i. [None]: keys[:len(trs)] panics. *)
  Fixpoint m_keys_external (own : list slc) (trs : list T) (done todo : list slc) (m : mem) : mem * option (list slc) :=
    match trs, todo with
    | [], _ => (m, Some (done ++ todo))
    | tr :: trs', k :: todo' =>
        let '(m, k') := m_build (h_data_key tr) (own ++ done ++ todo') m k in
        m_keys_external own trs' (done ++ [k']) todo' m
    | _ :: _, [] => (m, None)
    end.

  (** /repo/table.go:1196-1209 sortKeys on keys[:n]: the slices are exchanged in the array. The array and keyOrder. *)
  Definition m_sort_keys (n : nat) (keys : list slc) (m : mem) : list slc * list nat :=
    let order := e_sort ev (map (m_read m) (firstn n keys)) in
    (map (fun i => nth i keys sl_nil) order ++ skipn n keys, order).

  (** What a running write call has: memory, the array keysBuffer, the value buffer, and as [wst]. /repo/table.go:361-380. *)
  Record mst := MSt { ms_mem : mem; ms_keys : list slc; ms_vb : slc; ms_w : wst T F }.

  (** A write call's state with other memory, value buffer and operations; /repo/table.go:417. *)
  Definition ms_put (st : mst) (m : mem) (vb : slc) (s : wst T F) : mst := MSt m (ms_keys st) vb s.

  (** The slices a write call holds besides [extra]; /repo/table.go:361-380. *)
  Definition ms_own (extra : list slc) (st : mst) : list slc := extra ++ ms_vb st :: ms_keys st.

  (** The loop over the rows of one chunk of Insert, /repo/table.go:398-434. *)
  Fixpoint m_insert_rows (ib : slc) (it : piter) (trs : list T) (prev : option slc) (rows : list (slc * nat)) (st : mst) : mst * res unit :=
    match rows with
    | [] => (st, Ok tt)
    | (ks, o) :: rows' =>
        let own := ms_own [ib] st in
        let n := w_tick (ms_w st) in
        let m := stir own (ms_mem st) in
        let s := tick (ms_w st) in
        let st := ms_put st m (ms_vb st) s in
        let key := m_read m ks in
        if e_ctx ev n then (st, Err ECtx)
        else if (match prev with Some p => beqb key (m_read m p) | None => false end) || exist_key tb (w_flt s) it key
        then (st, Err (EExists (after_split key)))
        else
          match nth_error trs o with
          | None => (st, Panic)
          | Some tr =>
              match m_serialize tr (ms_vb st) m with
              | None => (st, Err ESerialize)
              | Some (m, d, vb) =>
                  let own := ib :: d :: ms_keys st in
                  let m := stir own m in
                  let set := BSet (m_read m ks) (m_read m d) in
                  let '(m, os) := m_each (fun idx => m_on_insert idx tr (vb :: ms_keys st) ib) (e_map ev n (t_indexes tb)) m in
                  let s := flt_add tb (m_read m ks) (add_ops s (set :: os)) in
                  m_insert_rows ib it trs (Some ks) rows' (ms_put st m vb s)
              end
          end
    end.

  (** Keys of a chunk built and sorted, /repo/table.go:382-386, 501-505, 686-690; [None] is a panic. *)
  Definition m_chunk_keys (extra : list slc) (trs : list T) (st : mst) : mst * option (list slc * list nat) :=
    let '(m, oks) := m_keys_external (extra ++ [ms_vb st]) trs [] (ms_keys st) (ms_mem st) in
    match oks with
    | None => (MSt m (ms_keys st) (ms_vb st) (ms_w st), None)
    | Some keys =>
        let '(keys, order) := m_sort_keys (length trs) keys m in
        (MSt m keys (ms_vb st) (ms_w st), Some (firstn (length trs) keys, order))
    end.

  (** One chunk of Insert; /repo/table.go:381-437. *)
  Definition m_insert_chunk (ib : slc) (db : kv) (rw : bool) (trs : list T) (st : mst) : mst * res unit :=
    let '(st, ok) := m_chunk_keys [ib] trs st in
    match ok with
    | Some (k :: ks, order) =>
        m_insert_rows ib (chunk_iter tb db rw (w_ops (ms_w st)) (map (m_read (ms_mem st)) (k :: ks))) trs None (combine (k :: ks) order) st
    | _ => (st, Panic)
    end.

  (** The loop over the rows of one chunk of Update, /repo/table.go:516-559. *)
  Fixpoint m_update_rows (ib ib2 : slc) (it : piter) (trs : list T) (rows : list (slc * nat)) (st : mst) : mst * res unit :=
    match rows with
    | [] => (st, Ok tt)
    | (ks, o) :: rows' =>
        let n := w_tick (ms_w st) in
        let m := stir (ms_own [ib; ib2] st) (ms_mem st) in
        let s := tick (ms_w st) in
        let st := ms_put st m (ms_vb st) s in
        let key := m_read m ks in
        if e_ctx ev n then (st, Err ECtx)
        else if (match rows' with (k2, _) :: _ => beqb (m_read m k2) key | [] => false end)
        then m_update_rows ib ib2 it trs rows' st
        else
          let it' := it_seek_ge it key in
          if negb (it_valid it') || negb (beqb (it_key it') key)
          then (st, Err (EMissing (after_split key)))
          else
            match t_deser tb (it_value it') (w_old s) with
            | None => (st, Err EDeserialize)
            | Some old =>
                let s := set_old s old in
                let st := ms_put st m (ms_vb st) s in
                match nth_error trs o with
                | None => (st, Panic)
                | Some tr =>
                    match m_serialize tr (ms_vb st) m with
                    | None => (st, Err ESerialize)
                    | Some (m, d, vb) =>
                        let m := stir (ib :: ib2 :: d :: ms_keys st) m in
                        let set := BSet (m_read m ks) (m_read m d) in
                        let '(m, os) := m_each (fun idx => m_on_update idx old tr (vb :: ms_keys st) ib ib2) (e_map ev n (t_indexes tb)) m in
                        m_update_rows ib ib2 it trs rows' (ms_put st m vb (add_ops s (set :: os)))
                    end
                end
            end
    end.

  (** One chunk of Update; /repo/table.go:500-562. *)
  Definition m_update_chunk (ib ib2 : slc) (db : kv) (rw : bool) (trs : list T) (st : mst) : mst * res unit :=
    let '(st, ok) := m_chunk_keys [ib; ib2] trs st in
    match ok with
    | Some (k :: ks, order) =>
        m_update_rows ib ib2 (chunk_iter tb db rw (w_ops (ms_w st)) (map (m_read (ms_mem st)) (k :: ks))) trs (combine (k :: ks) order) st
    | _ => (st, Panic)
    end.

  Variable on_conflict : T -> T -> T.

  (** The loop of Upsert over the sorted keys, /repo/table.go:701-773, as [upsert_rows]; the loop over repeated keys reads the keys at one moment
      (simplified). *)
  Fixpoint m_upsert_rows (fuel : nat) (ib ib2 : slc) (it : piter) (trs : list T) (keys : list slc) (order : list nat) (i : nat) (st : mst)
      : mst * res unit :=
    match fuel with
    | O => (st, if Nat.ltb i (length keys) then Diverge else Ok tt)
    | S fuel' =>
        if Nat.ltb i (length keys) then
          match nth_error trs (nth i order 0) with
          | None => (st, Panic)
          | Some tr =>
              let n := w_tick (ms_w st) in
              let m := stir (ms_own [ib; ib2] st) (ms_mem st) in
              let s := tick (ms_w st) in
              let st := ms_put st m (ms_vb st) s in
              if e_ctx ev n then (st, Err ECtx)
              else
                let ks := nth i keys sl_nil in
                let key := m_read m ks in
                let is_update := exist_key tb (w_flt s) it key in
                match (if is_update then t_deser tb (it_value (it_seek_ge it key)) (w_old s) else Some (w_old s)) with
                | None => (st, Err EDeserialize)
                | Some old =>
                    let tr := if is_update then on_conflict old tr else tr in
                    match upsert_dups on_conflict (length keys) (map (m_read m) keys) trs i old tr with
                    | None => (ms_put st m (ms_vb st) (set_old s old), Panic)
                    | Some (i', old', tr') =>
                        let s := set_old s old' in
                        match m_serialize tr' (ms_vb st) m with
                        | None => (ms_put st m (ms_vb st) s, Err ESerialize)
                        | Some (m, d, vb) =>
                            let m := stir (ib :: ib2 :: d :: ms_keys st) m in
                            let set := BSet (m_read m ks) (m_read m d) in
                            let '(m, os) :=
                              if is_update
                              then m_each (fun idx => m_on_update idx old' tr' (vb :: ms_keys st) ib ib2) (e_map ev n (t_indexes tb)) m
                              else m_each (fun idx => m_on_insert idx tr' (vb :: ib2 :: ms_keys st) ib) (e_map ev n (t_indexes tb)) m in
                            let s := add_ops s (set :: os) in
                            let s := if is_update then s else flt_add tb (m_read m ks) s in
                            m_upsert_rows fuel' ib ib2 it trs keys order (S i') (ms_put st m vb s)
                        end
                    end
                end
          end
        else (st, Ok tt)
    end.

  (** One chunk of Upsert; /repo/table.go:685-776. *)
  Definition m_upsert_chunk (ib ib2 : slc) (db : kv) (rw : bool) (trs : list T) (st : mst) : mst * res unit :=
    let '(st, ok) := m_chunk_keys [ib; ib2] trs st in
    match ok with
    | Some (k :: ks, order) =>
        m_upsert_rows (length (k :: ks)) ib ib2 (chunk_iter tb db rw (w_ops (ms_w st)) (map (m_read (ms_mem st)) (k :: ks)))
          trs (k :: ks) order 0 st
    | _ => (st, Panic)
    end.

  (** The loop of Delete, /repo/table.go:602-625, with keyBuffer [kb] and indexKeyBuffer [ib]. *)
  Fixpoint m_delete_rows (kb ib : slc) (trs : list T) (m : mem) (s : wst T F) : mem * (wst T F * res unit) :=
    match trs with
    | [] => (m, (s, Ok tt))
    | tr :: trs' =>
        let n := w_tick s in
        let s := tick s in
        if e_ctx ev n then (m, (s, Err ECtx))
        else
          let '(m, key) := m_build (h_data_key tr) [ib] m kb in
          let del := BDel (m_read m key) in
          let '(m, os) := m_each (fun idx => m_on_delete idx tr [kb] ib) (e_map ev n (t_indexes tb)) m in
          m_delete_rows kb ib trs' m (add_ops s (del :: os))
    end.

  (** One chunk of UnsafeInsert; /repo/table_unsafe.go:151-190: the keys are not sorted. *)
  Fixpoint m_unsafe_insert_rows (ib : slc) (trs : list T) (keys : list slc) (st : mst) : mst * res unit :=
    match trs, keys with
    | tr :: trs', ks :: keys' =>
        let n := w_tick (ms_w st) in
        let m := stir (ms_own [ib] st) (ms_mem st) in
        let s := tick (ms_w st) in
        let st := ms_put st m (ms_vb st) s in
        if e_ctx ev n then (st, Err ECtx)
        else
          match m_serialize tr (ms_vb st) m with
          | None => (st, Err ESerialize)
          | Some (m, d, vb) =>
              let m := stir (ib :: d :: ms_keys st) m in
              let set := BSet (m_read m ks) (m_read m d) in
              let '(m, os) := m_each (fun idx => m_on_insert idx tr (vb :: ms_keys st) ib) (e_map ev n (t_indexes tb)) m in
              let s := flt_add tb (m_read m ks) (add_ops s (set :: os)) in
              m_unsafe_insert_rows ib trs' keys' (ms_put st m vb s)
          end
    | _, _ => (st, Ok tt)
    end.

  (** One chunk of UnsafeInsert; /repo/table_unsafe.go:151-190. *)
  Definition m_unsafe_insert_chunk (ib : slc) (trs : list T) (st : mst) : mst * res unit :=
    let '(m, oks) := m_keys_external [ib; ms_vb st] trs [] (ms_keys st) (ms_mem st) in
    match oks with
    | None => (MSt m (ms_keys st) (ms_vb st) (ms_w st), Panic)
    | Some keys => m_unsafe_insert_rows ib trs (firstn (length trs) keys) (MSt m keys (ms_vb st) (ms_w st))
    end.

  (** The loop of UnsafeUpdate, /repo/table_unsafe.go:59-92; [vb] is the value buffer. *)
  Fixpoint m_unsafe_update_rows (kb ib ib2 : slc) (trs olds : list T) (m : mem) (vb : slc) (s : wst T F) : mem * slc * (wst T F * res unit) :=
    match trs, olds with
    | tr :: trs', old :: olds' =>
        let n := w_tick s in
        let s := tick s in
        if e_ctx ev n then (m, vb, (s, Err ECtx))
        else
          let '(m, key) := m_build (h_data_key tr) [ib; ib2; vb] m kb in
          match m_serialize tr vb m with
          | None => (m, vb, (s, Err ESerialize))
          | Some (m, d, vb) =>
              let m := stir [key; ib; ib2; d] m in
              let set := BSet (m_read m key) (m_read m d) in
              let '(m, os) := m_each (fun idx => m_on_update idx old tr [kb; vb] ib ib2) (e_map ev n (t_indexes tb)) m in
              m_unsafe_update_rows kb ib ib2 trs' olds' m vb (add_ops s (set :: os))
          end
    | _, _ => (m, vb, (s, Ok tt))
    end.

  (** The operations already in the batch, if one is given; /repo/table.go:350-359. *)
  Definition given_ops (ob : option batch) : list bop := match ob with Some b => b_ops b | None => [] end.
  (** Is it a read-write batch; /repo/table.go:357-359. *)
  Definition given_rw (ob : option batch) : bool := match ob with Some b => b_rw b | None => false end.

  (** The state at the start of a call; /repo/table.go:338-380. *)
  Definition m_start (fl : F) (ob : option batch) : wst T F := WSt (given_ops ob) fl (t_nil tb) 0.

  (** What becomes of the outcome of a call's body: as [run_write], /repo/table.go:438-449. *)
  Definition m_finish (db : kv) (fl : F) (ob : option batch) (out : wst T F * res unit) : wres * res unit :=
    run_write tb ev db fl ob (fun _ _ => out).

  (** /repo/table.go:338-450 Insert: [ib] is indexKeyBuffer, [vb] value, [keys] keysBuffer. Also the state of the buffers at the end. *)
  Definition m_insert (m : mem) (ib vb : slc) (keys : list slc) (db : kv) (fl : F) (ob : option batch) (trs : list T) : mst * (wres * res unit) :=
    let '(st, r) := batched trs (e_chunk ev) (m_insert_chunk ib db (given_rw ob)) (MSt m keys vb (m_start fl ob)) in
    (st, m_finish db fl ob (ms_w st, r)).

  (** /repo/table.go:452-575 Update; [ib], [ib2] are indexKeyBuffer and indexKeyBuffer2. *)
  Definition m_update (m : mem) (ib ib2 vb : slc) (keys : list slc) (db : kv) (fl : F) (ob : option batch) (trs : list T) : mst * (wres * res unit) :=
    let '(st, r) := batched trs (e_chunk ev) (m_update_chunk ib ib2 db (given_rw ob)) (MSt m keys vb (m_start fl ob)) in
    (st, m_finish db fl ob (ms_w st, r)).

  (** /repo/table.go:637-789 Upsert. *)
  Definition m_upsert (m : mem) (ib ib2 vb : slc) (keys : list slc) (db : kv) (fl : F) (ob : option batch) (trs : list T) : mst * (wres * res unit) :=
    let '(st, r) := batched trs (e_chunk ev) (m_upsert_chunk ib ib2 db (given_rw ob)) (MSt m keys vb (m_start fl ob)) in
    (st, m_finish db fl ob (ms_w st, r)).

  (** /repo/table.go:577-635 Delete. *)
  Definition m_delete (m : mem) (kb ib : slc) (db : kv) (fl : F) (ob : option batch) (trs : list T) : mem * (wres * res unit) :=
    let '(m, out) := m_delete_rows kb ib trs m (m_start fl ob) in (m, m_finish db fl ob out).

  (** /repo/table_unsafe.go:113-203 UnsafeInsert. *)
  Definition m_unsafe_insert (m : mem) (ib vb : slc) (keys : list slc) (db : kv) (fl : F) (ob : option batch) (trs : list T) : mst * (wres * res unit) :=
    let '(st, r) := batched trs (e_chunk ev) (m_unsafe_insert_chunk ib) (MSt m keys vb (m_start fl ob)) in
    (st, m_finish db fl ob (ms_w st, r)).

  (** /repo/table_unsafe.go:20-103 UnsafeUpdate. *)
  Definition m_unsafe_update (m : mem) (kb ib ib2 vb : slc) (db : kv) (fl : F) (ob : option batch) (trs olds : list T) : mem * slc * (wres * res unit) :=
    if Nat.eqb (length trs) (length olds)
    then let '(m, vb, out) := m_unsafe_update_rows kb ib ib2 trs olds m vb (m_start fl ob) in (m, vb, m_finish db fl ob out)
    else (m, vb, (WRes db fl ob, Err EOther)).

  (** ** Reads *)

  (** /repo/table.go:791-816 Exist with keyBuffer [kb]; other goroutines run between the filter and the database. *)
  Definition m_exist (m : mem) (kb : slc) (db : kv) (fl : F) (ob : option batch) (tr : T) : mem * bool :=
    let '(m, k) := m_build (h_data_key tr) [] m kb in
    let may := flt_may tb fl (m_read m k) in
    let m := stir [k] m in
    (m, may && match db_get db ob (m_read m k) with Ok _ => true | _ => false end).

  (** /repo/table.go:856-883 Get with a point selector, with keyBuffer [kb]. *)
  Definition m_get_one (m : mem) (kb : slc) (db : kv) (fl : F) (ob : option batch) (tr : T) : mem * res T :=
    let '(m, k) := m_build (h_data_key tr) [] m kb in
    if negb (flt_may tb fl (m_read m k)) then (m, Err ENotFound)
    else
      let m := stir [k] m in
      (m, match db_get db ob (m_read m k) with
          | Ok v => match t_deser tb v (t_nil tb) with Some r => Ok r | None => Err EDeserialize end
          | _ => Err ENotFound
          end).

  (** The loop of get, /repo/table.go:957-981: [done] and [todo] are the slices of the array values before and behind i. The array, and how it ended. *)
  Fixpoint m_get_loop (own : list slc) (fl : F) (it : piter) (keys : list slc) (err_on_absent : bool) (done todo : list slc) (m : mem)
      : mem * list slc * res unit :=
    match keys with
    | [] => (m, done ++ todo, Ok tt)
    | k :: keys' =>
        let m := stir (own ++ done ++ todo) m in
        match get_value tb fl it (m_read m k) with
        | None =>
            if err_on_absent then (m, done ++ todo, Err ENotFound)
            else match todo with
                 | [] => (m, done, Panic)
                 | v :: todo' => m_get_loop own fl it keys' err_on_absent (done ++ [sl_reset v]) todo' m
                 end
        | Some bs =>
            match todo with
            | [] => (m, done, Panic)
            | v :: todo' =>
                let '(h, v') := sl_append grow x00 (m_heap m) (sl_reset v) bs in
                m_get_loop own fl it keys' err_on_absent (done ++ [v']) todo' (Mem h (m_past m))
            end
        end
    end.

  (** /repo/table.go:941-990 get, with the arrays keys (exchanged in place) and values. Memory, the two arrays, and the first slices of the
      values array, in the order of the keys given. *)
  Definition m_get (own : list slc) (db : kv) (fl : F) (ob : option batch) (keys values : list slc) (err_on_absent : bool) (m : mem)
      : mem * list slc * list slc * res (list slc) :=
    match keys with
    | [] => (m, keys, values, Ok [])
    | _ =>
        let '(skeys, order) := m_sort_keys (length keys) keys m in
        let it := db_iter db ob (hd [] (map (m_read m) skeys)) (data_key_space_end tb) in
        let '(m, vs, r) := m_get_loop (own ++ skeys) fl it skeys err_on_absent [] values m in
        match r with
        | Ok _ =>
            let n := length keys in
            let out := map (fun i => match index_of i order with Some j => nth j vs sl_nil | None => sl_nil end) (seq 0 n) in
            (m, skeys, out ++ skipn n vs, Ok out)
        | Err e => (m, skeys, vs, Err e)
        | Panic => (m, skeys, vs, Panic)
        | Diverge => (m, skeys, vs, Diverge)
        end
    end.

  (** /repo/table.go:903-916: decoding the values of a points Get. *)
  Fixpoint m_decode (own vs : list slc) (m : mem) : mem * res (list T) :=
    match vs with
    | [] => (m, Ok [])
    | v :: vs' =>
        let m := stir (own ++ vs) m in
        let one := match m_read m v with
                   | [] => Ok (t_nil tb)
                   | d => match t_deser tb d (t_nil tb) with Some r => Ok r | None => Err EDeserialize end
                   end in
        match one with
        | Ok r => match m_decode own vs' m with
                  | (m, Ok l) => (m, Ok (r :: l))
                  | e => e
                  end
        | Err e => (m, Err e)
        | Panic => (m, Panic)
        | Diverge => (m, Diverge)
        end
    end.

  (** /repo/table.go:885-924 Get with a points selector, with the arrays keyArray and valueArray. *)
  Definition m_get_points (m : mem) (keys values : list slc) (db : kv) (fl : F) (ob : option batch) (pts : list T)
      : mem * list slc * list slc * res (list T) :=
    match pts with
    | [] => (m, keys, values, Ok [])
    | _ =>
        let '(m, oks) := m_keys_external values pts [] keys m in
        match oks with
        | None => (m, keys, values, Panic)
        | Some keys =>
            let n := length pts in
            let '(m, ks, values, r) := m_get (skipn n keys) db fl ob (firstn n keys) values false m in
            let keys := ks ++ skipn n keys in
            match r with
            | Ok vs => let '(m, r) := m_decode [] vs m in (m, keys, values, r)
            | Err e => (m, keys, values, Err e)
            | Panic => (m, keys, values, Panic)
            | Diverge => (m, keys, values, Diverge)
            end
        end
    end.
End Mem.
