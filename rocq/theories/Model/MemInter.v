(** The memory behind queries with Intersects, /repo/index.go:355-403 and /repo/query.go:282-391: the keys that are kept in maps as strings over the
    bytes of a slice, and turned back into slices. Model/Query.v has the same with every slice a value of its own. *)

From Coq Require Import List NArith Bool Arith.
From Verif.Model Require Import Bytes Go Keys Pebble Index Table Scan Query Slices Mem MemScan.
Import ListNotations.

Section MemInter.
  Variable grow : nat -> nat -> nat.
  Variable noise : list (heap byte) -> list slc -> heap byte -> heap byte.

  (** The capacity of the slice that StringToBytes makes: whatever lies behind the two words of the string. /repo/utils/unsafe.go:5-7. *)
  Variable junk : slc -> nat.

  Context {T F : Type}.
  Variable mt : mtable T F.
  Variable ev : env T.
  Variable srt : (T -> T -> bool) -> list T -> list T.
  Notation tb := (mt_val mt).

  (** Other goroutines run; /repo/bond.go:324-338. *)
  Notation stir := (stir noise).

  (** /repo/utils/unsafe.go:5-7 StringToBytes of the string over the cells of [s]. *)
  Definition string_bytes (s : slc) : slc := Slc (sl_arr s) (sl_off s) (sl_len s) (junk s).

  (** Looking up a string in a map; /repo/index.go:383. *)
  Definition m_has (m : mem) (k : slc) (l : list slc) : bool := existsb (fun x => beqb (m_read m k) (m_read m x)) l.

  (** Adding a string to a map; a string that is there already stays the key. /repo/index.go:368, 384. Kept sorted as in Model/Query.v [set_add]. *)
  Fixpoint m_set_add (m : mem) (k : slc) (l : list slc) : list slc :=
    match l with
    | [] => [k]
    | x :: l' => match bcmp (m_read m k) (m_read m x) with Lt => k :: l | Eq => l | Gt => x :: m_set_add m k l' end
    end.

  (** One loop of Intersect, /repo/index.go:360-370 and 374-387. ToDataKeyBytes([]byte{}) makes new memory for each key, /repo/keys.go:292-312 (its bytes
      are written at one go, simplified). *)
  Fixpoint m_collect_keys (open : bytes -> bytes -> piter) (within : option (list slc)) (fuel n : nat) (m : mem) (it : miter) (acc : list slc)
      : mem * miter * res (nat * list slc) :=
    let w := match within with Some w => w | None => [] end in
    if bi_valid (mi_it it) then
      match fuel with
      | O => (m, it, Diverge)
      | S fuel' =>
          if e_ctx ev n then (m, it, Err ECtx)
          else match to_data_key_bytes (m_read m (mi_key it)) [] with
               | Ok dk =>
                   let '(h, k) := sl_append grow x00 (m_heap m) (sl_reset sl_nil) dk in
                   let m := stir (k :: mi_key it :: sides (mi_bounds it) ++ acc ++ w) (Mem h (m_past m)) in
                   let hit := match within with None => true | Some w => m_has m k w end in
                   let acc := if hit then m_set_add m k acc else acc in
                   let '(m, it) := m_move grow noise (acc ++ w) (bi_next open) m it in
                   m_collect_keys open within fuel' (S n) m it acc
               | Err e => (m, it, Err e)
               | Panic => (m, it, Panic)
               | Diverge => (m, it, Diverge)
               end
      end
    else (m, it, Ok (n, acc)).

  (** How many pairs of buffers Iter takes from the pool; /repo/index.go:185-186, 203-206, 230-231, 251-253. *)
  Definition takes (sel : selector T) : nat :=
    match sel with SPoint _ | SRange _ _ => 1 | SPoints ps => length ps | SRanges rs => length rs | SOther => 0 end.

  (** One index: the iterator with buffers from the front of the pool, the loop, and Close, which gives the buffers back; /repo/index.go:359-370, 373-387.
      Memory, the pool, the iterator's key buffer, and the keys. Failing loops give them back too (/repo/index.go:364, 378). *)
  Definition m_round (within : option (list slc)) (fuel : nat) (db : kv) (ob : optb) (n : nat) (idx : index T) (sel : selector T)
      (pool : list (slc * slc)) (kb : slc) (m : mem) : mem * (list (slc * slc) * slc) * res (nat * list slc) :=
    let w := match within with Some w => w | None => [] end in
    let open := db_iter db (batch_of ob) in
    let free := skipn (takes sel) pool in
    let '(m, r) := m_index_iter grow noise mt w db ob idx sel (firstn (takes sel) pool) kb m in
    match r with
    | Ok it =>
        let '(m, it) := m_move grow noise w (bi_first open) m it in
        let '(m, it, r) := m_collect_keys open within fuel n m it [] in
        (m, (mi_bounds it ++ free, mi_key it), r)
    | Err e => (m, (free, kb), Err e)
    | Panic => (m, (free, kb), Panic)
    | Diverge => (m, (free, kb), Diverge)
    end.

  (** The loop over the other indexes, /repo/index.go:372-391. *)
  Fixpoint m_intersect_rest (fuel : nat) (db : kv) (ob : optb) (n : nat) (qs : list (query T)) (keys : list slc) (pool : list (slc * slc)) (kb : slc) (m : mem)
      : mem * (list (slc * slc) * slc) * res (list slc) :=
    match qs with
    | [] => (m, (pool, kb), Ok (map string_bytes keys))
    | q :: qs' =>
        let '(m, (pool, kb), r) := m_round (Some keys) fuel db ob n (q_index q) (q_sel q) pool kb m in
        match r with
        | Ok (n', keys') => m_intersect_rest fuel db ob n' qs' keys' pool kb m
        | Err e => (m, (pool, kb), Err e)
        | Panic => (m, (pool, kb), Panic)
        | Diverge => (m, (pool, kb), Diverge)
        end
    end.

  (** /repo/index.go:355-403 Index.Intersect. *)
  Definition m_intersect (fuel : nat) (db : kv) (q : query T) (ob : optb) (pool : list (slc * slc)) (kb : slc) (m : mem)
      : mem * (list (slc * slc) * slc) * res (list slc) :=
    let '(m, (pool, kb), r) := m_round None fuel db ob 0 (q_index q) (q_sel q) pool kb m in
    match r with
    | Ok (n, keys) => m_intersect_rest fuel db ob n (q_inter q) keys pool kb m
    | Err e => (m, (pool, kb), Err e)
    | Panic => (m, (pool, kb), Panic)
    | Diverge => (m, (pool, kb), Diverge)
    end.

  (** Decoding the values, /repo/query.go:332-344. *)
  Fixpoint m_decode_records (filt : option (T -> bool)) (vs : list slc) (m : mem) : mem * res (list T) :=
    match vs with
    | [] => (m, Ok [])
    | v :: vs' =>
        let m := stir vs m in
        match t_deser tb (m_read m v) (t_nil tb) with
        | None => (m, Err EDeserialize)
        | Some r =>
            match m_decode_records filt vs' m with
            | (m, Ok l) => (m, Ok (if match filt with Some f => f r | None => true end then r :: l else l))
            | e => e
            end
        end
    end.

  (** The loop that looks for the after row, /repo/query.go:356-367, with afterKey [ak] and recordKey [rk]. *)
  Fixpoint m_after_rec (ak rk : slc) (l : list T) (m : mem) : mem * option (list T) :=
    match l with
    | [] => (m, None)
    | r :: l' =>
        let '(m, rk) := m_build noise (mt_pk mt r) [ak] m rk in
        if beqb (m_read m ak) (m_read m rk) then (m, Some l') else m_after_rec ak rk l' m
    end.

  (** /repo/query.go:353-368. *)
  Definition m_drop_after (a : T) (l : list T) (m : mem) : mem * list T :=
    let '(m, ak) := m_build noise (mt_pk mt a) [] m sl_nil in
    let '(m, o) := m_after_rec ak sl_nil l m in
    (m, match o with Some l' => l' | None => l end).

  (** /repo/query.go:282-391 executeIntersect. *)
  Definition m_execute_intersect (fuel : nat) (m : mem) (pool : list (slc * slc)) (kb : slc) (db : kv) (fl : F) (q : query T) (ob : optb)
      : mem * (list (slc * slc) * slc) * res (list T) :=
    let has_off := (0 <? q_offset q)%N in
    let has_lim := (0 <? q_limit q)%N in
    if forallb plain_query (q_inter q) then
      let '(m, back, r) := m_intersect fuel db q ob pool kb m in
      match r with
      | Ok keys =>
          let early := match q_filter q, q_less q, q_after q with None, None, None => true | _, _, _ => false end in
          let keys1 := if early && has_off then apply_offset (q_offset q) keys else Ok keys in
          let keys2 := match keys1 with
                       | Ok ks => if early && has_lim then apply_limit (q_limit q) ks else Ok ks
                       | e => e
                       end in
          match keys2 with
          | Ok keys =>
              let '(m, _, _, r) := m_get grow noise mt ev [] db fl None keys (repeat sl_nil (length keys)) true m in
              match r with
              | Ok values =>
                  let '(m, r) := m_decode_records (q_filter q) values m in
                  match r with
                  | Ok records =>
                      let records := match q_less q with Some less => srt less records | None => records end in
                      let '(m, records) := match q_after q with Some a => m_drop_after a records m | None => (m, records) end in
                      (m, back,
                       match q_filter q, q_less q with
                       | None, None => Ok records
                       | _, _ =>
                           match (if has_off then apply_offset (q_offset q) records else Ok records) with
                           | Ok records => if has_lim then apply_limit (q_limit q) records else Ok records
                           | e => e
                           end
                       end)
                  | e => (m, back, e)
                  end
              | Err e => (m, back, Err e)
              | Panic => (m, back, Panic)
              | Diverge => (m, back, Diverge)
              end
          | Err e => (m, back, Err e)
          | Panic => (m, back, Panic)
          | Diverge => (m, back, Diverge)
          end
      | Err e => (m, back, Err e)
      | Panic => (m, back, Panic)
      | Diverge => (m, back, Diverge)
      end
    else (m, (pool, kb), Err EQuery).
End MemInter.
