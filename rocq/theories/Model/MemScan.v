(** The memory behind scans, /repo/table.go:1019-1194 and /repo/index.go:176-278: the bounds in pooled buffers, the key buffer of the iterator, and
    the buffer that all prefetched keys share. Model/Scan.v has the same scans with every slice a value of its own. *)

From Coq Require Import List NArith Bool Arith.
From Verif.Model Require Import Bytes Go Keys Pebble Index Table Scan Slices Mem.
Import ListNotations.

(** One call of a callback on memory: it reads slices, calls lazy.Get, and returns; [W] is the state shared between calls, which may keep slices.
    /repo/table.go:1019, /repo/lazy.go:3-9. *)
Inductive mprog (T W : Type) :=
| MRet (s : W) (cont : bool) (e : option error)
| MGet (k : res T -> mprog T W)
| MRead (s : slc) (k : bytes -> mprog T W).
Arguments MRet {T W}.
Arguments MGet {T W}.
Arguments MRead {T W}.

Section MemScan.
  Variable grow : nat -> nat -> nat.
  Variable noise : list (heap byte) -> list slc -> heap byte -> heap byte.
  Context {T F : Type}.
  Variable mt : mtable T F.
  Variable ev : env T.
  Notation tb := (mt_val mt).

  (** Other goroutines run; /repo/bond.go:324-338. *)
  Notation stir := (stir noise).

  (** The loop of keySuccessor on a slice, /repo/table.go:1269-1275. *)
  Definition h_increment (h : heap byte) (s : slc) : heap byte := sl_write h s 0 (key_successor (sl_read h s)).

  (** /repo/table.go:1262-1276 keySuccessor with a destination: src is copied behind dst, which is empty in every call, /repo/index.go:189, 209, 211. *)
  Definition h_successor (h : heap byte) (src dst : slc) : heap byte * slc :=
    let '(h, s) := sl_append grow x00 h (sl_reset dst) (sl_read h src) in (h_increment h s, s).

  (** lowerBound[0:_KeyPrefixSplitIndex(lowerBound)]; /repo/index.go:189, 209. *)
  Definition h_prefix (h : heap byte) (s : slc) : res slc :=
    match key_prefix_of (sl_read h s) with
    | Ok p => Ok (Slc (sl_arr s) (sl_off s) (length p) (sl_cap s))
    | Err e => Err e
    | Panic => Panic
    | Diverge => Diverge
    end.

  (** The bounds of one point in the buffers [b], [b2]; /repo/index.go:188-189, 208-212. *)
  Definition m_point_bounds (own : list slc) (idx : index T) (exact : bool) (p : T) (b b2 : slc) (m : mem) : mem * res (slc * slc) :=
    let '(m, lo) := m_build noise (h_index_key grow mt idx p) (b2 :: own) m b in
    match h_prefix (m_heap m) lo with
    | Ok pre =>
        let '(h, hi) := h_successor (m_heap m) pre b2 in
        let '(h, hi) := if exact then h_successor h lo hi else (h, hi) in
        (stir (lo :: hi :: own) (Mem h (m_past m)), Ok (lo, hi))
    | Err e => (m, Err e)
    | Panic => (m, Panic)
    | Diverge => (m, Diverge)
    end.

  (** The bounds of one range; /repo/index.go:233-235, 255-257. *)
  Definition m_range_bounds (own : list slc) (idx : index T) (l u : T) (b b2 : slc) (m : mem) : mem * (slc * slc) :=
    let '(m, lo) := m_build noise (h_index_key grow mt idx l) (b2 :: own) m b in
    let '(m, hi) := m_build noise (h_index_key grow mt idx u) (lo :: own) m b2 in
    (stir (lo :: hi :: own) (Mem (h_increment (m_heap m) hi) (m_past m)), (lo, hi)).

  (** The slices of pairs of bounds; /repo/index.go:214-217. *)
  Definition sides (l : list (slc * slc)) : list slc := flat_map (fun p => [fst p; snd p]) l.

  (** The loop over points, /repo/index.go:207-225, with two buffers for each; taking them from the pool is not modelled. *)
  Fixpoint m_points_bounds (own : list slc) (idx : index T) (exact : bool) (ps : list T) (bufs : list (slc * slc)) (done : list (slc * slc)) (m : mem)
      : mem * res (list (slc * slc)) :=
    match ps, bufs with
    | [], _ => (m, Ok done)
    | p :: ps', (b, b2) :: bufs' =>
        let '(m, r) := m_point_bounds (sides done ++ sides bufs' ++ own) idx exact p b b2 m in
        match r with
        | Ok x => m_points_bounds own idx exact ps' bufs' (done ++ [x]) m
        | Err e => (m, Err e)
        | Panic => (m, Panic)
        | Diverge => (m, Diverge)
        end
    | _ :: _, [] => (m, Panic)
    end.

  (** The loop over ranges, /repo/index.go:252-271. *)
  Fixpoint m_ranges_bounds (own : list slc) (idx : index T) (rs : list (list T)) (bufs : list (slc * slc)) (done : list (slc * slc)) (m : mem)
      : mem * res (list (slc * slc)) :=
    match rs, bufs with
    | [], _ => (m, Ok done)
    | (l :: u :: _) :: rs', (b, b2) :: bufs' =>
        let '(m, x) := m_range_bounds (sides done ++ sides bufs' ++ own) idx l u b b2 m in
        m_ranges_bounds own idx rs' bufs' (done ++ [x]) m
    | _, _ => (m, Panic)
    end.

  (** What a bond iterator has: the bounds it may still open, the pebble iterator as a value, and the slice its Key method returns. The key is
      copied to one buffer at each move (simplified: the iterators of _iteratorMulti share it). /repo/iter.go:51-54, 72-78, 172-174. *)
  Record miter := MIter { mi_bounds : list (slc * slc); mi_it : biter; mi_key : slc }.

  (** The bounds of a multi-iterator as they are in memory now; /repo/iter.go:94, 107, 124, 141. *)
  Definition reread (m : mem) (bounds : list (slc * slc)) (it : biter) : biter :=
    match it with
    | BOne p => BOne p
    | BMulti _ i p => BMulti (map (fun b => (m_read m (fst b), m_read m (snd b))) bounds) i p
    end.

  (** A move of the iterator: First, Last, Next, Prev; /repo/iter.go:89-147. *)
  Definition m_move (own : list slc) (step : biter -> biter) (m : mem) (it : miter) : mem * miter :=
    let b := step (reread m (mi_bounds it) (mi_it it)) in
    let '(h, k) := sl_append grow x00 (m_heap m) (sl_reset (mi_key it)) (bi_key b) in
    (stir (k :: sides (mi_bounds it) ++ own) (Mem h (m_past m)), MIter (mi_bounds it) b k).

  (** /repo/index.go:176-278 Index.Iter, with the buffers [bufs] for the bounds and [kb] for the iterator's key; also the bounds, which are given
      back to the pool by Close. *)
  Definition m_index_iter (own : list slc) (db : kv) (ob : optb) (idx : index T) (sel : selector T) (bufs : list (slc * slc)) (kb : slc) (m : mem)
      : mem * res miter :=
    let open := db_iter db (batch_of ob) in
    let one (m : mem) (b : slc * slc) :=
      match ob with NilBatch => Panic | _ => Ok (MIter [b] (BOne (open (m_read m (fst b)) (m_read m (snd b)))) kb) end in
    let many (m : mem) (l : list (slc * slc)) :=
      match ob with
      | NilBatch => Panic
      | _ => match new_multi open (map (fun b => (m_read m (fst b), m_read m (snd b))) l) with
             | Ok it => Ok (MIter l it kb)
             | Err e => Err e
             | Panic => Panic
             | Diverge => Diverge
             end
      end in
    match sel, bufs with
    | SPoint p, (b, b2) :: _ =>
        let '(m, r) := m_point_bounds (kb :: own) idx false p b b2 m in
        (m, match r with Ok x => one m x | Err e => Err e | Panic => Panic | Diverge => Diverge end)
    | SRange l u, (b, b2) :: _ => let '(m, x) := m_range_bounds (kb :: own) idx l u b b2 m in (m, one m x)
    | SPoints ps, _ =>
        let '(m, r) := m_points_bounds (kb :: own) idx (Byte.eqb (ix_id idx) primary_index_id) ps bufs [] m in
        (m, match r with Ok l => many m l | Err e => Err e | Panic => Panic | Diverge => Diverge end)
    | SRanges rs, _ =>
        let '(m, r) := m_ranges_bounds (kb :: own) idx rs bufs [] m in
        (m, match r with Ok l => many m l | Err e => Err e | Panic => Panic | Diverge => Diverge end)
    | SOther, _ => (m, Ok (MIter [] (BOne (err_iter ESelector)) kb))
    | _, [] => (m, Panic)
    end.

  (** Running one call (/repo/table.go:1063, 1167, 1176, /repo/lazy.go:7-9): [get] the GetFunc, [at_] the memory in the state; other goroutines run before
      each read, [hold] being what the scan holds. *)
  Fixpoint run_mprog {W St : Type} (at_ : St -> mem) (put : mem -> St -> St) (hold : St -> list slc) (get : St -> St * res T) (p : mprog T W) (st : St)
      : St * res (W * bool * option error) :=
    match p with
    | MRet s c e => (st, Ok (s, c, e))
    | MRead s k =>
        let st := put (stir (hold st) (at_ st)) st in
        run_mprog at_ put hold get (k (m_read (at_ st) s)) st
    | MGet k =>
        let '(st', v) := get st in
        match v with
        | Panic => (st', Panic)
        | Diverge => (st', Diverge)
        | _ => run_mprog at_ put hold get (k v) st'
        end
    end.

  Section Loop.
    Context {W : Type}.
    Variable f : W -> slc -> mprog T W.
    Variable open : bytes -> bytes -> piter.
    Variable rev : bool.

    (** The closures first and next, /repo/table.go:1030-1044, 1076-1090. *)
    Definition m_next (own : list slc) : mem -> miter -> mem * miter := m_move own (scan_next open rev).

    (** What a primary scan has; /repo/table.go:1028. *)
    Record mpst := MPst { mp_mem : mem; mp_it : miter }.

    (** What a primary scan holds; /repo/table.go:1028. *)
    Definition mp_hold (st : mpst) : list slc := mi_key (mp_it st) :: sides (mi_bounds (mp_it st)).

    (** getValue, /repo/table.go:1046-1054; the value is pebble's memory, which is not modelled. *)
    Definition m_get_value (st : mpst) : mpst * res T :=
      (MPst (stir (mp_hold st) (mp_mem st)) (mp_it st),
       match t_deser tb (bi_value (mi_it (mp_it st))) (t_nil tb) with Some r => Ok r | None => Err EDeserialize end).

    (** The loop of scanForEachPrimaryIndex, /repo/table.go:1055-1070. *)
    Fixpoint m_primary_loop (fuel : nat) (n : nat) (m : mem) (it : miter) (s : W) : mem * miter * (W * res unit) :=
      if bi_valid (mi_it it) then
        match fuel with
        | O => (m, it, (s, Diverge))
        | S fuel' =>
            if e_ctx ev n then (m, it, (s, Err ECtx))
            else
              let '(st, r) := run_mprog mp_mem (fun m st => MPst m (mp_it st)) mp_hold m_get_value (f s (mi_key it)) (MPst m it) in
              match r with
              | Ok (s', true, None) =>
                  let '(m, it) := m_next [] (mp_mem st) (mp_it st) in m_primary_loop fuel' (S n) m it s'
              | Ok (s', _, Some e) => (mp_mem st, mp_it st, (s', Err e))
              | Ok (s', false, None) => (mp_mem st, mp_it st, (s', Ok tt))
              | Err e => (mp_mem st, mp_it st, (s, Err e))
              | Panic => (mp_mem st, mp_it st, (s, Panic))
              | Diverge => (mp_mem st, mp_it st, (s, Diverge))
              end
        end
      else (m, it, (s, Ok tt)).

    (** The local variables of scanForEachSecondaryIndex, /repo/table.go:1097-1109: keys, indexKeys, valuesBuffer, and as its first part
        prefetchedValues. The arrays that hold the slices are values here. *)
    Record msst := MSst {
      mx_mem : mem;
      mx_it : miter;
      mx_keys : list slc;
      mx_ikeys : list slc;
      mx_vals : list slc;
      mx_got : list slc;
      mx_vi : nat
    }.

    (** multiKeyBuffer, /repo/table.go:1099. *)
    Variable mkb : slc.

    (** What a secondary scan holds besides the iterator, /repo/table.go:1097-1104. *)
    Definition mx_rest (st : msst) : list slc := mkb :: mx_ikeys st ++ mx_keys st ++ mx_vals st.
    (** What a secondary scan holds, /repo/table.go:1097-1104. *)
    Definition mx_hold (st : msst) : list slc := mi_key (mx_it st) :: sides (mi_bounds (mx_it st)) ++ mx_rest st.
    (** The state with other memory; /repo/table.go:1097-1104. *)
    Definition mx_put (m : mem) (st : msst) : msst := MSst m (mx_it st) (mx_keys st) (mx_ikeys st) (mx_vals st) (mx_got st) (mx_vi st).

    (** getPrefetchedValue, /repo/table.go:1119-1128. *)
    Definition m_get_prefetched (st : msst) : msst * res T :=
      let st := mx_put (stir (mx_hold st) (mx_mem st)) st in
      match nth_error (mx_got st) (mx_vi st) with
      | None => (st, Panic)
      | Some v =>
          match t_deser tb (m_read (mx_mem st) v) (t_nil tb) with
          | None => (st, Err EDeserialize)
          | Some r => (MSst (mx_mem st) (mx_it st) (mx_keys st) (mx_ikeys st) (mx_vals st) (mx_got st) (S (mx_vi st)), Ok r)
          end
      end.

    (** The collecting loop, /repo/table.go:1132-1149, with nextBuff [nb]; [n] is scanPrefetchSize - len(keys). ToDataKeyBytes (/repo/keys.go:290-311)
        writes its bytes at one go (simplified). *)
    Fixpoint m_collect (n : nat) (nb : slc) (st : msst) : msst * res unit :=
      if bi_valid (mi_it (mx_it st)) then
        let it := mx_it st in
        let m := mx_mem st in
        let iter_key := m_read m (mi_key it) in
        let '(h, index_key) := sl_append grow x00 (m_heap m) (sl_reset nb) iter_key in
        let nb := sl_tail index_key in
        let st := MSst (Mem h (m_past m)) it (mx_keys st) (mx_ikeys st ++ [index_key]) (mx_vals st) (mx_got st) (mx_vi st) in
        match to_data_key_bytes (m_read (mx_mem st) (mi_key it)) [] with
        | Ok dk =>
            let '(h, key) := sl_append grow x00 h (sl_reset nb) dk in
            let nb := sl_tail key in
            let st := MSst (Mem h (m_past m)) it (mx_keys st ++ [key]) (mx_ikeys st) (mx_vals st) (mx_got st) (mx_vi st) in
            let st := mx_put (stir (nb :: mx_hold st) (mx_mem st)) st in
            match n with
            | S (S _ as n') =>
                let '(m, it) := m_next (nb :: mx_rest st) (mx_mem st) it in
                m_collect n' nb (MSst m it (mx_keys st) (mx_ikeys st) (mx_vals st) (mx_got st) (mx_vi st))
            | _ => (st, Ok tt)
            end
        | Err e => (st, Err e)
        | Panic => (st, Panic)
        | Diverge => (st, Diverge)
        end
      else (st, Ok tt).

    (** prefetchAndGetValue, /repo/table.go:1130-1158. *)
    Definition m_prefetch_and_get (db : kv) (fl : F) (ob : option batch) (st : msst) : msst * res T :=
      let '(st, r) := m_collect (t_prefetch tb - length (mx_keys st)) mkb st in
      match r with
      | Ok _ =>
          let own := mi_key (mx_it st) :: sides (mi_bounds (mx_it st)) ++ mkb :: mx_ikeys st in
          let '(m, keys, vals, r) := m_get grow noise mt ev own db fl ob (mx_keys st) (mx_vals st) true (mx_mem st) in
          match r with
          | Ok vs => m_get_prefetched (MSst m (mx_it st) keys (mx_ikeys st) vals vs (mx_vi st))
          | Err e => (MSst m (mx_it st) keys (mx_ikeys st) vals [] (mx_vi st), Err e)
          | Panic => (MSst m (mx_it st) keys (mx_ikeys st) vals (mx_got st) (mx_vi st), Panic)
          | Diverge => (MSst m (mx_it st) keys (mx_ikeys st) vals (mx_got st) (mx_vi st), Diverge)
          end
      | Err e => (st, Err e)
      | Panic => (st, Panic)
      | Diverge => (st, Diverge)
      end.

    (** The loop over prefetched entries, /repo/table.go:1173-1179: [inl] the scan ends, [inr] it goes on. *)
    Fixpoint m_prefetched_loop (fuel : nat) (st : msst) (s : W) : (msst * (W * res unit)) + (msst * W) :=
      if Nat.ltb (mx_vi st) (length (mx_got st)) then
        match fuel with
        | O => inl (st, (s, Diverge))
        | S fuel' =>
            match nth_error (mx_ikeys st) (mx_vi st) with
            | None => inl (st, (s, Panic))
            | Some k =>
                let '(st', r) := run_mprog mx_mem mx_put mx_hold m_get_prefetched (f s k) st in
                match r with
                | Ok (s', true, None) => m_prefetched_loop fuel' st' s'
                | Ok (s', _, Some e) => inl (st', (s', Err e))
                | Ok (s', false, None) => inl (st', (s', Ok tt))
                | Err e => inl (st', (s, Err e))
                | Panic => inl (st', (s, Panic))
                | Diverge => inl (st', (s, Diverge))
                end
            end
        end
      else inr (st, s).

    (** The loop of scanForEachSecondaryIndex, /repo/table.go:1160-1193; also the state at the end. *)
    Fixpoint m_secondary_loop (db : kv) (fl : F) (ob : option batch) (fuel : nat) (n : nat) (m : mem) (it : miter) (vals : list slc) (s : W)
        : msst * (W * res unit) :=
      let st := MSst m it [] [] vals [] 0 in
      if bi_valid (mi_it it) then
        match fuel with
        | O => (st, (s, Diverge))
        | S fuel' =>
            if e_ctx ev n then (st, (s, Err ECtx))
            else
              let '(st1, r) := run_mprog mx_mem mx_put mx_hold (m_prefetch_and_get db fl ob) (f s (mi_key it)) st in
              match r with
              | Ok (s1, true, None) =>
                  match m_prefetched_loop fuel' st1 s1 with
                  | inl out => out
                  | inr (st2, s2) =>
                      let '(m, it) := m_next (mkb :: mx_vals st2) (mx_mem st2) (mx_it st2) in
                      m_secondary_loop db fl ob fuel' (S n) m it (mx_vals st2) s2
                  end
              | Ok (s1, _, Some e) => (st1, (s1, Err e))
              | Ok (s1, false, None) => (st1, (s1, Ok tt))
              | Err e => (st1, (s, Err e))
              | Panic => (st1, (s, Panic))
              | Diverge => (st1, (s, Diverge))
              end
        end
      else (st, (s, Ok tt)).
  End Loop.

  (** /repo/table.go:1019-1025 ScanIndexForEach, with the buffers [bufs] for the bounds, [kb] for the iterator's key, multiKeyBuffer [mkb] and
      valuesBuffer [vals]. Memory, the slices given back to the pools (bounds, values), the iterator's key, and the outcome. *)
  Definition m_scan_index_for_each {W : Type} (fuel : nat) (m : mem) (bufs : list (slc * slc)) (kb mkb : slc) (vals : list slc)
      (db : kv) (fl : F) (idx : index T) (sel : selector T) (f : W -> slc -> mprog T W) (rev : bool) (ob : optb) (s : W)
      : mem * (list slc * slc) * (W * res unit) :=
    let open := db_iter db (batch_of ob) in
    let primary := Byte.eqb (ix_id idx) primary_index_id in
    let '(m, r) := m_index_iter [] db ob idx sel bufs kb m in
    match r with
    | Ok it =>
        let '(m, it) := m_move (if primary then [] else mkb :: vals) (scan_first open rev) m it in
        if primary
        then let '(m, it, out) := m_primary_loop f open rev fuel 0 m it s in (m, (sides (mi_bounds it) ++ vals, mi_key it), out)
        else let '(st, out) := m_secondary_loop f open rev mkb db fl (batch_of ob) fuel 0 m it vals s in
             (mx_mem st, (sides (mi_bounds (mx_it st)) ++ mx_vals st, mi_key (mx_it st)), out)
    | Err e => (m, ([], kb), (s, Err e))
    | Panic => (m, ([], kb), (s, Panic))
    | Diverge => (m, ([], kb), (s, Diverge))
    end.
End MemScan.
