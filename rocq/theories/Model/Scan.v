(** Selectors, bond iterators, index scans and range Get:
    /repo/selector.go, /repo/iter.go, /repo/index.go:176-278, /repo/table.go:848-1194. *)

From Coq Require Import List NArith Bool Arith.
From Verif.Model Require Import Bytes Go Keys Pebble Index Table.
Import ListNotations.

(** The variadic batch argument of the read calls, e.g. /repo/table.go:1004: absent, present
    but nil, or a batch. *)
Inductive optb := NoBatch | NilBatch | ABatch (b : batch).

(** /repo/table.go:849-854 and /repo/bond.go:275-281: a nil batch means the database. *)
Definition batch_of (o : optb) : option batch :=
  match o with ABatch b => Some b | _ => None end.

(** /repo/selector.go:7-53. A range of SelectorRanges is a slice that should have two
    elements; [SOther] is a user-defined selector of another type
    (Selector is an exported interface). *)
Inductive selector (T : Type) :=
| SPoint (p : T)
| SPoints (ps : list T)
| SRange (lo hi : T)
| SRanges (rs : list (list T))
| SOther.
Arguments SPoint {T}.
Arguments SPoints {T}.
Arguments SRange {T}.
Arguments SRanges {T}.
Arguments SOther {T}.

(** ** Bond iterators *)

(** /repo/iter.go:51-54 _iterator (one pebble iterator) and 72-78 _iteratorMulti: the list
    of bounds, the index of the current one and its iterator. An errIterator is a
    pebble iterator with an error. *)
Inductive biter :=
| BOne (p : piter)
| BMulti (opts : list (bytes * bytes)) (i : nat) (p : piter).

Section Iter.
  (** Iterationer.Iter with bounds (/repo/bond.go:275-281, /repo/batch.go:110-112). *)
  Variable open : bytes -> bytes -> piter.

  (** /repo/iter.go:94, 107, 124, 141: the iterator of the i-th option; the code never indexes
      outside the options, [None] would be a panic. *)
  Definition open_at (opts : list (bytes * bytes)) (i : nat) : piter :=
    match nth_error opts i with
    | Some (lo, hi) => open lo hi
    | None => err_iter EOther
    end.

  (** /repo/iter.go:80-87 newIteratorMulti: opts[0] panics without options. *)
  Definition new_multi (opts : list (bytes * bytes)) : res biter :=
    match opts with
    | [] => Panic
    | (lo, hi) :: _ => Ok (BMulti opts 0 (open lo hi))
    end.

  (** The loop of First, /repo/iter.go:91-98, over [todo] options starting with number [i]. *)
  Fixpoint multi_first (opts : list (bytes * bytes)) (todo i : nat) (cur : nat * piter) : nat * piter :=
    match todo with
    | O => cur
    | S todo' =>
        let p := it_first (open_at opts i) in
        if it_valid p then (i, p) else multi_first opts todo' (S i) (i, p)
    end.

  (** The loop of Last, /repo/iter.go:104-111; [todo] = i + 1. *)
  Fixpoint multi_last (opts : list (bytes * bytes)) (todo : nat) (cur : nat * piter) : nat * piter :=
    match todo with
    | O => cur
    | S i =>
        let p := it_last (open_at opts i) in
        if it_valid p then (i, p) else multi_last opts i (i, p)
    end.

  (** The loop of Next, /repo/iter.go:133-145; [todo] bounds the number of options left. *)
  Fixpoint multi_next (opts : list (bytes * bytes)) (todo i : nat) (p : piter) : nat * piter * bool :=
    let p1 := it_next p in
    if it_valid p1 then (i, p1, true)
    else if Nat.eqb (S i) (length opts) then (i, p1, false)
    else match todo with
         | O => (i, p1, false)
         | S todo' =>
             let p2 := it_first (open_at opts (S i)) in
             if it_valid p2 then (S i, p2, true) else multi_next opts todo' (S i) p2
         end.

  (** The loop of Prev, /repo/iter.go:116-128. *)
  Fixpoint multi_prev (opts : list (bytes * bytes)) (i : nat) (p : piter) : nat * piter * bool :=
    let p1 := it_prev p in
    if it_valid p1 then (i, p1, true)
    else match i with
         | O => (O, p1, false)
         | S i' =>
             let p2 := it_last (open_at opts i') in
             if it_valid p2 then (i', p2, true) else multi_prev opts i' p2
         end.

  (** First; /repo/iter.go:89-100. *)
  Definition bi_first (b : biter) : biter :=
    match b with
    | BOne p => BOne (it_first p)
    | BMulti opts i p => let '(i', p') := multi_first opts (length opts) 0 (i, p) in BMulti opts i' p'
    end.

  (** Last; /repo/iter.go:102-113. *)
  Definition bi_last (b : biter) : biter :=
    match b with
    | BOne p => BOne (it_last p)
    | BMulti opts i p => let '(i', p') := multi_last opts (length opts) (i, p) in BMulti opts i' p'
    end.

  (** Next with its return value; /repo/iter.go:132-147. *)
  Definition bi_next_ok (b : biter) : biter * bool :=
    match b with
    | BOne p => let p' := it_next p in (BOne p', it_valid p')
    | BMulti opts i p => let '(i', p', ok) := multi_next opts (length opts) i p in (BMulti opts i' p', ok)
    end.

  (** Prev with its return value; /repo/iter.go:115-130. *)
  Definition bi_prev_ok (b : biter) : biter * bool :=
    match b with
    | BOne p => let p' := it_prev p in (BOne p', it_valid p')
    | BMulti opts i p => let '(i', p', ok) := multi_prev opts i p in (BMulti opts i' p', ok)
    end.

  (** The scans ignore the return values, /repo/table.go:1030-1044, 1076-1090. *)
  Definition bi_next (b : biter) : biter := fst (bi_next_ok b).
  (** As [bi_next]; /repo/table.go:1038-1044. *)
  Definition bi_prev (b : biter) : biter := fst (bi_prev_ok b).
End Iter.

(** The current pebble iterator; /repo/iter.go:149-151, 172-178. *)
Definition bi_cur (b : biter) : piter := match b with BOne p => p | BMulti _ _ p => p end.
(** Valid; /repo/iter.go:149-151. *)
Definition bi_valid (b : biter) : bool := it_valid (bi_cur b).
(** Key; /repo/iter.go:172-174. *)
Definition bi_key (b : biter) : bytes := it_key (bi_cur b).
(** Value; /repo/iter.go:176-178. *)
Definition bi_value (b : biter) : bytes := it_value (bi_cur b).

Section Sel.
  Context {T F : Type}.
  Variable tb : table T F.
  Variable ev : env T.

  Notation enc := (encode_index_key (t_id tb) (t_pk tb)).

  (** Bounds of a point, /repo/index.go:188-189 and 208-212; [exact] is the extra case of
      SelectorTypePoints on the primary index. *)
  Definition point_bounds (idx : index T) (exact : bool) (p : T) : res (bytes * bytes) :=
    let lower := enc idx p [] in
    match key_prefix_of lower with
    | Ok pre => Ok (lower, if exact then key_successor lower else key_successor pre)
    | Err e => Err e
    | Panic => Panic
    | Diverge => Diverge
    end.

  (** Bounds of a range, /repo/index.go:233-235 and 255-257. *)
  Definition range_bounds (idx : index T) (lo hi : T) : bytes * bytes :=
    (enc idx lo [], key_successor (enc idx hi [])).

  (** /repo/index.go:207-225: the bounds of all points. *)
  Fixpoint points_bounds (idx : index T) (exact : bool) (ps : list T) : res (list (bytes * bytes)) :=
    match ps with
    | [] => Ok []
    | p :: ps' =>
        match point_bounds idx exact p with
        | Ok b => match points_bounds idx exact ps' with Ok l => Ok (b :: l) | e => e end
        | Err e => Err e
        | Panic => Panic
        | Diverge => Diverge
        end
    end.

  (** /repo/index.go:252-271: the bounds of all ranges; r[0], r[1] panic on shorter slices. *)
  Fixpoint ranges_bounds (idx : index T) (rs : list (list T)) : res (list (bytes * bytes)) :=
    match rs with
    | [] => Ok []
    | (lo :: hi :: _) :: rs' =>
        match ranges_bounds idx rs' with Ok l => Ok (range_bounds idx lo hi :: l) | e => e end
    | _ => Panic
    end.

  (** /repo/index.go:176-278 Index.Iter, together with the constructor of the iterators. A batch
      argument that is nil panics when its Iter method is called (178-180, 196, 242, and
      /repo/iter.go:85). Releasing the bound buffers is not modelled. *)
  Definition index_iter (db : kv) (ob : optb) (idx : index T) (sel : selector T) : res biter :=
    let open := db_iter db (batch_of ob) in
    let checked (r : res biter) := match ob with NilBatch => Panic | _ => r end in
    match sel with
    | SPoint p =>
        match point_bounds idx false p with
        | Ok (lo, hi) => checked (Ok (BOne (open lo hi)))
        | Err e => Err e
        | Panic => Panic
        | Diverge => Diverge
        end
    | SPoints ps =>
        match points_bounds idx (Byte.eqb (ix_id idx) primary_index_id) ps with
        | Ok l => checked (new_multi open l)
        | Err e => Err e
        | Panic => Panic
        | Diverge => Diverge
        end
    | SRange l h => let '(lo, hi) := range_bounds idx l h in checked (Ok (BOne (open lo hi)))
    | SRanges rs =>
        match ranges_bounds idx rs with
        | Ok l => checked (new_multi open l)
        | Err e => Err e
        | Panic => Panic
        | Diverge => Diverge
        end
    | SOther => Ok (BOne (err_iter ESelector))
    end.

  (** ** Scans *)

  (** What a callback f(key, lazy) does on one call: it calls lazy.Get any number of
      times and in the end returns (cont, err); [W] is the state the callback shares
      with its other calls (Go closures). /repo/table.go:1019, /repo/lazy.go:3-9. A callback
      that changes the database while the scan runs is not modelled. *)
  Inductive prog (W : Type) :=
  | PRet (s : W) (cont : bool) (e : option error)
  | PGet (k : res T -> prog W).
  Arguments PRet {W}.
  Arguments PGet {W}.

  (** Running one call (/repo/table.go:1063, /repo/lazy.go:7-9), [get] being the GetFunc of the Lazy; a panic in it ends the scan. *)
  Fixpoint run_prog {W St : Type} (get : St -> St * res T) (p : prog W) (st : St)
      : St * res (W * bool * option error) :=
    match p with
    | PRet s c e => (st, Ok (s, c, e))
    | PGet k =>
        let '(st', v) := get st in
        match v with
        | Panic => (st', Panic)
        | Diverge => (st', Diverge)
        | _ => run_prog get (k v) st'
        end
    end.

  (** The first and next closures, /repo/table.go:1030-1044 and 1076-1090. *)
  Definition scan_first (open : bytes -> bytes -> piter) (rev : bool) (b : biter) : biter :=
    if rev then bi_last open b else bi_first open b.
  (** As [scan_first]; /repo/table.go:1038-1044. *)
  Definition scan_next (open : bytes -> bytes -> piter) (rev : bool) (b : biter) : biter :=
    if rev then bi_prev open b else bi_next open b.

  (** The getValue closure, /repo/table.go:1046-1054. *)
  Definition get_value_of (b : biter) : biter * res T :=
    (b, match t_deser tb (bi_value b) (t_nil tb) with Some r => Ok r | None => Err EDeserialize end).

  Section Loop.
    Context {W : Type}.
    Variable f : W -> bytes -> prog W.
    Variable open : bytes -> bytes -> piter.
    Variable rev : bool.

    (** The loop of scanForEachPrimaryIndex, /repo/table.go:1055-1070; [n] counts the ctx checks. Close
        of a pebble iterator is assumed not to fail; Close of an errIterator returns nil
        (/repo/iter.go:248-250). *)
    Fixpoint primary_loop (fuel : nat) (n : nat) (it : biter) (s : W) : W * res unit :=
      if bi_valid it then
        match fuel with
        | O => (s, Diverge)
        | S fuel' =>
            if e_ctx ev n then (s, Err ECtx)
            else
              let '(it', r) := run_prog get_value_of (f s (bi_key it)) it in
              match r with
              | Ok (s', true, None) => primary_loop fuel' (S n) (scan_next open rev it') s'
              | Ok (s', _, Some e) => (s', Err e)
              | Ok (s', false, None) => (s', Ok tt)
              | Err e => (s, Err e)
              | Panic => (s, Panic)
              | Diverge => (s, Diverge)
              end
        end
      else (s, Ok tt).

    (** The local variables of scanForEachSecondaryIndex, /repo/table.go:1097-1109. *)
    Record sst := Sst {
      ss_it : biter;
      ss_keys : list bytes;
      ss_ikeys : list bytes;
      ss_vals : list bytes;
      ss_vi : nat
    }.

    (** The getPrefetchedValue closure, /repo/table.go:1119-1128. *)
    Definition get_prefetched (st : sst) : sst * res T :=
      match nth_error (ss_vals st) (ss_vi st) with
      | None => (st, Panic)
      | Some v =>
          match t_deser tb v (t_nil tb) with
          | None => (st, Err EDeserialize)
          | Some r => (Sst (ss_it st) (ss_keys st) (ss_ikeys st) (ss_vals st) (S (ss_vi st)), Ok r)
          end
      end.

    (** The collecting loop, /repo/table.go:1133-1149; [n] is scanPrefetchSize - len(keys). The keys are
        modelled as values; Model/MemScan.v has them in the shared key buffer, which a second Get of one callback call overwrites. *)
    Fixpoint collect (n : nat) (st : sst) : sst * res unit :=
      if bi_valid (ss_it st) then
        let k := bi_key (ss_it st) in
        match to_data_key_bytes k [] with
        | Ok dk =>
            let st1 := Sst (ss_it st) (ss_keys st ++ [dk]) (ss_ikeys st ++ [k]) (ss_vals st) (ss_vi st) in
            match n with
            | S (S _ as n') =>
                collect n' (Sst (scan_next open rev (ss_it st1)) (ss_keys st1) (ss_ikeys st1) (ss_vals st1) (ss_vi st1))
            | _ => (st1, Ok tt)
            end
        | Err e => (st, Err e)
        | Panic => (st, Panic)
        | Diverge => (st, Diverge)
        end
      else (st, Ok tt).

    (** t.get with the values buffer of scanPrefetchSize slots: writing past it panics, which comes after the key was found
        (/repo/table.go:957-981). *)
    Definition get_into (db : kv) (fl : F) (ob : option batch) (keys : list bytes) : res (list bytes) :=
      if Nat.leb (length keys) (t_prefetch tb) then get_keys tb ev db fl ob keys true
      else let '(skeys, _) := sort_keys ev keys in
           match get_values tb fl (db_iter db ob (hd [] skeys) (data_key_space_end tb))
                   (firstn (S (t_prefetch tb)) skeys) true with
           | Ok _ => Panic
           | e => e
           end.

    (** t.get sorts the slice it is given in place; /repo/table.go:942-947. *)
    Definition left_sorted (keys : list bytes) : list bytes :=
      match keys with [] => [] | _ => fst (sort_keys ev keys) end.

    (** The prefetchAndGetValue closure, /repo/table.go:1130-1158; an error of get leaves prefetchedValues nil. *)
    Definition prefetch_and_get (db : kv) (fl : F) (ob : option batch) (st : sst) : sst * res T :=
      let '(st1, r) := collect (t_prefetch tb - length (ss_keys st)) st in
      match r with
      | Ok _ =>
          let ks := left_sorted (ss_keys st1) in
          match get_into db fl ob (ss_keys st1) with
          | Ok vs => get_prefetched (Sst (ss_it st1) ks (ss_ikeys st1) vs (ss_vi st1))
          | Err e => (Sst (ss_it st1) ks (ss_ikeys st1) [] (ss_vi st1), Err e)
          | Panic => (st1, Panic)
          | Diverge => (st1, Diverge)
          end
      | Err e => (st1, Err e)
      | Panic => (st1, Panic)
      | Diverge => (st1, Diverge)
      end.

    (** The loop over prefetched entries, /repo/table.go:1175-1181: [inl] the scan ends, [inr] it goes on. *)
    Fixpoint prefetched_loop (fuel : nat) (st : sst) (s : W) : (W * res unit) + (sst * W) :=
      if Nat.ltb (ss_vi st) (length (ss_vals st)) then
        match fuel with
        | O => inl (s, Diverge)
        | S fuel' =>
            match nth_error (ss_ikeys st) (ss_vi st) with
            | None => inl (s, Panic)
            | Some k =>
                let '(st', r) := run_prog get_prefetched (f s k) st in
                match r with
                | Ok (s', true, None) => prefetched_loop fuel' st' s'
                | Ok (s', _, Some e) => inl (s', Err e)
                | Ok (s', false, None) => inl (s', Ok tt)
                | Err e => inl (s, Err e)
                | Panic => inl (s, Panic)
                | Diverge => inl (s, Diverge)
                end
            end
        end
      else inr (st, s).

    (** The loop of scanForEachSecondaryIndex, /repo/table.go:1160-1193. *)
    Fixpoint secondary_loop (db : kv) (fl : F) (ob : option batch) (fuel : nat) (n : nat) (it : biter) (s : W)
        : W * res unit :=
      if bi_valid it then
        match fuel with
        | O => (s, Diverge)
        | S fuel' =>
            if e_ctx ev n then (s, Err ECtx)
            else
              let '(st1, r) := run_prog (prefetch_and_get db fl ob) (f s (bi_key it)) (Sst it [] [] [] 0) in
              match r with
              | Ok (s1, true, None) =>
                  match prefetched_loop fuel' st1 s1 with
                  | inl out => out
                  | inr (st2, s2) => secondary_loop db fl ob fuel' (S n) (scan_next open rev (ss_it st2)) s2
                  end
              | Ok (s1, _, Some e) => (s1, Err e)
              | Ok (s1, false, None) => (s1, Ok tt)
              | Err e => (s, Err e)
              | Panic => (s, Panic)
              | Diverge => (s, Diverge)
              end
        end
      else (s, Ok tt).
  End Loop.

  (** /repo/table.go:1019-1025 ScanIndexForEach, 1027-1071 and 1073-1194. getValueArray with a negative
      scanPrefetchSize (a user option) gives no slots, as 0 would. [fuel] bounds the loops. *)
  Definition scan_index_for_each {W : Type} (fuel : nat) (db : kv) (fl : F) (idx : index T) (sel : selector T)
      (f : W -> bytes -> prog W) (rev : bool) (ob : optb) (s : W) : W * res unit :=
    let open := db_iter db (batch_of ob) in
    match index_iter db ob idx sel with
    | Ok it =>
        if Byte.eqb (ix_id idx) primary_index_id
        then primary_loop f open rev fuel 0 (scan_first open rev it) s
        else secondary_loop f open rev db fl (batch_of ob) fuel 0 (scan_first open rev it) s
    | Err e => (s, Err e)
    | Panic => (s, Panic)
    | Diverge => (s, Diverge)
    end.

  (** The callback of ScanIndex, /repo/table.go:1005-1012: appends the record to *tr. *)
  Definition append_cb (s : list T) (_ : bytes) : prog (list T) :=
    PGet (fun v => match v with
                   | Ok r => PRet (s ++ [r]) true None
                   | Err e => PRet s false (Some e)
                   | _ => PRet s false (Some EOther)
                   end).

  (** /repo/table.go:1004-1013 ScanIndex. *)
  Definition scan_index (fuel : nat) (db : kv) (fl : F) (idx : index T) (sel : selector T) (acc : list T)
      (rev : bool) (ob : optb) : list T * res unit :=
    scan_index_for_each fuel db fl idx sel append_cb rev ob acc.

  (** /repo/table.go:1000-1002 Scan. *)
  Definition scan (fuel : nat) (db : kv) (fl : F) (acc : list T) (rev : bool) (ob : optb) : list T * res unit :=
    scan_index fuel db fl primary_index (SPoint (t_empty tb)) acc rev ob.

  (** /repo/table.go:1015-1017 ScanForEach. *)
  Definition scan_for_each {W : Type} (fuel : nat) (db : kv) (fl : F) (f : W -> bytes -> prog W) (rev : bool)
      (ob : optb) (s : W) : W * res unit :=
    scan_index_for_each fuel db fl primary_index (SPoint (t_empty tb)) f rev ob s.

  (** /repo/table.go:848-939 Get. *)
  Definition get_sel (fuel : nat) (db : kv) (fl : F) (ob : optb) (sel : selector T) : res (list T) :=
    match sel with
    | SPoint p => match get_one tb db fl (batch_of ob) p with
                  | Ok r => Ok [r]
                  | Err e => Err e
                  | Panic => Panic
                  | Diverge => Diverge
                  end
    | SPoints ps => get_points tb ev db fl (batch_of ob) ps
    | SRange _ _ | SRanges _ =>
        match scan_index fuel db fl primary_index sel [] false ob with
        | (trs, Ok _) => Ok trs
        | (_, Err e) => Err e
        | (_, Panic) => Panic
        | (_, Diverge) => Diverge
        end
    | SOther => Err ESelector
    end.
End Sel.
Arguments PRet {T W}.
Arguments PGet {T W}.
