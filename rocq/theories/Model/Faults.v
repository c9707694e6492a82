(** Reads that fail: what scans, Get, Insert, Update, Upsert and ReIndex do when pebble cannot read. No caller in /repo looks at Iterator.Error;
    an iterator whose positioning fails is simply not valid, and its Close returns the error. *)

From Coq Require Import String List NArith Bool Arith.
From Verif.Model Require Import Bytes Go Keys Pebble Index Table Scan ReIndex Backup LiveScan.
Import ListNotations.

(** Which reads fail: the calls of pebble's NewIter and of its positioning methods are numbered in the order a bond call makes them;
    used at /repo/iter.go:43-49 and 13-29. *)
Record faults := Faults { ft_open : nat -> bool; ft_move : nat -> bool }.

(** A pebble iterator (/repo/iter.go:13-29) and whether it holds an error: then it is not valid. *)
Record fp := FP { fp_it : piter; fp_bad : bool }.

Section Reads.
  Variable io : faults.

  (** /repo/iter.go:43-49 NewIter: a failed constructor gives an errIterator. *)
  Definition fp_open (open : bytes -> bytes -> piter) (lo hi : bytes) (n : nat) : fp * nat :=
    (FP (if ft_open io n then err_iter EOther else open lo hi) false, S n).

  (** A positioning call on a pebble iterator. [again]: First, Last and the seeks start afresh; Next and Prev of an iterator that holds an
      error return at once. An errIterator (/repo/iter.go:202-252) does not read. Used at /repo/iter.go:89-147, /repo/table.go:297, 529, 833, 967. *)
  Definition fp_move (again : bool) (mv : piter -> piter) (p : fp) (n : nat) : fp * nat :=
    match pi_err (fp_it p) with
    | Some _ => (FP (mv (fp_it p)) false, n)
    | None =>
        if fp_bad p && negb again then (p, n)
        else if ft_move io n then (FP (PIter (pi_items (fp_it p)) PNone None) true, S n)
        else (FP (mv (fp_it p)) false, S n)
    end.

  (** Valid; /repo/iter.go:18. *)
  Definition fp_valid (p : fp) : bool := it_valid (fp_it p).

  (** ** Bond iterators *)

  (** /repo/iter.go:51-54 _iterator and 72-78 _iteratorMulti, as [biter]. *)
  Inductive fbiter :=
  | FOne (p : fp)
  | FMulti (opts : list (bytes * bytes)) (i : nat) (p : fp).

  (** The current pebble iterator; /repo/iter.go:149-151, 172-178. *)
  Definition fb_cur (b : fbiter) : fp := match b with FOne p => p | FMulti _ _ p => p end.

  Section Multi.
    Variable open : bytes -> bytes -> piter.

    (** As [open_at]; /repo/iter.go:94, 107, 124, 141. *)
    Definition fp_open_at (opts : list (bytes * bytes)) (i : nat) (n : nat) : fp * nat :=
      match nth_error opts i with
      | Some (lo, hi) => fp_open open lo hi n
      | None => (FP (err_iter EOther) false, n)
      end.

    (** The loop of First, /repo/iter.go:91-98; the error that Close returns is dropped. *)
    Fixpoint fmulti_first (opts : list (bytes * bytes)) (todo i : nat) (cur : nat * fp) (n : nat) : nat * fp * nat :=
      match todo with
      | O => (cur, n)
      | S todo' =>
          let '(p0, n0) := fp_open_at opts i n in
          let '(p, n1) := fp_move true it_first p0 n0 in
          if fp_valid p then (i, p, n1) else fmulti_first opts todo' (S i) (i, p) n1
      end.

    (** The loop of Last, /repo/iter.go:104-111. *)
    Fixpoint fmulti_last (opts : list (bytes * bytes)) (todo : nat) (cur : nat * fp) (n : nat) : nat * fp * nat :=
      match todo with
      | O => (cur, n)
      | S i =>
          let '(p0, n0) := fp_open_at opts i n in
          let '(p, n1) := fp_move true it_last p0 n0 in
          if fp_valid p then (i, p, n1) else fmulti_last opts i (i, p) n1
      end.

    (** The loop of Next, /repo/iter.go:133-145. *)
    Fixpoint fmulti_next (opts : list (bytes * bytes)) (todo i : nat) (p : fp) (n : nat) : nat * fp * nat :=
      let '(p1, n1) := fp_move false it_next p n in
      if fp_valid p1 then (i, p1, n1)
      else if Nat.eqb (S i) (length opts) then (i, p1, n1)
      else match todo with
           | O => (i, p1, n1)
           | S todo' =>
               let '(p0, n2) := fp_open_at opts (S i) n1 in
               let '(p2, n3) := fp_move true it_first p0 n2 in
               if fp_valid p2 then (S i, p2, n3) else fmulti_next opts todo' (S i) p2 n3
           end.

    (** The loop of Prev, /repo/iter.go:116-128. *)
    Fixpoint fmulti_prev (opts : list (bytes * bytes)) (i : nat) (p : fp) (n : nat) : nat * fp * nat :=
      let '(p1, n1) := fp_move false it_prev p n in
      if fp_valid p1 then (i, p1, n1)
      else match i with
           | O => (O, p1, n1)
           | S i' =>
               let '(p0, n2) := fp_open_at opts i' n1 in
               let '(p2, n3) := fp_move true it_last p0 n2 in
               if fp_valid p2 then (i', p2, n3) else fmulti_prev opts i' p2 n3
           end.

    (** The first and next closures of the scans, /repo/table.go:1030-1044 and 1076-1090. *)
    Definition fscan_first (rev : bool) (b : fbiter) (n : nat) : fbiter * nat :=
      match b with
      | FOne p => let '(p', n') := fp_move true (if rev then it_last else it_first) p n in (FOne p', n')
      | FMulti opts i p =>
          let '(i', p', n') := if rev then fmulti_last opts (length opts) (i, p) n else fmulti_first opts (length opts) 0 (i, p) n in
          (FMulti opts i' p', n')
      end.
    (** As [fscan_first]; /repo/table.go:1038-1044. *)
    Definition fscan_next (rev : bool) (b : fbiter) (n : nat) : fbiter * nat :=
      match b with
      | FOne p => let '(p', n') := fp_move false (if rev then it_prev else it_next) p n in (FOne p', n')
      | FMulti opts i p =>
          let '(i', p', n') := if rev then fmulti_prev opts i p n else fmulti_next opts (length opts) i p n in
          (FMulti opts i' p', n')
      end.
  End Multi.

  (** Valid, Key, Value; /repo/iter.go:149-151, 172-178. *)
  Definition fb_valid (b : fbiter) : bool := fp_valid (fb_cur b).
  (** As [fb_valid]; /repo/iter.go:172-174. *)
  Definition fb_key (b : fbiter) : bytes := it_key (fp_it (fb_cur b)).
  (** As [fb_valid]; /repo/iter.go:176-178. *)
  Definition fb_value (b : fbiter) : bytes := it_value (fp_it (fb_cur b)).
  (** Close: pebble returns the error that the iterator holds, an errIterator nil; /repo/iter.go:61-70, 180-190, 248-250. *)
  Definition fb_close (b : fbiter) : res unit := if fp_bad (fb_cur b) then Err EOther else Ok tt.

  (** The iterator that Index.Iter returns, before any read; /repo/index.go:176-278. *)
  Definition fb_of (b : biter) : fbiter :=
    match b with BOne p => FOne (FP p false) | BMulti opts i p => FMulti opts i (FP p false) end.

  Section Calls.
    Context {T F : Type}.
    Variable tb : table T F.
    Variable ev : env T.

    (** ** Get of keys *)

    (** The loop of get, /repo/table.go:957-981, as [get_values]: a failed seek is an absent key. *)
    Fixpoint fget_values (fl : F) (it : fp) (keys : list bytes) (err_on_absent : bool) (n : nat) : res (list bytes) * nat :=
      match keys with
      | [] => (Ok [], n)
      | k :: keys' =>
          let '(v, it', n') :=
            if negb (flt_may tb fl k) then (None, it, n)
            else let '(it', n') := fp_move true (fun p => it_seek_ge p k) it n in
                 (if negb (fp_valid it') || negb (beqb (it_key (fp_it it')) k) then None else Some (it_value (fp_it it')), it', n') in
          match v with
          | None => if err_on_absent then (Err ENotFound, n')
                    else match fget_values fl it' keys' err_on_absent n' with
                         | (Ok l, n2) => (Ok ([] :: l), n2)
                         | e => e
                         end
          | Some v => match fget_values fl it' keys' err_on_absent n' with
                      | (Ok l, n2) => (Ok (v :: l), n2)
                      | e => e
                      end
          end
      end.

    (** /repo/table.go:941-990 get, as [get_keys]. *)
    Definition fget_keys (db : kv) (fl : F) (ob : option batch) (keys : list bytes) (err_on_absent : bool) (n : nat)
        : res (list bytes) * nat :=
      match keys with
      | [] => (Ok [], n)
      | _ =>
          let '(skeys, order) := sort_keys ev keys in
          let '(it, n1) := fp_open (db_iter db ob) (hd [] skeys) (data_key_space_end tb) n in
          match fget_values fl it skeys err_on_absent n1 with
          | (Ok vs, n2) => (Ok (reorder_values vs order), n2)
          | e => e
          end
      end.

    (** t.get with the values buffer of scanPrefetchSize slots, as [get_into]; /repo/table.go:957-981. *)
    Definition fget_into (db : kv) (fl : F) (ob : option batch) (keys : list bytes) (n : nat) : res (list bytes) * nat :=
      if Nat.leb (length keys) (t_prefetch tb) then fget_keys db fl ob keys true n
      else let '(skeys, _) := sort_keys ev keys in
           let '(it, n1) := fp_open (db_iter db ob) (hd [] skeys) (data_key_space_end tb) n in
           match fget_values fl it (firstn (S (t_prefetch tb)) skeys) true n1 with
           | (Ok _, n2) => (Panic, n2)
           | e => e
           end.

    (** /repo/table.go:884-917 Get with a points selector, as [get_points]: one round of get with errorOnNotExist false. *)
    Definition fget_points (db : kv) (fl : F) (ob : option batch) (pts : list T) : res (list T) :=
      match pts with
      | [] => Ok []
      | _ =>
          match fget_keys db fl ob (map (data_key tb) pts) false 0 with
          | (Ok vs, _) => decode_values tb vs
          | (Err e, _) => Err e
          | (Panic, _) => Panic
          | (Diverge, _) => Diverge
          end
      end.

    (** ** Scans *)

    Section Loop.
      Context {W : Type}.
      Variable f : W -> bytes -> prog (T:=T) W.
      Variable open : bytes -> bytes -> piter.
      Variable rev : bool.

      (** The getValue closure, /repo/table.go:1046-1054. *)
      Definition fget_value_of (b : fbiter) : fbiter * res T :=
        (b, match t_deser tb (fb_value b) (t_nil tb) with Some r => Ok r | None => Err EDeserialize end).

      (** The loop of scanForEachPrimaryIndex, /repo/table.go:1055-1070, as [primary_loop]; [c] counts the ctx checks, [n] the reads. *)
      Fixpoint fprimary_loop (fuel : nat) (c : nat) (it : fbiter) (n : nat) (s : W) : W * res unit :=
        if fb_valid it then
          match fuel with
          | O => (s, Diverge)
          | S fuel' =>
              if e_ctx ev c then (s, Err ECtx)
              else
                let '(it', r) := run_prog fget_value_of (f s (fb_key it)) it in
                match r with
                | Ok (s', true, None) => let '(it2, n2) := fscan_next open rev it' n in fprimary_loop fuel' (S c) it2 n2 s'
                | Ok (s', _, Some e) => (s', Err e)
                | Ok (s', false, None) => (s', Ok tt)
                | Err e => (s, Err e)
                | Panic => (s, Panic)
                | Diverge => (s, Diverge)
                end
          end
        else (s, fb_close it).

      (** The collecting loop, /repo/table.go:1133-1149, as [collect]; the iterator is carried beside the other variables, [ss_it] is not used. *)
      Fixpoint fcollect (cap : nat) (st : sst) (it : fbiter) (n : nat) : sst * fbiter * nat * res unit :=
        if fb_valid it then
          let k := fb_key it in
          match to_data_key_bytes k [] with
          | Ok dk =>
              let st1 := Sst (ss_it st) (ss_keys st ++ [dk]) (ss_ikeys st ++ [k]) (ss_vals st) (ss_vi st) in
              match cap with
              | S (S _ as cap') => let '(it2, n2) := fscan_next open rev it n in fcollect cap' st1 it2 n2
              | _ => (st1, it, n, Ok tt)
              end
          | Err e => (st, it, n, Err e)
          | Panic => (st, it, n, Panic)
          | Diverge => (st, it, n, Diverge)
          end
        else (st, it, n, Ok tt).

      (** The prefetchAndGetValue closure, /repo/table.go:1130-1158, as [prefetch_and_get]. *)
      Definition fprefetch (db : kv) (fl : F) (ob : option batch) (x : sst * fbiter * nat) : (sst * fbiter * nat) * res T :=
        let '(st, it, n) := x in
        let '(st1, it1, n1, r) := fcollect (t_prefetch tb - length (ss_keys st)) st it n in
        match r with
        | Ok _ =>
            let ks := left_sorted ev (ss_keys st1) in
            match fget_into db fl ob (ss_keys st1) n1 with
            | (Ok vs, n2) => let '(st2, v) := get_prefetched tb (Sst (ss_it st1) ks (ss_ikeys st1) vs (ss_vi st1)) in ((st2, it1, n2), v)
            | (Err e, n2) => ((Sst (ss_it st1) ks (ss_ikeys st1) [] (ss_vi st1), it1, n2), Err e)
            | (Panic, n2) => ((st1, it1, n2), Panic)
            | (Diverge, n2) => ((st1, it1, n2), Diverge)
            end
        | Err e => ((st1, it1, n1), Err e)
        | Panic => ((st1, it1, n1), Panic)
        | Diverge => ((st1, it1, n1), Diverge)
        end.

      (** The loop of scanForEachSecondaryIndex, /repo/table.go:1160-1193, as [secondary_loop]. *)
      Fixpoint fsecondary_loop (db : kv) (fl : F) (ob : option batch) (fuel : nat) (c : nat) (it : fbiter) (n : nat) (s : W) : W * res unit :=
        if fb_valid it then
          match fuel with
          | O => (s, Diverge)
          | S fuel' =>
              if e_ctx ev c then (s, Err ECtx)
              else
                let '((st1, it1, n1), r) := run_prog (fprefetch db fl ob) (f s (fb_key it)) (Sst (BOne (err_iter EOther)) [] [] [] 0, it, n) in
                match r with
                | Ok (s1, true, None) =>
                    match prefetched_loop tb f fuel' st1 s1 with
                    | inl out => out
                    | inr (_, s2) => let '(it2, n2) := fscan_next open rev it1 n1 in fsecondary_loop db fl ob fuel' (S c) it2 n2 s2
                    end
                | Ok (s1, _, Some e) => (s1, Err e)
                | Ok (s1, false, None) => (s1, Ok tt)
                | Err e => (s, Err e)
                | Panic => (s, Panic)
                | Diverge => (s, Diverge)
                end
          end
        else (s, fb_close it).
    End Loop.

    (** /repo/table.go:1019-1025 ScanIndexForEach, as [scan_index_for_each]; the first iterator is read number 0. A batch argument that is nil
        is left out. *)
    Definition fscan_index_for_each {W : Type} (fuel : nat) (db : kv) (fl : F) (idx : index T) (sel : selector T)
        (f : W -> bytes -> prog (T:=T) W) (rev : bool) (ob : option batch) (s : W) : W * res unit :=
      let open := db_iter db ob in
      match iter_by tb (fun lo hi => fp_it (fst (fp_open open lo hi 0))) idx sel with
      | Ok b =>
          let '(it, n) := fscan_first open rev (fb_of b) 1 in
          if Byte.eqb (ix_id idx) primary_index_id
          then fprimary_loop f open rev fuel 0 it n s
          else fsecondary_loop f open rev db fl ob fuel 0 it n s
      | Err e => (s, Err e)
      | Panic => (s, Panic)
      | Diverge => (s, Diverge)
      end.

    (** /repo/table.go:1004-1013 ScanIndex. *)
    Definition fscan_index (fuel : nat) (db : kv) (fl : F) (idx : index T) (sel : selector T) (acc : list T)
        (rev : bool) (ob : option batch) : list T * res unit :=
      fscan_index_for_each fuel db fl idx sel append_cb rev ob acc.

    (** ** Point reads *)

    (** /repo/table.go:857-882 Get with a point selector, as [get_one]: any error of the storage is ErrNotFound. *)
    Definition fget_one (db : kv) (fl : F) (ob : option batch) (tr : T) : res T :=
      if flt_may tb fl (data_key tb tr) && ft_move io 0 then Err ENotFound else get_one tb db fl ob tr.

    (** /repo/table.go:791-816 Exist, as [exist]: any error of the storage is false. *)
    Definition fexist (db : kv) (fl : F) (ob : option batch) (tr : T) : bool :=
      if flt_may tb fl (data_key tb tr) && ft_move io 0 then false else exist tb db fl ob tr.

    (** ** Writes. The read for a row is numbered by the row's place in the call; a chunk whose iterator cannot be made
        (/repo/table.go:389-394) is one whose reads all fail. *)

    (** /repo/table.go:818-834 exist, as [exist_key]: a failed SeekGE is false. *)
    Definition fexist_key (fl : F) (it : piter) (key : bytes) (n : nat) : bool := negb (ft_move io n) && exist_key tb fl it key.

    (** The loop of Insert, /repo/table.go:398-434, as [insert_rows]. *)
    Fixpoint finsert_rows (it : piter) (trs : list T) (prev : option bytes)
        (rows : list (bytes * nat)) (s : wst T F) : wst T F * res unit :=
      match rows with
      | [] => (s, Ok tt)
      | (key, o) :: rows' =>
          let n := w_tick s in
          let s := tick s in
          if e_ctx ev n then (s, Err ECtx)
          else if (match prev with Some p => beqb key p | None => false end)
                  || fexist_key (w_flt s) it key n
          then (s, Err (EExists (after_split key)))
          else
            match nth_error trs o with
            | None => (s, Panic)
            | Some tr =>
                match t_ser tb tr with
                | None => (s, Err ESerialize)
                | Some data =>
                    let s := add_ops s (BSet key data ::
                               flat_map (fun idx => on_insert (t_id tb) (t_pk tb) idx tr)
                                        (e_map ev n (t_indexes tb))) in
                    finsert_rows it trs (Some key) rows' (flt_add tb key s)
                end
            end
      end.

    (** One chunk of Insert; /repo/table.go:381-437. *)
    Definition finsert_chunk (db : kv) (rw : bool) (trs : list T) (s : wst T F) : wst T F * res unit :=
      let '(keys, order) := sort_keys ev (map (data_key tb) trs) in
      match keys with
      | [] => (s, Panic)
      | _ => finsert_rows (chunk_iter tb db rw (w_ops s) keys) trs None (combine keys order) s
      end.

    (** The loop of Update, /repo/table.go:516-559, as [update_rows]: a failed SeekGE is a record not found. *)
    Fixpoint fupdate_rows (it : piter) (trs : list T)
        (rows : list (bytes * nat)) (s : wst T F) : wst T F * res unit :=
      match rows with
      | [] => (s, Ok tt)
      | (key, o) :: rows' =>
          let n := w_tick s in
          let s := tick s in
          if e_ctx ev n then (s, Err ECtx)
          else if (match rows' with (k2, _) :: _ => beqb k2 key | [] => false end)
          then fupdate_rows it trs rows' s
          else
            let it' := it_seek_ge it key in
            if ft_move io n || negb (it_valid it') || negb (beqb (it_key it') key)
            then (s, Err (EMissing (after_split key)))
            else
              match t_deser tb (it_value it') (w_old s) with
              | None => (s, Err EDeserialize)
              | Some old =>
                  let s := set_old s old in
                  match nth_error trs o with
                  | None => (s, Panic)
                  | Some tr =>
                      match t_ser tb tr with
                      | None => (s, Err ESerialize)
                      | Some data =>
                          fupdate_rows it trs rows'
                            (add_ops s (BSet key data ::
                               flat_map (fun idx => on_update (t_id tb) (t_pk tb) idx old tr)
                                        (e_map ev n (t_indexes tb))))
                      end
                  end
              end
      end.

    (** One chunk of Update; /repo/table.go:500-562. *)
    Definition fupdate_chunk (db : kv) (rw : bool) (trs : list T) (s : wst T F) : wst T F * res unit :=
      let '(keys, order) := sort_keys ev (map (data_key tb) trs) in
      match keys with
      | [] => (s, Panic)
      | _ => fupdate_rows (chunk_iter tb db rw (w_ops s) keys) trs (combine keys order) s
      end.

    Variable on_conflict : T -> T -> T.

    (** The loop of Upsert, /repo/table.go:701-773, as [upsert_rows]: a failed SeekGE is a new row. *)
    Fixpoint fupsert_rows (fuel : nat) (it : piter) (trs : list T) (keys : list bytes) (order : list nat)
        (i : nat) (s : wst T F) : wst T F * res unit :=
      match fuel with
      | O => (s, if Nat.ltb i (length keys) then Diverge else Ok tt)
      | S fuel' =>
          if Nat.ltb i (length keys) then
            match nth_error trs (nth i order 0) with
            | None => (s, Panic)
            | Some tr =>
                let n := w_tick s in
                let s := tick s in
                if e_ctx ev n then (s, Err ECtx)
                else
                  let key := nth i keys [] in
                  let is_update := fexist_key (w_flt s) it key n in
                  match (if is_update then t_deser tb (it_value (it_seek_ge it key)) (w_old s)
                         else Some (w_old s)) with
                  | None => (s, Err EDeserialize)
                  | Some old =>
                      let tr := if is_update then on_conflict old tr else tr in
                      match upsert_dups on_conflict (length keys) keys trs i old tr with
                      | None => (set_old s old, Panic)
                      | Some (i', old', tr') =>
                          let s := set_old s old' in
                          match t_ser tb tr' with
                          | None => (s, Err ESerialize)
                          | Some data =>
                              let s := add_ops s (BSet key data ::
                                 (if is_update
                                  then flat_map (fun idx => on_update (t_id tb) (t_pk tb) idx old' tr')
                                                (e_map ev n (t_indexes tb))
                                  else flat_map (fun idx => on_insert (t_id tb) (t_pk tb) idx tr')
                                                (e_map ev n (t_indexes tb)))) in
                              let s := if is_update then s else flt_add tb key s in
                              fupsert_rows fuel' it trs keys order (S i') s
                          end
                      end
                  end
            end
          else (s, Ok tt)
      end.

    (** One chunk of Upsert; /repo/table.go:685-776. *)
    Definition fupsert_chunk (db : kv) (rw : bool) (trs : list T) (s : wst T F) : wst T F * res unit :=
      let '(keys, order) := sort_keys ev (map (data_key tb) trs) in
      match keys with
      | [] => (s, Panic)
      | _ => fupsert_rows (length keys) (chunk_iter tb db rw (w_ops s) keys) trs keys order 0 s
      end.

    (** /repo/table.go:338-450 Insert. *)
    Definition finsert (db : kv) (fl : F) (ob : option batch) (trs : list T) : wres * res unit :=
      run_write tb ev db fl ob (fun rw s => batched trs (e_chunk ev) (finsert_chunk db rw) s).

    (** /repo/table.go:452-575 Update. *)
    Definition fupdate (db : kv) (fl : F) (ob : option batch) (trs : list T) : wres * res unit :=
      run_write tb ev db fl ob (fun rw s => batched trs (e_chunk ev) (fupdate_chunk db rw) s).

    (** /repo/table.go:637-789 Upsert. *)
    Definition fupsert (db : kv) (fl : F) (ob : option batch) (trs : list T) : wres * res unit :=
      run_write tb ev db fl ob (fun rw s => batched trs (e_chunk ev) (fupsert_chunk db rw) s).
  End Calls.

  (** ** Loops over everything *)

  (** The items that a loop over an iterator meets: read [n] is its positioning, then one read for each Next; the loop ends where a read
      fails. /repo/table.go:297, /repo/bond.go:539. *)
  Fixpoint met (n : nat) (items : kv) : kv :=
    if ft_move io n then [] else match items with [] => [] | e :: items' => e :: met (S n) items' end.

  (** /repo/table.go:265-336 ReIndex, as [re_index]; the error that iter.Close returns is dropped (333). *)
  Definition fre_index {T F} (ev : renv) (tb : table T F) (db : kv) (idxs : list (index T)) : kv * res unit :=
    match re_delete ev (t_id tb) idxs 0 db with
    | (db', _, false) => (db', Err ECommit)
    | (db', n, true) =>
        let p := primary_prefix tb in
        re_rows ev tb idxs (met 0 (items_from (new_iter db' p (key_successor p)) p)) db' n [] 0
    end.
End Reads.

(** /repo/bond.go:378-439 Dump, as [dump]; [io t] are the reads of the goroutine that dumps table t. Without indexes only. *)
Fixpoint fdump_tables (io : byte -> faults) (full : kv -> bool) (snap : kv) (tables : list byte) (d : tree) : tree * res unit :=
  match tables with
  | [] => (d, Ok tt)
  | t :: tables' =>
      match dump_dir full d (table_dir t) (met (io t) 0 (kv_range snap (fst (row_bounds t)) (snd (row_bounds t)))) with
      | None => (d, Err EOther)
      | Some d' => fdump_tables io full snap tables' d'
      end
  end.

(** As [fdump_tables]; /repo/bond.go:378-439. *)
Definition fdump (io : byte -> faults) (full : kv -> bool) (snap : kv) (exists_dir : bool) (tables : list byte) : tree * res unit :=
  if exists_dir then ([], Err EOther)
  else fdump_tables io full snap tables [([str "VERSION"%string], NFile (be_bytes 4 data_version))].
