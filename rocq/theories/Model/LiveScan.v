(** Index scans while the database changes: /repo/table.go:1027-1194 with the moments at which it looks at the database. *)

From Coq Require Import List NArith Bool Arith.
From Verif.Model Require Import Bytes Go Keys Pebble Index Table Scan.
Import ListNotations.

(** A moment of the database and the table's filter as a scan without batch looks at them: a pebble iterator is a snapshot of the
    moment it is made (/repo/bond.go:275-281), each t.get of /repo/table.go:1152 makes an iterator of its own (/repo/table.go:956). *)
Record look (F : Type) := Look { lk_db : kv; lk_fl : F }.
Arguments Look {F}.
Arguments lk_db {F}.
Arguments lk_fl {F}.

(** /repo/index.go:176-278 Index.Iter without batch, as [index_iter], with any way to make pebble iterators. *)
Definition iter_by {T F} (tb : table T F) (open : bytes -> bytes -> piter) (idx : index T) (sel : selector T) : res biter :=
  match sel with
  | SPoint p =>
      match point_bounds tb idx false p with
      | Ok (lo, hi) => Ok (BOne (open lo hi))
      | Err e => Err e
      | Panic => Panic
      | Diverge => Diverge
      end
  | SPoints ps =>
      match points_bounds tb idx (Byte.eqb (ix_id idx) primary_index_id) ps with
      | Ok l => new_multi open l
      | Err e => Err e
      | Panic => Panic
      | Diverge => Diverge
      end
  | SRange l h => let '(lo, hi) := range_bounds tb idx l h in Ok (BOne (open lo hi))
  | SRanges rs =>
      match ranges_bounds tb idx rs with
      | Ok l => new_multi open l
      | Err e => Err e
      | Panic => Panic
      | Diverge => Diverge
      end
  | SOther => Ok (BOne (err_iter ESelector))
  end.

Section Live.
  Context {T F W : Type}.
  Variable tb : table T F.
  Variable ev : env T.
  Variable f : W -> bytes -> prog (T:=T) W.
  Variable rev : bool.

  (** The moments; the one that the pebble iterator with bounds [lo], [hi] sees which move number [j] of the bond iterator makes:
      move 0 is Index.Iter with First or Last, the others are the Next or Prev calls (a multi selector makes its iterators one
      by one, /repo/iter.go:85, 94, 107, 124, 141); and the one that the t.get of round [n] sees. *)
  Variable w : nat -> look F.
  Variable sees : nat -> bytes -> bytes -> nat.
  Variable gets : nat -> nat.

  (** /repo/bond.go:275-281 Iter without batch, at that moment. *)
  Definition made_at (j : nat) (lo hi : bytes) : piter := db_iter (lk_db (w (sees j lo hi))) None lo hi.

  (** The collecting loop, /repo/table.go:1133-1149, as [collect]; [j] is the number of its next move. *)
  Fixpoint live_collect (n j : nat) (st : sst) : sst * nat * res unit :=
    if bi_valid (ss_it st) then
      let k := bi_key (ss_it st) in
      match to_data_key_bytes k [] with
      | Ok dk =>
          let st1 := Sst (ss_it st) (ss_keys st ++ [dk]) (ss_ikeys st ++ [k]) (ss_vals st) (ss_vi st) in
          match n with
          | S (S _ as n') =>
              live_collect n' (S j) (Sst (scan_next (made_at j) rev (ss_it st1)) (ss_keys st1) (ss_ikeys st1) (ss_vals st1) (ss_vi st1))
          | _ => (st1, j, Ok tt)
          end
      | Err e => (st, j, Err e)
      | Panic => (st, j, Panic)
      | Diverge => (st, j, Diverge)
      end
    else (st, j, Ok tt).

  (** The prefetchAndGetValue closure, /repo/table.go:1130-1158, as [prefetch_and_get]. *)
  Definition live_prefetch (lk : look F) (stj : sst * nat) : (sst * nat) * res T :=
    let '(st, j) := stj in
    let '(st1, j1, r) := live_collect (t_prefetch tb - length (ss_keys st)) j st in
    match r with
    | Ok _ =>
        let ks := left_sorted ev (ss_keys st1) in
        match get_into tb ev (lk_db lk) (lk_fl lk) None (ss_keys st1) with
        | Ok vs => let '(st2, r2) := get_prefetched tb (Sst (ss_it st1) ks (ss_ikeys st1) vs (ss_vi st1)) in ((st2, j1), r2)
        | Err e => ((Sst (ss_it st1) ks (ss_ikeys st1) [] (ss_vi st1), j1), Err e)
        | Panic => ((st1, j1), Panic)
        | Diverge => ((st1, j1), Diverge)
        end
    | Err e => ((st1, j1), Err e)
    | Panic => ((st1, j1), Panic)
    | Diverge => ((st1, j1), Diverge)
    end.

  (** The loop of scanForEachSecondaryIndex, /repo/table.go:1160-1193, as [secondary_loop]; [n] counts the rounds, [j] the moves. *)
  Fixpoint live_loop (fuel n j : nat) (it : biter) (s : W) : W * res unit :=
    if bi_valid it then
      match fuel with
      | O => (s, Diverge)
      | S fuel' =>
          if e_ctx ev n then (s, Err ECtx)
          else
            let '((st1, j1), r) := run_prog (live_prefetch (w (gets n))) (f s (bi_key it)) (Sst it [] [] [] 0, j) in
            match r with
            | Ok (s1, true, None) =>
                match prefetched_loop tb f fuel' st1 s1 with
                | inl out => out
                | inr (st2, s2) => live_loop fuel' (S n) (S j1) (scan_next (made_at j1) rev (ss_it st2)) s2
                end
            | Ok (s1, _, Some e) => (s1, Err e)
            | Ok (s1, false, None) => (s1, Ok tt)
            | Err e => (s, Err e)
            | Panic => (s, Panic)
            | Diverge => (s, Diverge)
            end
      end
    else (s, Ok tt).

  (** The loop of scanForEachPrimaryIndex, /repo/table.go:1055-1070, as [primary_loop]: rows are read from the iterator. *)
  Fixpoint live_primary (fuel n : nat) (it : biter) (s : W) : W * res unit :=
    if bi_valid it then
      match fuel with
      | O => (s, Diverge)
      | S fuel' =>
          if e_ctx ev n then (s, Err ECtx)
          else
            let '(it', r) := run_prog (get_value_of tb) (f s (bi_key it)) it in
            match r with
            | Ok (s', true, None) => live_primary fuel' (S n) (scan_next (made_at (S n)) rev it') s'
            | Ok (s', _, Some e) => (s', Err e)
            | Ok (s', false, None) => (s', Ok tt)
            | Err e => (s, Err e)
            | Panic => (s, Panic)
            | Diverge => (s, Diverge)
            end
      end
    else (s, Ok tt).

  (** /repo/table.go:1019-1025 ScanIndexForEach, without batch. *)
  Definition live_scan_for_each (fuel : nat) (idx : index T) (sel : selector T) (s : W) : W * res unit :=
    match iter_by tb (made_at 0) idx sel with
    | Ok it =>
        let it := scan_first (made_at 0) rev it in
        if Byte.eqb (ix_id idx) primary_index_id then live_primary fuel 0 it s else live_loop fuel 0 1 it s
    | Err e => (s, Err e)
    | Panic => (s, Panic)
    | Diverge => (s, Diverge)
    end.
End Live.

(** /repo/table.go:1004-1013 ScanIndex, without batch, while the database changes. *)
Definition live_scan {T F} (tb : table T F) (ev : env T) (w : nat -> look F) (sees : nat -> bytes -> bytes -> nat) (gets : nat -> nat)
    (fuel : nat) (idx : index T) (sel : selector T) (acc : list T) (rev : bool) : list T * res unit :=
  live_scan_for_each tb ev append_cb rev w sees gets fuel idx sel acc.
