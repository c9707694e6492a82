(** Intersecting queries while the database changes: /repo/index.go:355-403 and /repo/query.go:282-391 with the moments at which
    they look at the database. *)

From Coq Require Import List NArith Bool Arith.
From Verif.Model Require Import Bytes Go Keys Pebble Index Table Scan Query LiveScan.
Import ListNotations.

Section Live.
  Context {T F : Type}.
  Variable tb : table T F.
  Variable ev : env T.
  Variable srt : (T -> T -> bool) -> list T -> list T.

  (** The moments of the database, and the one that a pebble iterator sees: the iterator with bounds [lo], [hi] that part [i] of
      the intersection makes when [n] keys have been visited before, /repo/index.go:359, 373 and /repo/iter.go:94, 141. *)
  Variable w : nat -> look F.
  Variable sees : nat -> nat -> bytes -> bytes -> nat.

  (** /repo/bond.go:275-281 Iter without batch, at that moment. *)
  Definition opened (i n : nat) (lo hi : bytes) : piter := db_iter (lk_db (w (sees i n lo hi))) None lo hi.

  (** One loop of Intersect, /repo/index.go:360-369 and 374-386, as [collect_keys]. *)
  Fixpoint live_keys (i : nat) (within : option (list bytes)) (fuel n : nat) (it : biter) (acc : list bytes)
      : res (nat * list bytes) :=
    if bi_valid it then
      match fuel with
      | O => Diverge
      | S fuel' =>
          if e_ctx ev n then Err ECtx
          else match to_data_key_bytes (bi_key it) [] with
               | Ok k =>
                   let hit := match within with None => true | Some w => existsb (beqb k) w end in
                   live_keys i within fuel' (S n) (bi_next (opened i (S n)) it) (if hit then set_add k acc else acc)
               | Err e => Err e
               | Panic => Panic
               | Diverge => Diverge
               end
      end
    else Ok (n, acc).

  (** One part of the intersection: its iterator and its loop, /repo/index.go:359-370 and 373-387. *)
  Definition live_part (i : nat) (within : option (list bytes)) (fuel n : nat) (q : query T) : res (nat * list bytes) :=
    match iter_by tb (opened i n) (q_index q) (q_sel q) with
    | Ok it => live_keys i within fuel n (bi_first (opened i n) it) []
    | Err e => Err e
    | Panic => Panic
    | Diverge => Diverge
    end.

  (** The loop over the other indexes, /repo/index.go:372-391. *)
  Fixpoint live_rest (i fuel n : nat) (qs : list (query T)) (keys : list bytes) : res (list bytes) :=
    match qs with
    | [] => Ok keys
    | q :: qs' =>
        match live_part i (Some keys) fuel n q with
        | Ok (n', keys') => live_rest (S i) fuel n' qs' keys'
        | Err e => Err e
        | Panic => Panic
        | Diverge => Diverge
        end
    end.

  (** /repo/index.go:355-403 Index.Intersect. *)
  Definition live_intersect (fuel : nat) (q : query T) : res (list bytes) :=
    match live_part 0 None fuel 0 q with
    | Ok (n, keys) => live_rest 1 fuel n (q_inter q) keys
    | Err e => Err e
    | Panic => Panic
    | Diverge => Diverge
    end.

  (** /repo/query.go:282-391 executeIntersect without batch, as [execute_intersect]; the rows are read at the moment [last]. *)
  Definition live_execute (last fuel : nat) (q : query T) : res (list T) :=
    let has_off := (0 <? q_offset q)%N in
    let has_lim := (0 <? q_limit q)%N in
    if forallb plain_query (q_inter q) then
      match live_intersect fuel q with
      | Ok keys =>
          let early := match q_filter q, q_less q, q_after q with None, None, None => true | _, _, _ => false end in
          let keys1 := if early && has_off then apply_offset (q_offset q) keys else Ok keys in
          let keys2 := match keys1 with
                       | Ok ks => if early && has_lim then apply_limit (q_limit q) ks else Ok ks
                       | e => e
                       end in
          match keys2 with
          | Ok keys =>
              match get_keys tb ev (lk_db (w last)) (lk_fl (w last)) None keys true with
              | Ok values =>
                  match decode_records tb (q_filter q) values with
                  | Ok records =>
                      let records := match q_less q with Some less => srt less records | None => records end in
                      let records := match q_after q with Some a => drop_after tb a records | None => records end in
                      match q_filter q, q_less q with
                      | None, None => Ok records
                      | _, _ =>
                          match (if has_off then apply_offset (q_offset q) records else Ok records) with
                          | Ok records => if has_lim then apply_limit (q_limit q) records else Ok records
                          | e => e
                          end
                      end
                  | e => e
                  end
              | Err e => Err e
              | Panic => Panic
              | Diverge => Diverge
              end
          | Err e => Err e
          | Panic => Panic
          | Diverge => Diverge
          end
      | Err e => Err e
      | Panic => Panic
      | Diverge => Diverge
      end
    else Err EQuery.
End Live.
