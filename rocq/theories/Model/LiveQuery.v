(** Queries without Intersects while the database changes: /repo/query.go:155-280 with the moments at which it looks at the database. *)

From Coq Require Import List NArith Bool Arith.
From Verif.Model Require Import Bytes Go Keys Pebble Index Table Scan LiveScan Query.
Import ListNotations.

Section LiveQuery.
  Context {T F : Type}.
  Variable tb : table T F.
  Variable ev : env T.
  Variable srt : (T -> T -> bool) -> list T -> list T.

  (** The moments, as for [live_scan_for_each]. *)
  Variable w : nat -> look F.
  Variable sees : nat -> bytes -> bytes -> nat.
  Variable gets : nat -> nat.

  (** What follows the scan, /repo/query.go:234-279, as in [execute_query]. *)
  Definition conclude (q : query T) (o : qst (T:=T) * res unit) : res (list T) :=
    match o with
    | (s, Ok _) => finish_query tb srt q s
    | (_, Err e) => Err e
    | (_, Panic) => Panic
    | (_, Diverge) => Diverge
    end.

  (** /repo/query.go:155-280 executeQuery without batch, as [execute_query]. *)
  Definition live_query (fuel : nat) (q : query T) : res (list T) :=
    let sel := match q_after q, q_less q with
               | Some a, None => selector_with_after tb (q_index q) a (q_sel q)
               | _, _ => Ok (q_sel q)
               end in
    match sel with
    | Ok sel =>
        conclude q (live_scan_for_each tb ev (query_cb tb q) (q_rev q) w sees gets fuel (q_index q) sel (Qst [] 0 false false false false))
    | Err e => Err e
    | Panic => Panic
    | Diverge => Diverge
    end.
End LiveQuery.
