(** The library's own callbacks on memory: /repo/table.go:1000-1017, /repo/filter.go:65-68, /repo/query.go:155-280. *)

From Coq Require Import List NArith Bool Arith.
From Verif.Model Require Import Bytes Go Keys Pebble Index Table Scan Query Slices Mem MemScan.
Import ListNotations.

Section MemQuery.
  Variable grow : nat -> nat -> nat.
  Variable noise : list (heap byte) -> list slc -> heap byte -> heap byte.
  Context {T F : Type}.
  Variable mt : mtable T F.
  Variable ev : env T.
  Variable srt : (T -> T -> bool) -> list T -> list T.
  Notation tb := (mt_val mt).

  (** The callback of ScanIndex, /repo/table.go:1005-1012. *)
  Definition m_append_cb (s : list T) (_ : slc) : mprog T (list T) :=
    MGet (fun v => match v with
                   | Ok r => MRet (s ++ [r]) true None
                   | Err e => MRet s false (Some e)
                   | _ => MRet s false (Some EOther)
                   end).

  (** /repo/table.go:1004-1013 ScanIndex. *)
  Definition m_scan_index (fuel : nat) (m : mem) (bufs : list (slc * slc)) (kb mkb : slc) (vals : list slc) (db : kv) (fl : F) (idx : index T)
      (sel : selector T) (acc : list T) (rev : bool) (ob : optb) : mem * (list slc * slc) * (list T * res unit) :=
    m_scan_index_for_each grow noise mt ev fuel m bufs kb mkb vals db fl idx sel m_append_cb rev ob acc.

  (** The callback of FilterInitialize, /repo/filter.go:65-68, with [add] what filter.Add does. *)
  Definition m_filter_cb {W} (add : W -> bytes -> W) (s : W) (key : slc) : mprog T W := MRead key (fun k => MRet (add s k) true None).

  (** The callback of executeQuery, /repo/query.go:183-233; the key of the after row is built as a value (simplified: /repo/query.go:188-192 has a
      pooled buffer for it). *)
  Definition m_query_cb (q : query T) (s : qst) (key : slc) : mprog T qst :=
    let rest (s : qst) :=
      if match q_filter q, q_less q with None, None => (qs_count s <? q_offset q)%N | _, _ => false end
      then MRet (Qst (qs_records s) (qs_count s + 1)%N (qs_skipped s) (qs_after_applied s) true (qs_limit_applied s)) true None
      else MGet (fun v =>
        match v with
        | Ok r => let '(s', next) := cb_record q s r in MRet s' next None
        | Err e => MRet s false (Some e)
        | _ => MRet s false (Some EOther)
        end) in
    match q_after q, q_less q with
    | Some _, None =>
        if qs_skipped s then rest s
        else MRead key (fun k => let '(s, is_after) := cb_after tb q s k in if is_after then MRet s true None else rest s)
    | _, _ => rest s
    end.

  (** /repo/query.go:155-280 executeQuery; [bufs] are the buffers for the bounds of the selector with after. The buffers of selectorWithAfter
      (/repo/query.go:430-473) are not modelled. *)
  Definition m_execute_query (fuel : nat) (m : mem) (bufs : list (slc * slc)) (kb mkb : slc) (vals : list slc) (db : kv) (fl : F) (q : query T) (ob : optb)
      : mem * (list slc * slc) * res (list T) :=
    let sel := match q_after q, q_less q with
               | Some a, None => selector_with_after tb (q_index q) a (q_sel q)
               | _, _ => Ok (q_sel q)
               end in
    match sel with
    | Ok sel =>
        match m_scan_index_for_each grow noise mt ev fuel m bufs kb mkb vals db fl (q_index q) sel (m_query_cb q) (q_rev q) ob (Qst [] 0 false false false false) with
        | (m, back, (s, Ok _)) => (m, back, finish_query tb srt q s)
        | (m, back, (_, Err e)) => (m, back, Err e)
        | (m, back, (_, Panic)) => (m, back, Panic)
        | (m, back, (_, Diverge)) => (m, back, Diverge)
        end
    | Err e => (m, ([], kb), Err e)
    | Panic => (m, ([], kb), Panic)
    | Diverge => (m, ([], kb), Diverge)
    end.
End MemQuery.
