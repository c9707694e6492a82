(** Write calls running at the same time on one table. Nothing in the code takes a
    lock around a whole call: /repo/table.go:338-450 (Insert), 452-575 (Update),
    577-635 (Delete) and 637-789 (Upsert) hold the table's RWMutex only while they
    copy the index map (e.g. 339-342). Each call reads through
    one pebble iterator per chunk, which is a snapshot of the database at the
    moment NewIter is called, collects its writes in a batch of its own and applies
    that batch at once in Commit. So between two steps of one call any other call
    can take steps. *)

From Coq Require Import List NArith Bool Arith.
From Verif.Model Require Import Bytes Go Keys Pebble Index Table.
From Verif.Spec Require Import TableSpec HistSpec.
Import ListNotations.

Section Machine.
  Context {T F : Type}.
  Variable tb : table T F.

  (** The slice passed to the function in round [num] of batched, if there is one;
      /repo/table.go:1280-1294. *)
  Definition slice {A} (items : list A) (bs num : nat) : option (list A) :=
    if Nat.ltb (num * bs) (length items) then
      let start := (num * bs)%nat in
      let end_ := (start + bs)%nat in
      let end_ := if Nat.ltb (length items) end_ then (start + length items mod bs)%nat else end_ in
      Some (firstn (end_ - start) (skipn start items))
    else None.

  (** The rows a call works on in its round [num]; Delete has a single round
      (/repo/table.go:602-625). *)
  Definition part (ev : env T) (c : call T) (num : nat) : option (list T) :=
    match c with
    | CInsert l | CUpdate l | CUpsert _ l => slice l (e_chunk ev) num
    | CDelete l => match num with O => Some l | _ => None end
    end.

  (** One round: /repo/table.go:381-437, 500-562, 685-776, 602-625. The batch is the
      call's own write-only one (/repo/table.go:350-355), so reads see the database. *)
  Definition round (ev : env T) (c : call T) (db : kv) (rows : list T) (s : wst T F) : wst T F * res unit :=
    match c with
    | CInsert _ => insert_chunk tb ev db false rows s
    | CUpdate _ => update_chunk tb ev db false rows s
    | CUpsert f _ => upsert_chunk tb ev f db false rows s
    | CDelete _ => delete_rows tb ev rows s
    end.

  (** A call in progress: the next round, its batch and local variables, and what it
      returned once it has. The filter in [th_st] is not used: the filter is shared. *)
  Record thread := Thread {
    th_env : env T;
    th_call : call T;
    th_num : nat;
    th_st : wst T F;
    th_res : option (res unit)
  }.

  (** The database, the table's filter and the calls in progress. *)
  Record sys := Sys { y_db : kv; y_flt : F; y_threads : list thread }.

  (** /repo/filter.go: the filter object is shared by all calls. Simplified: the
      MayContain and Add calls of one round are not interleaved with those of others. *)
  Definition with_flt (s : wst T F) (fl : F) : wst T F := WSt (w_ops s) fl (w_old s) (w_tick s).

  (** The end of a call: /repo/table.go:438-449 and the same lines of the others. An
      empty batch is not committed. *)
  Definition commit (ev : env T) (db : kv) (ops : list bop) : kv * res unit :=
    match ops with
    | [] => (db, Ok tt)
    | _ => if e_commit ev then (apply_ops db ops, Ok tt) else (db, Err ECommit)
    end.

  (** One step of one call: a round, or the commit; nothing once it has returned. *)
  Definition step_thread (db : kv) (fl : F) (th : thread) : kv * F * thread :=
    match th_res th with
    | Some _ => (db, fl, th)
    | None =>
        let ev := th_env th in
        let c := th_call th in
        match part ev c (th_num th) with
        | Some rows =>
            let '(s, r) := round ev c db rows (with_flt (th_st th) fl) in
            match r with
            | Ok _ => (db, w_flt s, Thread ev c (S (th_num th)) s None)
            | _ => (db, w_flt s, Thread ev c (S (th_num th)) s (Some r))
            end
        | None =>
            let '(db', r) := commit ev db (w_ops (th_st th)) in
            (db', fl, Thread ev c (S (th_num th)) (th_st th) (Some r))
        end
    end.

  (** The goroutine [i] of those running /repo/table.go:338-789 goes on with a new state. *)
  Fixpoint set_nth {A} (l : list A) (i : nat) (x : A) : list A :=
    match l, i with
    | [], _ => []
    | _ :: l', O => x :: l'
    | y :: l', S i' => y :: set_nth l' i' x
    end.

  (** The scheduler lets call [i] take a step. *)
  Definition step (y : sys) (i : nat) : sys :=
    match nth_error (y_threads y) i with
    | None => y
    | Some th =>
        let '(db', fl', th') := step_thread (y_db y) (y_flt y) th in
        Sys db' fl' (set_nth (y_threads y) i th')
    end.

  (** A schedule: which call takes the next step. *)
  Definition run_sched (sch : list nat) (y : sys) : sys := fold_left step sch y.

  (** All calls at their beginning. *)
  Definition start (db : kv) (fl : F) (h : list (env T * call T)) : sys :=
    Sys db fl (map (fun ec => Thread (fst ec) (snd ec) 0 (WSt [] fl (t_nil tb) 0) None) h).
End Machine.
Arguments Thread {T F}.
Arguments th_env {T F}.
Arguments th_call {T F}.
Arguments th_num {T F}.
Arguments th_st {T F}.
Arguments th_res {T F}.
Arguments Sys {T F}.
Arguments y_db {T F}.
Arguments y_flt {T F}.
Arguments y_threads {T F}.
