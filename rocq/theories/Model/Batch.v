(** Batches and their callbacks: /repo/batch.go, /repo/bond.go:283-297. *)

From Coq Require Import List NArith ZArith Bool Arith.
From Verif.Model Require Import Bytes Go Pebble Sequence.
Import ListNotations.

(** An OnCommit callback (/repo/batch.go:15, 165-167): a name, and what it does: it may write to
    the batch it is given and returns an error or nil. Callbacks that register further
    callbacks, or commit, reset or close the batch, are not modelled. *)
Record commit_cb := CommitCb { cc_name : nat; cc_run : list bop -> list bop * option error }.

(** Where a batch is in its life: pebble panics on a second commit and on writes after
    a commit ("batch already committing"/"already applied"), Reset starts again; pebble calls at
    /repo/batch.go:84, 144, 157. *)
Inductive life := LOpen | LApplied | LClosed.

(** /repo/batch.go:47-56 _batch. The other callbacks only have a name: what they do is
    the caller's business, that they are called is an event. *)
Record bat := Bat {
  bt_rw : bool;
  bt_ops : list bop;
  bt_id : N;
  bt_life : life;
  bt_commit : list commit_cb;
  bt_committed : list nat;
  bt_error : list nat;
  bt_close : list nat
}.

(** What can be observed, in order: the call of a callback by its batch and name, and the writes
    to the database (/repo/batch.go:144) and to another batch (/repo/batch.go:126). *)
Inductive event :=
| EvCommit (h n : nat)
| EvWrite (h : nat) (ops : list bop)
| EvMerge (outer inner : nat) (ops : list bop)
| EvCommitted (h n : nat)
| EvError (h n : nat) (e : error)
| EvClose (h n : nat).

(** /repo/batch.go:58-70 newBatch; /repo/bond.go:283-292. *)
Definition new_batch (rw : bool) (id : N) : bat := Bat rw [] id LOpen [] [] [] [].

(** The batch with other operations: Set, Delete, DeleteRange; /repo/batch.go:98-108. *)
Definition with_ops (b : bat) (ops : list bop) : bat :=
  Bat (bt_rw b) ops (bt_id b) (bt_life b) (bt_commit b) (bt_committed b) (bt_error b) (bt_close b).

(** The batch after pebble's Commit or Close; /repo/batch.go:144, 157. *)
Definition with_life (b : bat) (l : life) : bat :=
  Bat (bt_rw b) (bt_ops b) (bt_id b) l (bt_commit b) (bt_committed b) (bt_error b) (bt_close b).

(** /repo/batch.go:83-92 Reset. A closed batch stays closed: pebble has recycled it (writing to a
    closed batch after Reset is not modelled). *)
Definition batch_reset (b : bat) (id : N) : bat :=
  Bat (bt_rw b) [] id (match bt_life b with LClosed => LClosed | _ => LOpen end) [] [] [] [].

(** /repo/batch.go:165-167 OnCommit. *)
Definition add_on_commit (b : bat) (f : commit_cb) : bat :=
  Bat (bt_rw b) (bt_ops b) (bt_id b) (bt_life b) (bt_commit b ++ [f]) (bt_committed b) (bt_error b) (bt_close b).

(** /repo/batch.go:169-171 OnCommitted. *)
Definition add_on_committed (b : bat) (n : nat) : bat :=
  Bat (bt_rw b) (bt_ops b) (bt_id b) (bt_life b) (bt_commit b) (bt_committed b ++ [n]) (bt_error b) (bt_close b).

(** /repo/batch.go:173-175 OnError. *)
Definition add_on_error (b : bat) (n : nat) : bat :=
  Bat (bt_rw b) (bt_ops b) (bt_id b) (bt_life b) (bt_commit b) (bt_committed b) (bt_error b ++ [n]) (bt_close b).

(** /repo/batch.go:177-179 OnClose. *)
Definition add_on_close (b : bat) (n : nat) : bat :=
  Bat (bt_rw b) (bt_ops b) (bt_id b) (bt_life b) (bt_commit b) (bt_committed b) (bt_error b) (bt_close b ++ [n]).

(** /repo/batch.go:181-190 notifyOnCommit: operations afterwards, events, error. *)
Fixpoint notify_on_commit (h : nat) (fs : list commit_cb) (ops : list bop) : list bop * list event * option error :=
  match fs with
  | [] => (ops, [], None)
  | f :: fs' =>
      let '(ops1, e) := cc_run f ops in
      match e with
      | Some e => (ops1, [EvCommit h (cc_name f)], Some e)
      | None => let '(ops2, t, r) := notify_on_commit h fs' ops1 in (ops2, EvCommit h (cc_name f) :: t, r)
      end
  end.

(** /repo/batch.go:192-196 notifyOnCommitted. *)
Definition notify_on_committed (h : nat) (b : bat) : list event := map (EvCommitted h) (bt_committed b).

(** /repo/batch.go:198-202 notifyOnError. *)
Definition notify_on_error (h : nat) (b : bat) (e : error) : list event :=
  map (fun n => EvError h n e) (bt_error b).

(** /repo/batch.go:204-208 notifyOnClose: ranges over onCommittedCallbacks. *)
Definition notify_on_close (h : nat) (b : bat) : list event := map (EvCommitted h) (bt_committed b).

(** The database, the batches by handle (in order of creation) and the last number of
    the package variable sequenceId (/repo/batch.go:10). *)
Record bst := BSt { bs_db : kv; bs_bats : list bat; bs_last : N }.

(** Replacement of the batch with handle [h]; methods have a pointer receiver, /repo/batch.go:83. *)
Definition set_bat (s : bst) (h : nat) (b : bat) : bst :=
  BSt (bs_db s) (firstn h (bs_bats s) ++ b :: skipn (S h) (bs_bats s)) (bs_last s).

(** A committed write; pebble's Commit, /repo/batch.go:144. *)
Definition set_db (s : bst) (db : kv) : bst := BSt db (bs_bats s) (bs_last s).

(** /repo/batch.go:134-152 Commit; [fail] is the error of pebble's Commit, if any (nothing is
    written then). Of a closed batch: pebble has cleared it, so it is empty. *)
Definition batch_commit (s : bst) (h : nat) (b : bat) (fail : option error) : bst * list event * res unit :=
  match bt_life b, bt_ops b with
  | LClosed, _ => (s, [], Ok tt)
  | _, [] => (s, [], Ok tt)
  | l, _ =>
      let '(ops, t, e) := notify_on_commit h (bt_commit b) (bt_ops b) in
      let b1 := with_ops b ops in
      match e with
      | Some e => (set_bat s h b1, t, Err e)
      | None =>
          match l with
          | LApplied => (set_bat s h b1, t, Panic)
          | _ =>
              match fail with
              | Some e => (set_bat s h b1, t ++ notify_on_error h b1 e, Err e)
              | None =>
                  (set_db (set_bat s h (with_life b1 LApplied)) (apply_ops (bs_db s) ops),
                   t ++ EvWrite h ops :: notify_on_committed h b1, Ok tt)
              end
          end
      end
  end.

(** /repo/batch.go:114-132 Apply of batch [i] to batch [o]; [fail] is the error of pebble's
    Apply. The deferred notifyOnCommitted runs also after an error. Applying a batch to itself is
    not modelled. *)
Definition batch_apply (s : bst) (o i : nat) (ob ib : bat) (fail : option error) : bst * list event * res unit :=
  let '(ops, t, e) := notify_on_commit i (bt_commit ib) (bt_ops ib) in
  let s1 := set_bat s i (with_ops ib ops) in
  match e with
  | Some e => (s1, t, Err e)
  | None =>
      match bt_life ob with
      | LOpen =>
          match fail with
          | Some e => (s1, t ++ notify_on_error i ib e ++ notify_on_committed i ib, Err e)
          | None =>
              (set_bat s1 o (with_ops ob (bt_ops ob ++ ops)),
               t ++ EvMerge o i ops :: notify_on_committed i ib, Ok tt)
          end
      | _ => (s1, t ++ notify_on_committed i ib, Panic)
      end
  end.

(** /repo/batch.go:154-163 Close; [fail] is the error of pebble's Close, if any. *)
Definition batch_close (s : bst) (h : nat) (b : bat) (fail : option error) : bst * list event * res unit :=
  let t := notify_on_close h b in
  match fail with
  | Some e => (s, t ++ notify_on_error h b e, Err e)
  | None => (set_bat s h (with_life (with_ops b []) LClosed), t, Ok tt)
  end.

(** The calls of a program that uses batches; batches are named by handles. [CPut] is any
    number of Set, Delete and DeleteRange calls, also by table calls given the batch;
    [CDbApply] is DB.Apply. /repo/batch.go:28-45, /repo/bond.go:283-297. *)
Inductive bcall :=
| CNew (rw : bool) (sec : Z)
| CPut (h : nat) (ops : list bop)
| COnCommit (h : nat) (f : commit_cb)
| COnCommitted (h n : nat)
| COnError (h n : nat)
| COnClose (h n : nat)
| CCommit (h : nat) (fail : option error)
| CDbApply (h : nat) (fail : option error)
| CApply (o i : nat) (fail : option error)
| CReset (h : nat) (sec : Z)
| CClose (h : nat) (fail : option error).

(** The batch a handle names; a nil or foreign batch (/repo/batch.go:115-118) has none. /repo/batch.go:28. *)
Definition get_bat (s : bst) (h : nat) : option bat := nth_error (bs_bats s) h.

(** A method that only changes the batch itself; /repo/batch.go:98-108, 165-179. Writes after a
    commit or close panic in pebble. *)
Definition upd_bat (s : bst) (h : nat) (writes : bool) (f : bat -> bat) : bst * list event * res unit :=
  match get_bat s h with
  | None => (s, [], Panic)
  | Some b =>
      match bt_life b, writes with
      | LOpen, _ | _, false => (set_bat s h (f b), [], Ok tt)
      | _, true => (s, [], Panic)
      end
  end.

(** One call: the state afterwards, the events in order and the result;
    /repo/batch.go:58-179, /repo/bond.go:283-297 (DB.Apply is Commit). *)
Definition batch_call (s : bst) (c : bcall) : bst * list event * res unit :=
  match c with
  | CNew rw sec =>
      let '(last, id, _) := seq_next (bs_last s) sec in
      (BSt (bs_db s) (bs_bats s ++ [new_batch rw id]) last, [], Ok tt)
  | CPut h ops => upd_bat s h true (fun b => with_ops b (bt_ops b ++ ops))
  | COnCommit h f => upd_bat s h false (fun b => add_on_commit b f)
  | COnCommitted h n => upd_bat s h false (fun b => add_on_committed b n)
  | COnError h n => upd_bat s h false (fun b => add_on_error b n)
  | COnClose h n => upd_bat s h false (fun b => add_on_close b n)
  | CCommit h fail | CDbApply h fail =>
      match get_bat s h with
      | None => (s, [], Panic)
      | Some b => batch_commit s h b fail
      end
  | CApply o i fail =>
      match get_bat s o, get_bat s i with
      | Some ob, Some ib => batch_apply s o i ob ib fail
      | Some _, None => (s, [], Err EOther)
      | None, _ => (s, [], Panic)
      end
  | CReset h sec =>
      let '(last, id, _) := seq_next (bs_last s) sec in
      match get_bat s h with
      | None => (s, [], Panic)
      | Some b => (set_bat (BSt (bs_db s) (bs_bats s) last) h (batch_reset b id), [], Ok tt)
      end
  | CClose h fail =>
      match get_bat s h with
      | None => (s, [], Panic)
      | Some b => batch_close s h b fail
      end
  end.

(** A whole program: the final state, all events and the results; calls as in [batch_call],
    /repo/batch.go:28-45. A panic is caught by the caller, who carries on. *)
Fixpoint batch_run (s : bst) (cs : list bcall) : bst * list event * list (res unit) :=
  match cs with
  | [] => (s, [], [])
  | c :: cs' =>
      let '(s1, t1, r) := batch_call s c in
      let '(s2, t2, rs) := batch_run s1 cs' in
      (s2, t1 ++ t2, r :: rs)
  end.
