(** Crashes of the process or the machine between and during calls. Table calls without
    a batch commit with Sync (/repo/table.go:443, 568, 628, 782); a batch given by the
    caller is committed with the options the caller chooses (/repo/batch.go:134-152,
    /repo/bond.go:40-47, 560-565). pebble writes committed batches to its log in
    order; Sync returns when the log up to that batch is on disk. After a crash the log
    is replayed up to some batch not before the last synced one. A crash in the middle
    of a call is one before or after its commit. *)

From Coq Require Import List NArith Bool Arith.
From Verif.Model Require Import Bytes Go Keys Pebble Index Table.
From Verif.Spec Require Import TableSpec HistSpec.
Import ListNotations.

(** The database as found on opening, and after each commit since, with its sync flag.
    Simplified: states stand for the batches of pebble's log; a call that committed
    nothing has an entry that changes nothing; /repo/table.go:438-449. *)
Record disk := Disk { k_base : kv; k_log : list (kv * bool) }.

(** The newest state; every read of the process sees it, /repo/bond.go:242-249. *)
Definition disk_db (d : disk) : kv := last (map fst (k_log d)) (k_base d).

(** A commit; /repo/batch.go:144, /repo/table.go:443. *)
Definition disk_write (d : disk) (db : kv) (sync : bool) : disk := Disk (k_base d) (k_log d ++ [(db, sync)]).

(** How many entries of a log are certainly on disk: all up to the last synced one;
    pebble.Sync, /repo/bond.go:560-565. *)
Fixpoint on_disk {A} (log : list (A * bool)) : nat :=
  match log with
  | [] => 0
  | (_, s) :: log' => if (s || negb (Nat.eqb (on_disk log') 0))%bool then S (on_disk log') else 0
  end.

(** Crash and reopen: [n] entries survive, or more if more are on disk; the log is
    replayed by pebble.Open, /repo/bond.go:168-175. *)
Definition crash (d : disk) (n : nat) : disk :=
  let log := firstn (Nat.max n (on_disk (k_log d))) (k_log d) in
  Disk (last (map fst log) (k_base d)) [].

Section Life.
  Context {T F : Type}.
  Variable tb : table T F.

  (** What happens to the database: a call without batch; calls on a read-write batch
      that is then committed; a crash, after which a new process makes its filter from
      the database (/repo/filter.go:25-40). /repo/table.go:338-789, /repo/batch.go:134. *)
  Inductive happening :=
  | HCall (ev : env T) (c : call T)
  | HBatch (h : list (env T * call T)) (sync : bool)
  | HCrash (n : nat) (init : kv -> F).

  (** Is there anything to write? /repo/table.go:438-449 commits nothing otherwise through
      /repo/batch.go:135-137. *)
  Definition nonempty {A} (l : list A) : bool := match l with [] => false | _ => true end.

  (** One happening: the disk and the filter afterwards; for calls also which of them
      succeeded, and if their commit was synced. A call with rows that succeeds has
      written to its batch (/repo/table.go:417, 547, 613, 745). *)
  Definition happen (d : disk) (fl : F) (e : happening) : disk * F * option (list (call T * bool) * bool) :=
    match e with
    | HCall ev c =>
        let '(w, r) := run_call tb ev (disk_db d) fl None c in
        let sync := (ok_of r && nonempty (rows_of c))%bool in
        (disk_write d (r_db w) sync, r_flt w, Some ([(c, ok_of r)], sync))
    | HBatch h sync =>
        let '(b, fl', oks) := run_batch_hist tb (disk_db d) fl (Batch true []) h in
        let s := (sync && nonempty (b_ops b))%bool in
        (disk_write d (apply_ops (disk_db d) (b_ops b)) s, fl', Some (oks, s))
    | HCrash n init => let d' := crash d n in (d', init (disk_db d'), None)
    end.

  (** Happenings one after another; same lines as [happen], /repo/table.go:338-789. *)
  Fixpoint run_life (d : disk) (fl : F) (es : list happening) : disk * F * list (option (list (call T * bool) * bool)) :=
    match es with
    | [] => (d, fl, [])
    | e :: es' =>
        let '(d1, fl1, r) := happen d fl e in
        let '(d2, fl2, rs) := run_life d1 fl1 es' in
        (d2, fl2, r :: rs)
    end.
End Life.
Arguments happening : clear implicits.
