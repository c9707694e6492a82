(** Compact, Close and OnClose of the database: /repo/bond.go:298-322. *)

From Coq Require Import List NArith Bool Arith.
From Verif.Model Require Import Bytes Go Keys Pebble.
Import ListNotations.

(** The range that Compact hands to pebble: from nil, the empty key, to maxKey; /repo/bond.go:298-307. *)
Definition compact_range : bytes * bytes := ([], key_encode (MkKey xff xff [] [] []) []).

(** What a function given to OnClose does with the database it is given: single writes (/repo/bond.go:251-273), OnClose (/repo/bond.go:314-316), Close
    (/repo/bond.go:309-312), and a panic of its own. Functions are named by numbers. *)
Inductive act := AWrite (o : bop) | ARegister (f : nat) | AClose | APanic.

(** What can be seen: a function begins, a write reaches pebble, pebble's Close is done; /repo/bond.go:309-322. *)
Inductive event := ERan (f : nat) | EWrote (o : bop) | EClosed.

(** The database: its content, whether pebble is open, the registered functions (/repo/bond.go:126-136), and what has happened so far. *)
Record cdb := CDb { c_kv : kv; c_open : bool; c_funs : list nat; c_trace : list event }.

(** A call returns, panics, or does not return within the depth of calls that the model follows (in Go: the stack overflows). No counterpart in /repo; Go. *)
Inductive outcome := Returns (d : cdb) | Panics (d : cdb) | TooDeep.

(** What happened last; bookkeeping of the model for /repo/bond.go:309-322. *)
Definition saw (d : cdb) (e : event) : cdb := CDb (c_kv d) (c_open d) (c_funs d) (c_trace d ++ [e]).

(** pebble's Set, Delete and DeleteRange: they panic on a closed database (pebble DB.Apply: [if err := d.closed.Load(); err != nil { panic(err) }]);
    /repo/bond.go:251-273. *)
Definition c_write (d : cdb) (o : bop) : outcome :=
  if c_open d then Returns (CDb (apply_op (c_kv d) o) true (c_funs d) (c_trace d ++ [EWrote o])) else Panics d.

(** /repo/bond.go:314-316 OnClose. *)
Definition on_close (d : cdb) (f : nat) : cdb := CDb (c_kv d) (c_open d) (c_funs d ++ [f]) (c_trace d).

(** pebble's Close: it panics on a closed database; its errors are left out; /repo/bond.go:311. *)
Definition pebble_close (d : cdb) : outcome :=
  if c_open d then Returns (CDb (c_kv d) false (c_funs d) (c_trace d ++ [EClosed])) else Panics d.

(** What comes next if the call returns; Go's control flow, /repo/bond.go:309-322. *)
Definition andthen (o : outcome) (k : cdb -> outcome) : outcome :=
  match o with Returns d => k d | Panics d => Panics d | TooDeep => TooDeep end.

Section Functions.
  (** What each function does, which it decides by the content of the database when it is called. *)
  Variable body : nat -> kv -> list act.

  (** The body of one function, given what Close does; the calls of /repo/bond.go:251-273, 309-316. *)
  Fixpoint run_acts (cl : cdb -> outcome) (l : list act) (d : cdb) : outcome :=
    match l with
    | [] => Returns d
    | a :: l' =>
        andthen (match a with
                 | AWrite o => c_write d o
                 | ARegister f => Returns (on_close d f)
                 | AClose => cl d
                 | APanic => Panics d
                 end) (run_acts cl l')
    end.

  (** /repo/bond.go:318-322 notifyOnClose: range evaluates the slice once, so [fs] does not change while the functions run. *)
  Fixpoint notify (cl : cdb -> outcome) (fs : list nat) (d : cdb) : outcome :=
    match fs with
    | [] => Returns d
    | f :: fs' => andthen (run_acts cl (body f (c_kv d)) (saw d (ERan f))) (notify cl fs')
    end.

  (** /repo/bond.go:309-312 Close; [depth] bounds the calls of Close from within Close. *)
  Fixpoint close (depth : nat) (d : cdb) : outcome :=
    match depth with
    | O => TooDeep
    | S n => andthen (notify (close n) (c_funs d) d) pebble_close
    end.
End Functions.
