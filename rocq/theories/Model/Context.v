(** Batches carried by contexts: /repo/context.go, over package context of Go. *)

From Coq Require Import String List Bool Arith.
From Verif.Model Require Import Go.
Import ListNotations.

(** The key of a context value: an interface, compared by dynamic type and value. bond uses untyped string constants, which
    become plain strings (/repo/context.go:7-8); [KOther] stands for a value of any other type. *)
Inductive ckey := KStr (s : string) | KOther (n : nat).

(** Equality of keys, as ctx.Value compares them (/repo/context.go:15, 26). *)
Definition ckey_eqb (a b : ckey) : bool :=
  match a, b with
  | KStr x, KStr y => String.eqb x y
  | KOther x, KOther y => Nat.eqb x y
  | _, _ => false
  end.

Section Context.
  (** batches, sync batches (what the pointers point to) and everything else *)
  Context {B P X : Type}.

  (** A value stored in a context, by its dynamic type: no value, something implementing Batch, a *SyncBatch (the pointer may be
      nil, the interface holding it is not), or something else. /repo/context.go:11, 22. *)
  Inductive cval := VNil | VBatch (b : B) | VSync (p : option P) | VOther (x : X).

  (** A context: the values on the way to context.Background(), the innermost first. Contexts of WithCancel, WithTimeout and the
      like pass Value on to their parent, so they add nothing; /repo/context.go:10-30. *)
  Definition ctx := list (ckey * cval).

  (** ctx.Value of package context: the innermost value with that key; /repo/context.go:15, 26. *)
  Fixpoint ctx_value (k : ckey) (c : ctx) : cval :=
    match c with
    | [] => VNil
    | (k', v) :: c' => if ckey_eqb k k' then v else ctx_value k c'
    end.

  (** context.WithValue: a nil parent ([None]) panics; /repo/context.go:11, 22. The keys here are comparable. *)
  Definition with_value (c : option ctx) (k : ckey) (v : cval) : res ctx :=
    match c with None => Panic | Some c => Ok ((k, v) :: c) end.

  (** /repo/context.go:7 contextKeyName. *)
  Definition context_key_name : ckey := KStr "go-bond-batch".
  (** /repo/context.go:8 contextSyncKeyName. *)
  Definition context_sync_key_name : ckey := KStr "go-bond-sync-batch".

  (** /repo/context.go:10-12 ContextWithBatch; [None] is the nil Batch, whose conversion to any is the nil interface. *)
  Definition context_with_batch (c : option ctx) (b : option B) : res ctx :=
    with_value c context_key_name (match b with Some b => VBatch b | None => VNil end).

  (** /repo/context.go:14-19 ContextRetrieveBatch: calling Value of a nil context panics, and so does the type
      assertion on anything that is no Batch. *)
  Definition context_retrieve_batch (c : option ctx) : res (option B) :=
    match c with
    | None => Panic
    | Some c => match ctx_value context_key_name c with
                | VNil => Ok None
                | VBatch b => Ok (Some b)
                | _ => Panic
                end
    end.

  (** /repo/context.go:21-23 ContextWithSyncBatch. *)
  Definition context_with_sync_batch (c : option ctx) (p : option P) : res ctx :=
    with_value c context_sync_key_name (VSync p).

  (** /repo/context.go:25-30 ContextRetrieveSyncBatch. *)
  Definition context_retrieve_sync_batch (c : option ctx) : res (option P) :=
    match c with
    | None => Panic
    | Some c => match ctx_value context_sync_key_name c with
                | VNil => Ok None
                | VSync p => Ok p
                | _ => Panic
                end
    end.

  (** A program deriving contexts, one call after the other (/repo/context.go:10, 21, and package context): a batch, a sync
      batch, a value of the program's own, or WithCancel and the like. *)
  Inductive cstep := StBatch (b : option B) | StSync (p : option P) | StValue (k : ckey) (v : cval) | StWrap.

  (** One such call; /repo/context.go:10-12, 21-23. *)
  Definition cstep_run (c : res ctx) (st : cstep) : res ctx :=
    match c with
    | Ok c =>
        match st with
        | StBatch b => context_with_batch (Some c) b
        | StSync p => context_with_sync_batch (Some c) p
        | StValue k v => with_value (Some c) k v
        | StWrap => Ok c
        end
    | e => e
    end.

  (** All of them, from context.Background(); /repo/context.go:10-12, 21-23. *)
  Definition derive (l : list cstep) : res ctx := fold_left cstep_run l (Ok []).
End Context.
Arguments cval : clear implicits.
Arguments ctx : clear implicits.
Arguments cstep : clear implicits.
