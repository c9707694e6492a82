(** What contexts carry and what cancelling them does. *)

From Coq Require Import String List Bool Arith.
From Verif.Model Require Import Bytes Go Pebble Index Table Scan Context.
From Verif.Spec Require Import StoreSpec TableSpec HistSpec ScanSpec.
Import ListNotations.

(** The last value [pick]ed by a step of [l], [None] if no step picks one. *)
Definition last_picked {S A} (pick : S -> option (option A)) (l : list S) (x : option A) : Prop :=
  (exists l1 st l2, l = l1 ++ st :: l2 /\ pick st = Some x /\ Forall (fun s => pick s = None) l2) \/
  (Forall (fun s => pick s = None) l /\ x = None).

(** Steps that give a batch or a sync batch. *)
Definition gives_batch {B P X} (st : cstep B P X) : option (option B) :=
  match st with StBatch b => Some b | _ => None end.
Definition gives_sync {B P X} (st : cstep B P X) : option (option P) :=
  match st with StSync p => Some p | _ => None end.

(** The program stores nothing of its own under the two strings bond uses. *)
Definition keeps_off {B P X} (st : cstep B P X) : Prop :=
  match st with
  | StValue k _ => k <> KStr "go-bond-batch" /\ k <> KStr "go-bond-sync-batch"
  | _ => True
  end.

(** The same call with a context that is never cancelled, and a context cancelled from the start. *)
Definition calm {T} (ev : env T) : env T := Env (e_sort ev) (fun _ => false) (e_map ev) (e_chunk ev) (e_commit ev).
Definition dead {T} (ev : env T) : Prop := forall n, e_ctx ev n = true.

(** A result is the context's error, or what it would have been with a context that is never cancelled. *)
Definition error_or {A} (r calm_r : res A) : Prop := r = Err ECtx \/ r = calm_r.
