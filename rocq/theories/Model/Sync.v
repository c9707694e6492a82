(** SyncBatch used by several goroutines: /repo/sync.go. *)

From Coq Require Import List Bool Arith.
From Verif.Model Require Import Go.
Import ListNotations.

(** What a function given to WithSync does: a list of actions on the batch, one of which may be a call of
    WithSync on the same SyncBatch; then it returns or panics ([None]). /repo/sync.go:20-25. *)
Inductive sact (A : Type) := ADo (a : A) | ASync.
Arguments ADo {A}.
Arguments ASync {A}.
(** The argument f of /repo/sync.go:20. *)
Record sfun (A : Type) := SFun { sf_acts : list (sact A); sf_result : option (res unit) }.
Arguments SFun {A}.
Arguments sf_acts {A}.
Arguments sf_result {A}.

(** Where a goroutine is: before Lock (/repo/sync.go:21), inside f with actions left (22), returned (24) or panicked. *)
Inductive gstate (A : Type) := GStart (f : sfun A) | GIn (left : list (sact A)) (result : option (res unit)) | GRet (r : res unit) | GPanic.
Arguments GStart {A}.
Arguments GIn {A}.
Arguments GRet {A}.
Arguments GPanic {A}.

(** The goroutines, the holder of the mutex (/repo/sync.go:10), and the actions done on the batch so far, with who did them. *)
Record syst (A : Type) := SySt { sy_gs : list (gstate A); sy_mu : option nat; sy_log : list (nat * A) }.
Arguments SySt {A}.
Arguments sy_gs {A}.
Arguments sy_mu {A}.
Arguments sy_log {A}.

(** Goroutine [g] is now in state [x]; /repo/sync.go:20-25. *)
Definition set_g {A} (gs : list (gstate A)) (g : nat) (x : gstate A) : list (gstate A) := firstn g gs ++ x :: skipn (S g) gs.

(** One step of goroutine [g], [None] if it cannot move: Lock (/repo/sync.go:21) waits while the mutex is held, also by
    itself (a sync.Mutex is not reentrant); f (22) runs; Unlock (23) is not deferred, so a panic in f skips it. *)
Definition sync_step {A} (s : syst A) (g : nat) : option (syst A) :=
  match nth_error (sy_gs s) g with
  | Some (GStart f) =>
      match sy_mu s with
      | None => Some (SySt (set_g (sy_gs s) g (GIn (sf_acts f) (sf_result f))) (Some g) (sy_log s))
      | Some _ => None
      end
  | Some (GIn (ADo a :: l) r) => Some (SySt (set_g (sy_gs s) g (GIn l r)) (sy_mu s) (sy_log s ++ [(g, a)]))
  | Some (GIn (ASync :: l) r) => None
  | Some (GIn [] (Some r)) => Some (SySt (set_g (sy_gs s) g (GRet r)) None (sy_log s))
  | Some (GIn [] None) => Some (SySt (set_g (sy_gs s) g GPanic) (sy_mu s) (sy_log s))
  | _ => None
  end.

(** A schedule: who is tried next; /repo/sync.go:20-25. *)
Fixpoint sync_run {A} (s : syst A) (gs : list nat) : syst A :=
  match gs with
  | [] => s
  | g :: gs' => sync_run (match sync_step s g with Some s' => s' | None => s end) gs'
  end.

(** All goroutines about to call WithSync on a new SyncBatch; /repo/sync.go:13-18. *)
Definition sync_start {A} (fs : list (sfun A)) : syst A := SySt (map GStart fs) None [].
