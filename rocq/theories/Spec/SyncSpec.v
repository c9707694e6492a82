(** What mutual exclusion on a batch means. *)

From Coq Require Import List.
From Verif.Model Require Import Go Sync.
Import ListNotations.

Section S.
  Context {A : Type}.

  (** The function does not use its own SyncBatch, and returns. *)
  Definition behaves (f : sfun A) : Prop := (forall x, In x (sf_acts f) -> x <> ASync) /\ sf_result f <> None.

  (** All actions of the [g]-th function, in order. *)
  Definition block (fs : list (sfun A)) (g : nat) : list (nat * A) :=
    match nth_error fs g with
    | Some f => flat_map (fun x => match x with ADo a => [(g, a)] | ASync => [] end) (sf_acts f)
    | None => []
    end.

  (** Goroutine [g] is inside its function / has returned / waits. *)
  Definition inside (s : syst A) (g : nat) : Prop := exists l r, nth_error (sy_gs s) g = Some (GIn l r).
  Definition returned (s : syst A) (g : nat) : Prop := exists r, nth_error (sy_gs s) g = Some (GRet r).
  Definition waiting (s : syst A) (g : nat) : Prop := exists f, nth_error (sy_gs s) g = Some (GStart f).

  (** A schedule in which everybody gets a turn at least [k] times, in any order. *)
  Definition fair (n k : nat) (sched : list nat) : Prop :=
    exists segs, sched = concat segs /\ k <= length segs /\ forall seg, In seg segs -> forall g, g < n -> In g seg.

  (** Turns needed by all functions together. *)
  Definition work (fs : list (sfun A)) : nat := fold_right (fun f n => length (sf_acts f) + 2 + n) 0 fs.
End S.
