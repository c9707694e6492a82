(** Programs that show where batch callbacks depart from the protocol. *)

From Coq Require Import List NArith ZArith Bool Arith Lia.
From Verif.Model Require Import Bytes Go Pebble Sequence Batch.
From Verif.Spec Require Import BatchSpec.
From Verif.Proofs Require Import BatchFacts.
Import ListNotations.

(** A callback that writes to its batch, one that does nothing and one that refuses. *)
Definition cb_write : commit_cb := CommitCb 1 (fun ops => (ops ++ [BSet [x09] [x01]], None)).
Definition cb_quiet : commit_cb := CommitCb 2 (fun ops => (ops, None)).
Definition cb_veto : commit_cb := CommitCb 3 (fun ops => (ops, Some (EUser 7))).

Definition a_put : bop := BSet [x01] [x02].

(** A new batch with one write and callbacks of every kind. *)
Definition dressed (f : commit_cb) : list bcall :=
  [CNew true 5; CPut 0 [a_put]; COnCommit 0 cb_write; COnCommit 0 f; COnCommitted 0 10; COnCommitted 0 11; COnError 0 20; COnClose 0 30].

(** Events, results and database of a program on an empty database. *)
Definition events (cs : list bcall) : list event := snd (fst (batch_run (BSt [] [] 0) cs)).
Definition results (cs : list bcall) : list (res unit) := snd (batch_run (BSt [] [] 0) cs).
Definition contents (cs : list bcall) : kv := bs_db (fst (fst (batch_run (BSt [] [] 0) cs))).

Lemma close_runs_committed :
  (exists cs, events cs = [EvCommitted 0 10; EvCommitted 0 11] /\ contents cs = [] /\ Forall (fun r => r = Ok tt) (results cs)) /\
  (exists cs ops t, events cs = t ++ EvWrite 0 ops :: [EvCommitted 0 10; EvCommitted 0 11; EvCommitted 0 10; EvCommitted 0 11] /\
     Forall (fun r => r = Ok tt) (results cs)).
Proof.
  split.
  - exists (dressed cb_quiet ++ [CClose 0 None]). repeat split. vm_compute. repeat constructor.
  - exists (dressed cb_quiet ++ [CCommit 0 None; CClose 0 None]), [a_put; BSet [x09] [x01]], [EvCommit 0 1; EvCommit 0 2].
    split; [vm_compute; reflexivity|]. vm_compute. repeat constructor.
Qed.

Lemma on_close_dead : exists cs h n fail, In (COnClose h n) cs /\ In (CClose h fail) cs /\ Forall (fun r => r = Ok tt) (results cs) /\
  (forall db cs s t rs, batch_run (BSt db [] 0) cs = (s, t, rs) -> forall h n, ~ In (EvClose h n) t).
Proof.
  exists (dressed cb_quiet ++ [CClose 0 None]), 0, 30, None. split; [cbn; tauto|]. split; [cbn; tauto|]. split; [vm_compute; repeat constructor|].
  intros db cs s t rs E. exact (run_no_close cs _ _ _ _ E).
Qed.

Lemma apply_runs_committed :
  (exists cs e, last (results cs) (Ok tt) = Err e /\ contents cs = [] /\
     events cs = [EvCommit 0 1; EvCommit 0 2; EvError 0 20 e; EvCommitted 0 10; EvCommitted 0 11]) /\
  (exists cs, contents cs = [] /\ In (EvCommitted 0 10) (events cs) /\ last (results cs) Panic = Ok tt).
Proof.
  split.
  - exists (dressed cb_quiet ++ [CNew false 5; CApply 1 0 (Some ECommit)]), ECommit. repeat split.
  - exists (dressed cb_quiet ++ [CNew false 5; CApply 1 0 None]). repeat split. vm_compute. tauto.
Qed.

Lemma veto_silent : exists cs e, last (results cs) (Ok tt) = Err e /\ contents cs = [] /\
  events cs = [EvCommit 0 1; EvCommit 0 3] /\ In (COnError 0 20) cs.
Proof.
  exists (dressed cb_veto ++ [CCommit 0 None]), (EUser 7). repeat split. cbn. tauto.
Qed.
