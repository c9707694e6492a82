(** Material for C81: contexts, and cancelled calls on the accounts. *)

From Coq Require Import String List Bool Arith Lia NArith.
From Verif.Model Require Import Bytes Go Keys Pebble Index Table Scan Query Context.
From Verif.Spec Require Import KeySpec StoreSpec TableSpec HistSpec ScanSpec QuerySpec ContextSpec.
From Verif.Proofs Require Import Witness TableBugs ScanBugs QueryBugs LiveBugs ContextFacts.
Import ListNotations.

(** Cancelled before the call, and at the ctx check after the first. *)
Definition never_started : env acct := Env (e_sort (@env1 acct)) (fun _ => true) (fun _ l => l) 2 true.
Definition soon_cancelled : env acct := Env (e_sort (@env1 acct)) (Nat.leb 1) (fun _ l => l) 2 true.

Lemma never_started_ok : env_ok never_started.
Proof. constructor; cbn; auto using sort_pos_perm, sort_pos_sorted. Qed.

Lemma never_started_dead : dead never_started.
Proof. intro n. reflexivity. Qed.

(** Another package uses the same string as key. *)
Lemma foreign_value : exists (l : list (cstep nat nat bool)) c, derive l = Ok c /\
  last_picked gives_batch l (Some 7) /\ context_retrieve_batch (Some c) = Panic.
Proof.
  exists [StBatch (Some 7); StValue (KStr "go-bond-batch") (VOther true)]. eexists. split; [reflexivity|]. split; [|reflexivity].
  left. exists [], (StBatch (Some 7)), [StValue (KStr "go-bond-batch") (VOther true)]. repeat constructor.
Qed.

(** Get does not look at its context. *)
Lemma get_ignores : reads accts abc_db tt NoBatch abc_m /\ dead never_started /\
  get_points accts never_started abc_db tt None [Acct 1 0 0 true; Acct 3 0 0 true] = Ok [a1; a3].
Proof. split; [exact abc_reads|]. split; [exact never_started_dead|]. vm_compute. reflexivity. Qed.

(** A scan by an index looks at its context once per block, and not at all behind the last row. *)
Lemma scan_unnoticed : reads accts abc_db tt NoBatch abc_m /\ (forall n, e_ctx soon_cancelled (S n) = true) /\
  forall fuel, 4 <= fuel -> scan_index accts soon_cancelled fuel abc_db tt acct_by_score (SRange (Acct 0 0 0 true) (Acct 9 0 9 true)) [] false NoBatch
    = ([a2; a3; a1], Ok tt).
Proof.
  split; [exact abc_reads|]. split; [reflexivity|]. intros fuel H. do 4 (destruct fuel as [|fuel]; [lia|]). vm_compute. reflexivity.
Qed.
