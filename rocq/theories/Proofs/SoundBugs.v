(** Histories after which reads through an index, or of moved rows, go wrong. *)

From Coq Require Import List NArith Lia Bool Arith.
From Verif.Model Require Import Bytes Go Keys Pebble Index Table Scan Query.
From Verif.Spec Require Import KeySpec StoreSpec TableSpec HistSpec RowsSpec ScanSpec QuerySpec SoundSpec.
From Verif.Proofs Require Import Witness TableBugs ScanBugs QueryBugs.
Import ListNotations.

(** Repeated keys across chunks, a Delete with other contents, an Insert that fails. *)
Definition rough : list (env acct * call acct) :=
  [(demo_env 1, CInsert [Acct 1 10 6 true; Acct 1 11 0 true; Acct 2 5 5 true]);
   (demo_env 2, CUpdate [Acct 2 6 0 true; Acct 1 7 7 true; Acct 2 8 8 true]);
   (demo_env 2, CDelete [Acct 2 99 99 false]);
   (demo_env 2, CInsert [Acct 3 0 0 true; Acct 1 0 0 true]);
   (demo_env 2, CInsert [Acct 4 10 1 true])].

Lemma rough_env : Forall (fun ec => env_ok (fst ec)) rough.
Proof. repeat constructor; apply demo_env_ok; lia. Qed.

Lemma rough_keys : Forall (fun ec => keeps_key (schema_of accts) (snd ec)) rough.
Proof. repeat constructor. Qed.

Definition rough_db : kv := Eval vm_compute in fst (fst (run_hist accts [] tt rough)).

Lemma rough_run : exists oks, run_hist accts [] tt rough = (rough_db, tt, oks) /\ map snd oks = [true; true; true; false; true].
Proof. eexists. split; vm_compute; reflexivity. Qed.

(** The rows of kind 10 are asked for, a row of kind 7 is returned too; and a range of
    scores fails, as an entry is left of a row that is not stored. *)
Lemma rough_index : forall fuel, 9 <= fuel ->
  scan_index accts env1 fuel rough_db tt acct_by_kind (SPoint (Acct 0 10 (2 ^ 64 - 1) true)) [] false NoBatch
    = ([Acct 1 7 7 true; Acct 4 10 1 true], Ok tt) /\
  scan_index accts env1 fuel rough_db tt acct_by_score (SRange (Acct 0 0 0 true) (Acct 9 0 9 true)) [] false NoBatch = ([], Err ENotFound).
Proof. intros fuel H. do 9 (destruct fuel as [|fuel]; [lia|]). split; vm_compute; reflexivity. Qed.

(** onConflict gives the row another key: it is found under the old one only. *)
Definition moved : list (env acct * call acct) :=
  [(demo_env 2, CInsert [Acct 1 10 6 true]);
   (demo_env 2, CUpsert (fun old new => Acct 9 (a_kind old) (a_score new) true) [Acct 1 0 4 true])].

Lemma moved_env : Forall (fun ec => env_ok (fst ec)) moved.
Proof. repeat constructor; apply demo_env_ok; lia. Qed.

Lemma moved_row : exists db oks, run_hist accts [] tt moved = (db, tt, oks) /\ map snd oks = [true; true] /\
  (forall fuel, 2 <= fuel -> scan accts env1 fuel db tt [] false NoBatch = ([Acct 9 10 4 true], Ok tt)) /\
  get_point accts db tt None (Acct 9 10 4 true) = Err ENotFound /\ get_point accts db tt None (Acct 1 0 0 true) = Ok (Acct 9 10 4 true).
Proof.
  eexists _, _. split; [vm_compute; reflexivity|]. split; [reflexivity|]. split; [|split; vm_compute; reflexivity].
  intros fuel H. do 2 (destruct fuel as [|fuel]; [lia|]). vm_compute. reflexivity.
Qed.
