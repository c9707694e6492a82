(** Interrupted dumps: cases and refutations. *)

From Coq Require Import List NArith Lia Bool Arith Strings.String Strings.Byte.
From Verif.Model Require Import Bytes Go Keys Pebble Backup DumpSteps.
From Verif.Spec Require Import StoreSpec BackupSpec.
From Verif.Proofs Require Import BytesFacts PebbleFacts BackupFacts RestoreFacts BackupBugs DumpStepsFacts.
Import ListNotations.
Local Open Scope list_scope.

Definition by_two (f : kv) : bool := Nat.leb 2 (List.length f).
Definition dmain (n : nat) : list dwho := repeat DMain n.
Definition dwriter (i n : nat) : list dwho := repeat (DWriter i) n.
Definition drun (wi : bool) (tables : list byte) (sched : list dwho) : dstate := run_dump by_two some_tables (fun _ => some_tables) false wi tables sched.

Lemma some_ok : kv_ok some_tables /\ bond_keys some_tables.
Proof. split; [apply kv_ok_check; vm_compute; reflexivity|apply bond_keys_check; vm_compute; reflexivity]. Qed.

(** The goroutines of three tables and their indexes take turns until the dump is finished. *)
Definition turns : list dwho := dmain 10 ++ List.concat (repeat [DWriter 1; DMain; DWriter 0; DWriter 3; DWriter 2; DWriter 5; DWriter 4] 20).

(** Stopped: the rows of table 1 are done, those of table 2 are in the middle of a file. *)
Definition stopped : list dwho := dmain 9 ++ dwriter 1 2 ++ dwriter 0 20 ++ dmain 1.

Lemma turns_case : kv_ok some_tables /\ bond_keys some_tables /\ ds_main (drun true [x01; x02; x19] turns) = MEnd (Ok tt) /\
  List.length (tree_of (drun true [x01; x02; x19] turns)) = 16 /\
  restore_disk (str "/var/backup/monday") (tree_of (drun true [x01; x02; x19] turns)) [] [x19; x01] true =
    (filter (fun e => negb (beqb (firstn 1 (fst e)) [x02])) some_tables, Ok tt).
Proof. split; [apply some_ok|]. split; [apply some_ok|]. split; [vm_compute; reflexivity|]. split; vm_compute; reflexivity. Qed.

Lemma stopped_case : (forall r, In r [x01] -> contains (table_dir r) (str "/var/backup/monday") = false) /\
  (forall r d, In r [x01] -> In d [x01; x02; x19] -> has_prefix (dec (b2n r)) (dec (b2n d)) = true -> In d [x01]) /\
  dir_done (drun false [x01; x02; x19] stopped) x01 x00 /\ ~ dir_done (drun false [x01; x02; x19] stopped) x02 x00 /\
  restore_disk (str "/var/backup/monday") (tree_of (drun false [x01; x02; x19] stopped)) [] [x01] false =
    ([row x01 x01 x0a; row x01 x02 x0b; row x01 x03 x0c], Ok tt) /\
  restore_disk (str "/var/backup/monday") (tree_of (drun false [x01; x02; x19] stopped)) [] [x02; x19] false = ([], Err EOther).
Proof.
  split; [intros r [<-|[]]; vm_compute; reflexivity|]. split.
  - intros r d [<-|[]] [<-|[<-|[<-|[]]]] H; vm_compute in H; try discriminate H; cbn; auto.
  - split.
    + eexists. split; [|split]; [vm_compute; left; reflexivity|reflexivity|reflexivity].
    + split; [|split; vm_compute; reflexivity]. intros (w & W & D & E). vm_compute in W. destruct W as [<-|[<-|[<-|[]]]]; vm_compute in D, E; discriminate.
Qed.

(** The directory of table 1 was made and its goroutine has not begun: Restore succeeds and restores none of its rows. *)
Lemma nothing_restored : exists sched k, wanted [x01] false k /\ kv_get some_tables k <> None /\
  restore_disk (str "/tmp/d") (tree_of (drun false [x01] sched)) [] [x01] false = ([], Ok tt).
Proof.
  exists (dmain 8), (fst (row x01 x01 x0a)). split; [|split; [vm_compute; discriminate|vm_compute; reflexivity]].
  exists x01, x00. eexists. split; [reflexivity|]. split; [cbn; auto|now left].
Qed.

(** Stopped between two files: the first rows are restored, the others are not. *)
Lemma half_restored : exists sched k k', wanted [x01] false k /\ wanted [x01] false k' /\ kv_get some_tables k' <> None /\
  exists db', restore_disk (str "/tmp/d") (tree_of (drun false [x01] sched)) [] [x01] false = (db', Ok tt) /\
  kv_get db' k = kv_get some_tables k /\ kv_get db' k <> None /\ kv_get db' k' = None.
Proof.
  exists (dmain 8 ++ dwriter 0 3), (fst (row x01 x01 x0a)), (fst (row x01 x03 x0c)).
  split; [exists x01, x00; eexists; split; [reflexivity|]; split; [cbn; auto|now left]|].
  split; [exists x01, x00; eexists; split; [reflexivity|]; split; [cbn; auto|now left]|].
  split; [vm_compute; discriminate|]. eexists. split; [vm_compute; reflexivity|]. split; [vm_compute; reflexivity|]. split; [vm_compute; discriminate|vm_compute; reflexivity].
Qed.

(** Stopped before the directory of the second index was made: all rows are restored, with indexes asked for, and the index is empty. *)
Lemma index_missing : exists sched k, wanted [x01] true k /\ kv_get some_tables k <> None /\
  exists db', restore_disk (str "/tmp/d") (tree_of (drun true [x01] sched)) [] [x01] true = (db', Ok tt) /\
  (forall r, kv_get some_tables (x01 :: x00 :: r) <> None -> kv_get db' (x01 :: x00 :: r) = kv_get some_tables (x01 :: x00 :: r)) /\ kv_get db' k = None.
Proof.
  exists (dmain 8 ++ dwriter 0 20), (fst (ixe x01 x01 x0a x01)).
  split; [exists x01, x01; eexists; split; [reflexivity|]; split; [cbn; auto|now right]|]. split; [vm_compute; discriminate|].
  eexists. split; [vm_compute; reflexivity|]. split; [|vm_compute; reflexivity].
  intros r G. destruct (kv_get some_tables (x01 :: x00 :: r)) as [v|] eqn:E; [|congruence]. apply (kv_get_in _ _ _ (proj1 some_ok)) in E. apply kv_get_in; [sorted|].
  unfold some_tables in E. repeat (destruct E as [E|E]; [try discriminate E; injection E as <- <-; vm_compute; auto 10|]). destruct E.
Qed.

(** Dump has returned an error and a goroutine of it still writes into the directory. *)
Lemma still_writing : exists sched c, ds_main (drun false [x01; x01] sched) = MEnd (Err EOther) /\
  tree_of (drun false [x01; x01] (sched ++ [c])) <> tree_of (drun false [x01; x01] sched).
Proof. exists (dmain 9), (DWriter 0). split; [vm_compute; reflexivity|vm_compute; discriminate]. Qed.
