(** Calls on the accounts with permuted rows, in parts, and in either order. *)

From Coq Require Import List NArith Lia Bool Arith Sorting.Permutation.
From Verif.Model Require Import Bytes Go Keys Pebble Index Table.
From Verif.Spec Require Import KeySpec StoreSpec TableSpec HistSpec RetrySpec LawSpec.
From Verif.Proofs Require Import BytesFacts PebbleFacts TableFacts Witness HistFacts TableProps TableBugs RetryFacts RetryBugs LawFacts.
Import ListNotations.

(** Two versions of row 1 in one Upsert. *)
Definition v5 : acct := Acct 1 10 5 true.
Definition v9 : acct := Acct 1 10 9 true.
Definition both_ways (l : list acct) : call acct := CUpsert replacing l.

Definition upd_1 : acct := Acct 1 10 9 true.
Definition upd_3 : acct := Acct 3 12 4 true.
Definition update_13 : call acct := CUpdate [upd_1; upd_3].

Lemma update_13_admissible : admissible asc abc_map update_13.
Proof.
  split; [apply acct_rows_ok|]. constructor; [intros [E|[]]; revert E; vm_compute; discriminate|]. constructor; [intros []|constructor].
Qed.

Lemma insert_replace_apart : no_common_key accts replace_1 insert_8.
Proof. intros r x [<-|[<-|[]]] [<-|[]]; vm_compute; discriminate. Qed.

(** An Upsert and an Insert in either order. *)
Lemma both_orders : left_by insert_8 (left_by replace_1 abc_db) = left_by replace_1 (left_by insert_8 abc_db) /\ left_by insert_8 (left_by replace_1 abc_db) <> left_by insert_8 abc_db.
Proof. vm_compute. split; [reflexivity|discriminate]. Qed.

Lemma order_matters : snd (run_call accts (demo_env 2) abc_db tt None (both_ways [v5; v9])) = Ok tt /\ snd (run_call accts (demo_env 2) abc_db tt None (both_ways [v9; v5])) = Ok tt /\
  left_by (both_ways [v5; v9]) abc_db <> left_by (both_ways [v9; v5]) abc_db.
Proof. vm_compute. repeat split; discriminate. Qed.

(** One Upsert with both versions leaves more keys than two Upserts of one version each. *)
Lemma parts_matter : snd (run_call accts (demo_env 2) abc_db tt None (both_ways [v5; v9])) = Ok tt /\ snd (run_call accts (demo_env 2) abc_db tt None (both_ways [v5])) = Ok tt /\
  snd (run_call accts (demo_env 2) (left_by (both_ways [v5]) abc_db) tt None (both_ways [v9])) = Ok tt /\
  length (left_by (both_ways [v5; v9]) abc_db) = length (left_by (both_ways [v9]) (left_by (both_ways [v5]) abc_db)) + 2.
Proof. vm_compute. repeat split; reflexivity. Qed.

(** Row 9 is not stored. *)
Definition update_9 : call acct := CUpdate [Acct 9 10 2 true].

Lemma three_admissible c : In c [replace_1; insert_8; update_9] -> admissible asc abc_map c.
Proof.
  intros [<-|[<-|[<-|[]]]]; [exact replace_admissible|exact insert_admissible|]. split; [apply acct_rows_ok|]. constructor; [intros []|constructor].
Qed.

Lemma three_apart : ForallOrdPairs (no_common_key accts) [replace_1; insert_8; update_9].
Proof.
  constructor; [constructor; [exact insert_replace_apart|constructor; [|constructor]]|constructor; [constructor; [|constructor]|constructor; constructor]].
  - intros r x [<-|[<-|[]]] [<-|[]]; vm_compute; discriminate.
  - intros r x [<-|[]] [<-|[]]; vm_compute; discriminate.
Qed.

Lemma one_more c db r d1 cs d2 : run_call accts (demo_env 2) db tt None c = (WRes d1 tt None, r) -> quiet_runs accts d1 tt cs d2 tt -> quiet_runs accts db tt ((c, r) :: cs) d2 tt.
Proof. intros E Q. exact (runs_call accts db tt (demo_env 2) c _ r cs d2 tt demo2 (demo_env_quiet 2) E Q). Qed.

Lemma three_run : exists e, quiet_runs accts abc_db tt [(replace_1, Ok tt); (insert_8, Ok tt); (update_9, Err e)] after_both tt.
Proof.
  eexists. apply (one_more _ _ _ (left_by replace_1 abc_db)); [vm_compute; reflexivity|]. apply (one_more _ _ _ after_both); [vm_compute; reflexivity|].
  apply (one_more _ _ _ after_both); [vm_compute; reflexivity|apply runs_end].
Qed.

Lemma three_run_else : exists e, quiet_runs accts abc_db tt [(update_9, Err e); (replace_1, Ok tt); (insert_8, Ok tt)] after_both tt.
Proof.
  eexists. apply (one_more _ _ _ abc_db); [vm_compute; reflexivity|]. apply (one_more _ _ _ (left_by replace_1 abc_db)); [vm_compute; reflexivity|].
  apply (one_more _ _ _ after_both); [vm_compute; reflexivity|apply runs_end].
Qed.
