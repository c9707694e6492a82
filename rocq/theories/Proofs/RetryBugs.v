(** Calls on the accounts that are made again after crashes. *)

From Coq Require Import List NArith Lia Bool Arith.
From Verif.Model Require Import Bytes Go Keys Pebble Index Table.
From Verif.Spec Require Import KeySpec StoreSpec TableSpec HistSpec RetrySpec.
From Verif.Proofs Require Import BytesFacts PebbleFacts TableFacts Witness HistFacts TableProps TableBugs RetryFacts.
Import ListNotations.

Notation abc_map := (puts asc empty_map abc).

Lemma accts_cover db : covers accts tt db.
Proof. intros f rest v E. discriminate. Qed.

(** A call made on [db] by a process that is not disturbed: what it leaves. *)
Definition left_by (c : call acct) (db : kv) : kv := r_db (fst (run_call accts (demo_env 2) db tt None c)).

Lemma demo2 : env_ok (T:=acct) (demo_env 2).
Proof. apply demo_env_ok. lia. Qed.

(** Adding the scores. *)
Definition adding (old r : acct) : acct := Acct (a_id r) (a_kind r) (a_score old + a_score r) (a_on r).
Definition add_to_1 : call acct := CUpsert adding [Acct 1 10 2 true].

Lemma add_admissible : admissible asc abc_map add_to_1.
Proof.
  split; [apply acct_rows_ok|]. split; [constructor; [intros []|constructor]|].
  intros old r E _ _. split; [reflexivity|apply acct_row_ok].
Qed.

(** The rows given replace the stored ones. *)
Definition replacing (_ r : acct) : acct := r.
Definition replace_1 : call acct := CUpsert replacing [Acct 1 10 2 true; Acct 7 12 1 true].

Lemma replace_admissible : admissible asc abc_map replace_1.
Proof.
  split; [apply acct_rows_ok|]. split.
  - constructor; [intros [E|[]]; revert E; vm_compute; discriminate|]. constructor; [intros []|constructor].
  - intros old r E _ O. split; [reflexivity|exact O].
Qed.

Lemma replace_repeatable : repeatable accts abc_map replace_1.
Proof. intros r I. unfold replace_1, replacing. cbn [stored_row]. match goal with |- context[match ?x with _ => _ end] => now destruct x end. Qed.

Lemma replace_succeeds : succeeds asc abc_map replace_1.
Proof. intros r [<-|[<-|[]]]; vm_compute; discriminate. Qed.

(** The process dies after the commit, a second try is cancelled, a third one succeeds. *)
Lemma replaced_thrice : tries accts replace_1 abc_db tt [None; Some (Err ECtx); Some (Ok tt)] (left_by replace_1 abc_db) tt.
Proof.
  destruct (run_call accts (demo_env 2) abc_db tt None replace_1) as [w1 r1] eqn:E1.
  apply (tries_died accts replace_1 abc_db tt (demo_env 2) w1 r1 (left_by replace_1 abc_db) tt); [exact demo2|exact E1|right; unfold left_by; now rewrite E1|apply accts_cover|].
  assert (E2 : run_call accts (cancel_at 0) (left_by replace_1 abc_db) tt None replace_1 = (WRes (left_by replace_1 abc_db) tt None, Err ECtx)) by (vm_compute; reflexivity).
  apply (tries_told accts replace_1 _ tt (cancel_at 0) _ _ _ _ _ (cancel_at_ok 0) E2). cbn [r_db r_flt].
  assert (E3 : run_call accts (demo_env 2) (left_by replace_1 abc_db) tt None replace_1 = (WRes (left_by replace_1 abc_db) tt None, Ok tt)) by (vm_compute; reflexivity).
  apply (tries_told accts replace_1 _ tt (demo_env 2) _ _ _ _ _ demo2 E3). cbn [r_db r_flt]. apply tries_end.
Qed.

Definition insert_8 : call acct := CInsert [Acct 8 10 2 true].

Lemma insert_admissible : admissible asc abc_map insert_8.
Proof. split; [apply acct_rows_ok|]. constructor; [intros []|constructor]. Qed.

Lemma insert_succeeds : succeeds asc abc_map insert_8.
Proof. intros r [<-|[]]. split; [reflexivity|vm_compute; discriminate]. Qed.

(** The process dies after the commit of the Insert. *)
Lemma insert_tried : tries accts insert_8 abc_db tt [None] (left_by insert_8 abc_db) tt.
Proof.
  destruct (run_call accts (demo_env 2) abc_db tt None insert_8) as [w1 r1] eqn:E1.
  apply (tries_died accts insert_8 abc_db tt (demo_env 2) w1 r1 (left_by insert_8 abc_db) tt); [exact demo2|exact E1|right; unfold left_by; now rewrite E1|apply accts_cover|].
  apply tries_end.
Qed.

(** Adding twice is not adding once. *)
Lemma added_twice : exists db', tries accts add_to_1 abc_db tt [None; Some (Ok tt)] db' tt /\ db' <> abc_db /\
  run_call accts (demo_env 2) abc_db tt None add_to_1 = (WRes (left_by add_to_1 abc_db) tt None, Ok tt) /\ db' <> left_by add_to_1 abc_db.
Proof.
  exists (left_by add_to_1 (left_by add_to_1 abc_db)). split; [|vm_compute; repeat split; discriminate].
  destruct (run_call accts (demo_env 2) abc_db tt None add_to_1) as [w1 r1] eqn:E1.
  apply (tries_died accts add_to_1 abc_db tt (demo_env 2) w1 r1 (left_by add_to_1 abc_db) tt); [exact demo2|exact E1|right; unfold left_by; now rewrite E1|apply accts_cover|].
  assert (E2 : run_call accts (demo_env 2) (left_by add_to_1 abc_db) tt None add_to_1 = (WRes (left_by add_to_1 (left_by add_to_1 abc_db)) tt None, Ok tt)) by (vm_compute; reflexivity).
  apply (tries_told accts add_to_1 _ tt (demo_env 2) _ _ _ _ _ demo2 E2). cbn [r_db r_flt]. apply tries_end.
Qed.

(** The Upsert takes effect and its process dies; somebody inserts row 8; the Upsert is made again. *)
Definition after_both : kv := left_by insert_8 (left_by replace_1 abc_db).
Lemma replaced_among : tries_among accts replace_1 abc_map [] abc_db tt [None; Some (Ok tt)] [(insert_8, true)] after_both tt.
Proof.
  destruct (run_call accts (demo_env 2) abc_db tt None replace_1) as [w1 r1] eqn:E1.
  apply (among_died accts replace_1 abc_map [] abc_db tt (demo_env 2) w1 r1 (left_by replace_1 abc_db) tt); [exact demo2|exact E1|right; unfold left_by; now rewrite E1|apply accts_cover|].
  assert (E2 : run_call accts (demo_env 2) (left_by replace_1 abc_db) tt None insert_8 = (WRes after_both tt None, Ok tt)) by (vm_compute; reflexivity).
  apply (among_other accts replace_1 abc_map [] _ tt (demo_env 2) insert_8 (WRes after_both tt None) (Ok tt) _ _ _ _ demo2); [|exact insert_admissible|exact E2|].
  - intros r x [<-|[<-|[]]] [<-|[]]; vm_compute; discriminate.
  - cbn [r_db r_flt ok_of app]. assert (E3 : run_call accts (demo_env 2) after_both tt None replace_1 = (WRes after_both tt None, Ok tt)) by (vm_compute; reflexivity).
    apply (among_told accts replace_1 abc_map _ _ tt (demo_env 2) _ _ _ _ _ _ demo2 E3). cbn [r_db r_flt]. apply among_end.
Qed.
