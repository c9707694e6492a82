(** Concrete cases and witnesses for property C89. *)

From Coq Require Import List NArith ZArith Lia Bool Arith.
From Verif.Model Require Import Bytes Go Keys Pebble Index Table ReIndex Bloom Backup Version.
From Verif.Spec Require Import KeySpec StoreSpec TableSpec HistSpec SplitSpec.
From Verif.Proofs Require Import BytesFacts KeysFacts PebbleFacts TableFacts Witness TableBugs FilterBugs SplitFacts.
Import ListNotations.

Lemma accts_fit : fit accts.
Proof. split; [apply acct_lawful|intros r; apply acct_row_ok]. Qed.

(** Three rows, then a row through a batch that also sets a user key and deletes another one, then a filter saved beside them. *)
Definition more : wres * res unit := run_call accts (demo_env 2) abc_db tt (Some (Batch true [])) (CInsert [Acct 9 12 1 true]).
Definition more_ops : list bop := match Table.r_batch (fst more) with Some b => b_ops b | None => [] end.
Definition mixed_ops : list bop := (more_ops ++ [BSet (new_user_key [x61; x62]) [x01]]) ++ [BDel [x00]].
Definition mixed : kv := apply_ops abc_db mixed_ops.
Definition mixed_saved : kv := fst (fst (bloom_step db_storer demo_codec demo_hashes demo_config mixed (new_bloom demo_config) (FSave None))).

Lemma more_contents : contents mixed_ops.
Proof.
  unfold mixed_ops. apply C_del, C_user.
  destruct more as [w r] eqn:E. unfold more in E.
  assert (B : exists b', Table.r_batch w = Some b' /\ more_ops = b_ops b').
  { unfold more_ops, more. rewrite E. cbn [fst]. destruct (Table.r_batch w) as [b'|] eqn:R; [eauto|]. exfalso.
    apply (f_equal (fun x => Table.r_batch (fst x))) in E. cbv beta in E. change (fst (w, r)) with w in E. rewrite R in E. vm_compute in E. discriminate. }
  destruct B as (b' & B & ->). apply (C_call _ _ accts (demo_env 2) abc_db tt (Batch true []) (CInsert [Acct 9 12 1 true]) w r b' accts_fit (demo_env_ok 2 ltac:(lia)) C_new E B).
Qed.

Lemma abc_reached : reached abc_db.
Proof.
  unfold abc_db. destruct (insert accts (demo_env 2) [] tt None abc) as [w r] eqn:E.
  exact (R_call _ _ accts (demo_env 2) [] tt (CInsert abc) w r accts_fit (demo_env_ok 2 ltac:(lia)) R_new E).
Qed.

Lemma mixed_reached : reached mixed_saved.
Proof. apply R_filter; [reflexivity|]. apply R_commit; [exact abc_reached|exact more_contents]. Qed.

Lemma mixed_ok : kv_ok mixed.
Proof. apply apply_ops_ok. exact (cons_ok _ _ _ _ abc_stored). Qed.

Lemma mixed_keys k v : kv_get (view mixed None) k = Some v -> splittable k.
Proof. apply stored_keys, R_commit; [exact abc_reached|exact more_contents]. Qed.
