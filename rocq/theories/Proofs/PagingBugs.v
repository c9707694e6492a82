(** Concrete pages of a changing table. *)

From Coq Require Import List NArith ZArith Lia Bool Arith Sorting.Sorted.
From Verif.Model Require Import Bytes Go Keys Pebble Index Table Scan Query.
From Verif.Spec Require Import KeySpec StoreSpec TableSpec HistSpec ScanSpec QuerySpec PagingSpec.
From Verif.Proofs Require Import BytesFacts TableFacts Witness TableBugs ScanBugs QueryProps QueryBugs ConcurBugs.
Import ListNotations.

Definition holding (rows : list acct) : moment acct unit := Moment (stored accts tt rows) tt NoBatch (puts asc empty_map rows).

Lemma holding_reads rows : Forall (fun r => (a_id r < 256 ^ 8)%N) rows -> NoDup (map a_id rows) ->
  (forall r, In r rows -> s_val asc r <> None) ->
  reads accts (mo_db (holding rows)) (mo_fl (holding rows)) (mo_ob (holding rows)) (mo_rows (holding rows)).
Proof.
  intros A B C. pose proof (accts_stored rows A B C) as H. constructor; [apply (cons_ok _ _ _ _ H)|discriminate|exact I|exact H].
Qed.

Definition a4 := Acct 4 12 1 true.

(** the row 1 goes and the row 4 comes after the first page *)
Definition one_out (i : nat) : moment acct unit := match i with O => holding [a1; a2; a3] | _ => holding [a2; a3; a4] end.
(** the row 3 goes after the first page *)
Definition three_out (i : nat) : moment acct unit := match i with O => holding [a1; a2; a3] | _ => holding [a1; a2] end.

Ltac holds := apply holding_reads; [repeat constructor|repeat constructor; cbn; intuition discriminate|
  cbn [In]; intros r H; repeat (destruct H as [<-|H]; [vm_compute; discriminate|]); destruct H].

Lemma one_out_reads i : reads accts (mo_db (one_out i)) (mo_fl (one_out i)) (mo_ob (one_out i)) (mo_rows (one_out i)).
Proof. destruct i; cbn [one_out]; holds. Qed.
Lemma three_out_reads i : reads accts (mo_db (three_out i)) (mo_fl (three_out i)) (mo_ob (three_out i)) (mo_rows (three_out i)).
Proof. destruct i; cbn [three_out]; holds. Qed.

Definition run_at (w : nat -> moment acct unit) (q : query acct) (fuel i : nat) (a : option acct) : res (list acct) :=
  execute accts env1 isort fuel (mo_db (w i)) (mo_fl (w i)) (page q a) (mo_ob (w i)).

Lemma all_ids_exact m : exact_selector accts (q_index all_ids) m (q_sel all_ids).
Proof. split; [split; vm_compute; reflexivity|]. apply acct_end; [split; vm_compute; reflexivity|vm_compute; discriminate]. Qed.

Lemma live_case : (forall i, reads accts (mo_db (one_out i)) (mo_fl (one_out i)) (mo_ob (one_out i)) (mo_rows (one_out i)) /\
    exact_selector accts (q_index all_ids) (mo_rows (one_out i)) (q_sel all_ids)) /\
  live_pages (run_at one_out (q_with_limit all_ids 1) 5) 5 0 None = Ok [[a1]; [a2]; [a3]; [a4]].
Proof. split; [intro i; split; [apply one_out_reads|apply all_ids_exact]|vm_compute; reflexivity]. Qed.

Lemma live_ordered : (forall i, reads accts (mo_db (three_out i)) (mo_fl (three_out i)) (mo_ob (three_out i)) (mo_rows (three_out i))) /\
  forall fuel, 5 <= fuel ->
  live_pages (run_at three_out (q_with_limit (q_order all_ids by_score) 2) fuel) 3 0 None = Ok [[a2; a3]; [a2; a1]].
Proof.
  split; [apply three_out_reads|]. fuels 5.
Qed.
