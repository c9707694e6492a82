(** Concrete calls committed while an index is built. *)

From Coq Require Import List NArith ZArith Lia Bool Arith.
From Verif.Model Require Import Bytes Go Keys Pebble Index Table Scan Concur ReIndex LiveReIndex.
From Verif.Spec Require Import KeySpec StoreSpec TableSpec HistSpec ReIndexSpec LiveReIndexSpec.
From Verif.Proofs Require Import BytesFacts PebbleFacts TableFacts WriteFacts Witness TableBugs ScanBugs QueryBugs ConcurBugs ReIndexFacts ReIndexBugs PagingBugs LiveBugs LiveReIndexFacts LiveInserts.
Import ListNotations.

(** the table with the rows 1, 2, 3, before and after AddIndex of the index by flag *)
Definition rows123 : kv := stored accts tt [a1; a2; a3].
Definition flagged : table acct unit := more_accts x05.
Notation fsc := (schema_of flagged).
Definition by_flag : index acct := acct_by_flag x05.
Definition flag_on : selector acct := SPoint (Acct 0 0 0 true).

(** all writes succeed; all rows go into one batch *)
Definition one_batch : renv := REnv (fun _ => true) 100.

(** a call whose two steps both see the rows 1, 2, 3, and that commits just before the batch of ReIndex *)
Definition sees : list (kv * unit) := [(rows123, tt); (rows123, tt)].
Definition late (tb : table acct unit) (c : call acct) : others :=
  Others (fun n => match n with 1 => batch_at tb (demo_env 5) c tt sees | _ => [] end) [].
Definition built (os : others) : kv := fst (fst (live_re_index one_batch os flagged rows123 [by_flag])).

Definition on_rows (db : kv) (fuel : nat) : list acct * res unit := scan_index flagged env1 fuel db tt by_flag flag_on [] false NoBatch.

Lemma flagged_lawful : lawful flagged.
Proof. apply more_lawful; discriminate. Qed.

(** an entry whose row is not there *)
Lemma dangling db r : kv_get db (entry_key fsc (sindex_of by_flag) r) = Some [] -> kv_get db (row_key fsc (s_pk fsc r)) = None -> ~ exists m, Rep fsc db m.
Proof.
  intros E N [m [R1 R2 R3 R4]].
  assert (X : In (sindex_of by_flag) (s_indexes fsc)) by (right; right; left; reflexivity).
  destruct (proj1 (R4 (sindex_of by_flag) (tl (tl (entry_key fsc (sindex_of by_flag) r))) [] X) E) as (_ & q & M & _ & K).
  assert (P : s_pk fsc q = s_pk fsc r).
  { symmetry. change (entry_key fsc (sindex_of by_flag) r = entry_key fsc (sindex_of by_flag) q) in K. apply (entry_key_inj flagged) in K; [tauto|exact X|apply more_row_ok|apply more_row_ok]. }
  rewrite P in M. specialize (R2 (s_pk fsc r)). rewrite N, M in R2. destruct (R1 _ _ M) as (_ & _ & V). auto.
Qed.

(** a row whose entry is not there *)
Lemma missing db r v : ix_filter by_flag r = true -> t_ser accts r = Some v -> kv_get db (row_key fsc (s_pk fsc r)) = Some v ->
  kv_get db (entry_key fsc (sindex_of by_flag) r) = None -> ~ exists m, Rep fsc db m.
Proof.
  intros FL V G E [m [R1 R2 R3 R4]].
  assert (X : In (sindex_of by_flag) (s_indexes fsc)) by (right; right; left; reflexivity).
  specialize (R2 (s_pk fsc r)). rewrite G in R2. destruct (m (s_pk fsc r)) as [q|] eqn:M; [|discriminate].
  assert (q = r) as ->.
  { pose proof (ReIndexBugs.accts_fresh q v (eq_sym R2)) as D1. pose proof (ReIndexBugs.accts_fresh r v V) as D2. congruence. }
  pose proof (proj2 (R4 (sindex_of by_flag) (tl (tl (entry_key fsc (sindex_of by_flag) r))) [] X)) as H.
  assert (Z : kv_get db (entry_key fsc (sindex_of by_flag) r) = Some []); [|congruence].
  apply H. split; [reflexivity|]. exists r. auto.
Qed.

Lemma rows123_stored : consistent accts rows123 tt (puts asc empty_map [a1; a2; a3]).
Proof. exact abc_at. Qed.

(** two calls that only add: row 4 with the old indexes before the iterator is created, row 5 with all of them after *)
Definition a5 := Acct 5 10 2 true.
Definition adding45 : others :=
  Others (fun n => match n with 1 => batch_at flagged (demo_env 5) (CInsert [a5]) tt sees | _ => [] end) (batch_at accts (demo_env 5) (CInsert [a4]) tt sees).

Lemma not_in_abc r p : (a_id r < 256 ^ 8)%N -> (a_id p < 256 ^ 8)%N -> a_id r <> a_id p -> s_pk fsc r <> s_pk fsc p.
Proof. intros A B N E. apply N. exact (acct_pk_inj r p A B E). Qed.

Lemma new45 n : new_rows fsc (puts asc empty_map [a1; a2; a3]) (rows_all (fun j => match j with 1 => [a5] | _ => [] end) [a4] 1 n).
Proof.
  assert (L : incl (rows_all (fun j => match j with 1 => [a5] | _ => [] end) [a4] 1 n) [a4; a5] /\
    NoDup (map (s_pk fsc) (rows_all (fun j => match j with 1 => [a5] | _ => [] end) [a4] 1 n))).
  { unfold rows_all, rows_open. cbn [seq flat_map app].
    assert (Z : forall k j, 2 <= j -> flat_map (fun j => match j with 1 => [a5] | _ => [] end) (seq j k) = []).
    { induction k as [|k IH]; intros j L; [reflexivity|]. cbn [seq flat_map]. rewrite IH by lia. destruct j as [|[|j]]; [lia|lia|reflexivity]. }
    destruct (n - 1) as [|k]; cbn [seq flat_map]; [split; [intros x [<-|[]]; now left|repeat constructor; easy]|]. rewrite Z by lia. cbn [app].
    split; [intros x I; exact I|]. constructor; [|repeat constructor; easy]. intros [E|[]]. revert E. apply not_in_abc; vm_compute; (discriminate || reflexivity). }
  destruct L as [L N]. split; [exact N|]. intros r I. split; [|apply more_row_ok]. apply L in I. destruct I as [<-|[<-|[]]]; vm_compute; reflexivity.
Qed.
