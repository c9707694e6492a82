(** A third index for the demo table, and what happens with ids 0 and 255. *)

From Coq Require Import List NArith Lia Bool Arith.
From Verif.Model Require Import Bytes Go Keys Pebble Index Table ReIndex.
From Verif.Spec Require Import KeySpec StoreSpec TableSpec HistSpec ReIndexSpec.
From Verif.Proofs Require Import BytesFacts PebbleFacts TableFacts Witness TableBugs ReIndexFacts.
Import ListNotations.

(** by flag, all accounts; the id is a parameter *)
Definition acct_by_flag (i : byte) : index acct :=
  new_index i (fun b r => kb_buff (add_byte b (if a_on r then x01 else x00))) None None.

Definition more_accts (i : byte) : table acct unit := with_indexes accts (t_indexes accts ++ [acct_by_flag i]).

Lemma more_lawful i : i <> x00 -> i <> x01 -> i <> x02 -> lawful (more_accts i).
Proof.
  intros N0 N1 N2. pose proof (acct_lawful (None : option (filt unit))) as [L1 L2 L3 L4 L5]. fold accts in *.
  constructor; cbn [more_accts with_indexes t_indexes t_pk].
  - exact L1.
  - intros ix b r I. apply in_app_iff in I as [I|[<-|[]]]; [now apply L2|]. cbn [ix_key acct_by_flag new_index]. unfold add_byte, kb_append, put_field_id.
    cbn [kb_buff new_kb kb_fid]. rewrite <- !app_assoc. reflexivity.
  - intros ix b r I. apply in_app_iff in I as [I|[<-|[]]]; [now apply L3|]. cbn [ix_order acct_by_flag new_index]. unfold index_order_default.
    cbn [kb_buff new_kb]. now rewrite app_nil_r.
  - cbn. repeat constructor; cbn; intuition (congruence || discriminate).
  - intros ix I. apply in_app_iff in I as [I|[<-|[]]]; [now apply L5|exact N0].
Qed.

Lemma flag_lawful i : i <> x00 -> lawful (with_indexes accts [acct_by_flag i]).
Proof.
  intros N0. pose proof (acct_lawful (None : option (filt unit))) as [L1 L2 L3 L4 L5]. fold accts in *.
  constructor; cbn [with_indexes t_indexes t_pk].
  - exact L1.
  - intros ix b r [<-|[]]. cbn [ix_key acct_by_flag new_index]. unfold add_byte, kb_append, put_field_id.
    cbn [kb_buff new_kb kb_fid]. rewrite <- !app_assoc. reflexivity.
  - intros ix b r [<-|[]]. cbn [ix_order acct_by_flag new_index]. unfold index_order_default. cbn [kb_buff new_kb]. now rewrite app_nil_r.
  - cbn. repeat constructor; cbn; intuition.
  - intros ix [<-|[]]. exact N0.
Qed.

Lemma more_row_ok i r : row_ok (schema_of (more_accts i)) r.
Proof.
  intros ix H. cbn in H. destruct H as [<-|[<-|[<-|[]]]]; cbn [si_key si_ord sindex_of acct_by_kind acct_by_score acct_by_flag new_index ix_key ix_order];
    unfold index_order_default, order_uint64, add_uint64, add_uint32, add_byte, kb_append, put_field_id; cbn [kb_buff new_kb];
    split; rewrite ?app_length, ?be_bytes_length; cbn; lia.
Qed.

Lemma flag_row_ok i r : row_ok (schema_of (with_indexes accts [acct_by_flag i])) r.
Proof.
  intros ix H. cbn in H. destruct H as [<-|[]]; cbn [si_key si_ord sindex_of acct_by_flag new_index ix_key ix_order];
    unfold index_order_default, add_byte, kb_append, put_field_id; cbn [kb_buff new_kb];
    split; rewrite ?app_length, ?be_bytes_length; cbn; lia.
Qed.

Lemma accts_fresh : ser_fresh accts.
Proof. intros r v H. now apply (acct_ser_over None). Qed.

(** all writes succeed, batches of two rows *)
Definition re_quiet : renv := REnv (fun _ => true) 2.

(** An entry of index 255 left from a row that is gone, in an otherwise empty table. *)
Definition stale_ff : kv := [(spec_key x07 xff [x01; x01] [] [x01; x09], [])].

Lemma stale_ff_rows : Rep (schema0 accts) stale_ff empty_map.
Proof.
  constructor; easy.
Qed.
