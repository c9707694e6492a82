(** When a dump of tables can be moved to another database. *)

From Coq Require Import List NArith Strings.String.
From Verif.Model Require Import Bytes Pebble Keys Backup.
From Verif.Spec Require Import StoreSpec BackupSpec.
Import ListNotations.

(** What [C46_roundtrip_partial] asks of a dump of [tables] from [snap], with the database [live n] when the indexes of table n are looked up, and of a
    restore of [want] from the directory [root]; with indexes or without. *)
Record movable (snap : kv) (live : nat -> kv) (root : bytes) (tables want : list byte) (indexes : bool) : Prop := Movable {
  mv_ok : kv_ok snap;
  mv_keys : bond_keys snap;
  mv_live : forall n, kv_ok (live n) /\ bond_keys (live n);
  mv_once : NoDup tables;
  mv_want : incl want tables;
  mv_kept : indexes = true -> forall n t i rest v, nth_error tables n = Some t -> kv_get snap (t :: i :: rest) = Some v ->
    exists rest' v', kv_get (live n) (t :: i :: rest') = Some v';
  mv_root : forall r, In r want -> contains (table_dir r) root = false;
  mv_index : indexes = true \/ contains (str "index") root = false;
  mv_names : forall r d, In r want -> In d tables -> has_prefix (dec (b2n r)) (dec (b2n d)) = true -> In d want
}.
