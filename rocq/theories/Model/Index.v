(** Indexes: /repo/index.go. *)

From Coq Require Import List NArith Bool.
From Verif.Model Require Import Bytes Go Keys Pebble.
Import ListNotations.

(** /repo/index.go:136-143 Index. The key, order and filter functions are the
    user's; they are modelled as total functions (a user function that panics is
    not modelled). [ix_key] gets a KeyBuilder and returns bytes, [ix_order] gets an
    IndexOrder (a wrapped KeyBuilder, /repo/index.go:25-27) and returns one. The name is dropped. *)
Record index (T : Type) := MkIndex {
  ix_id : byte;
  ix_key : key_builder -> T -> bytes;
  ix_order : key_builder -> T -> key_builder;
  ix_filter : T -> bool
}.
Arguments MkIndex {T}.
Arguments ix_id {T}.
Arguments ix_key {T}.
Arguments ix_order {T}.
Arguments ix_filter {T}.

(** /repo/index.go:116-118 IndexOrderDefault. *)
Definition index_order_default {T} (o : key_builder) (_ : T) : key_builder := o.

(** /repo/index.go:145-165 NewIndex: nil order and filter functions get defaults. *)
Definition new_index {T} (id : byte) (kf : key_builder -> T -> bytes)
    (ordf : option (key_builder -> T -> key_builder)) (ff : option (T -> bool)) : index T :=
  MkIndex id kf
    (match ordf with Some f => f | None => index_order_default end)
    (match ff with Some f => f | None => fun _ => true end).

(** /repo/table.go:31 primaryIndexKey and /repo/table.go:169-174: the index through which
    the rows themselves are read. *)
Definition primary_index {T} : index T :=
  new_index primary_index_id (fun b _ => kb_buff b) (Some index_order_default) None.

(** /repo/index.go:405-422 encodeIndexKey; [pkf] is table.PrimaryKey
    (/repo/table.go:224-226), [tid] is table.ID(). *)
Definition encode_index_key {T} (tid : byte) (pkf : key_builder -> T -> bytes)
    (idx : index T) (tr : T) (buff : bytes) : bytes :=
  key_encode_raw tid (ix_id idx)
    (Some (fun b => ix_key idx (new_kb b) tr))
    (Some (fun b => kb_buff (ix_order idx (new_kb b) tr)))
    (Some (fun b => pkf (new_kb b) tr))
    buff.

(** /repo/table.go:16 _indexKeyValue. *)
Definition index_key_value : bytes := [].

(** /repo/index.go:280-290 OnInsert: the operations appended to the batch. Batch
    writes are assumed not to fail (pebble fails them only when a batch exceeds 4 GB). *)
Definition on_insert {T} tid pkf (idx : index T) (tr : T) : list bop :=
  if ix_filter idx tr then [BSet (encode_index_key tid pkf idx tr []) index_key_value] else [].

(** /repo/index.go:292-338 OnUpdate. *)
Definition on_update {T} tid pkf (idx : index T) (old tr : T) : list bop :=
  let delete_key := if ix_filter idx old then Some (encode_index_key tid pkf idx old []) else None in
  let set_key := if ix_filter idx tr then Some (encode_index_key tid pkf idx tr []) else None in
  match delete_key, set_key with
  | Some d, Some k => if beqb d k then [] else [BDel d; BSet k index_key_value]
  | Some d, None => [BDel d]
  | None, Some k => [BSet k index_key_value]
  | None, None => []
  end.

(** /repo/index.go:340-353 OnDelete. *)
Definition on_delete {T} tid pkf (idx : index T) (tr : T) : list bop :=
  if ix_filter idx tr then [BDel (encode_index_key tid pkf idx tr [])] else [].
