(** What reads can return whatever the secondary indexes hold. *)

From Coq Require Import List NArith Bool.
From Verif.Model Require Import Bytes Go Keys Pebble Index Table Scan Query.
From Verif.Spec Require Import KeySpec StoreSpec TableSpec HistSpec RowsSpec ScanSpec.
Import ListNotations.

(** Is [r] one of the rows of the table? *)
Definition held {T} (m : tmap T) (r : T) : Prop := exists p, m p = Some r.

(** The records that a selector is made of. *)
Definition sel_records {T} (sel : selector T) : list T :=
  match sel with
  | SPoint p => [p]
  | SPoints ps => ps
  | SRange lo hi => [lo; hi]
  | SRanges rs => concat rs
  | SOther => []
  end.

(** The records of a query: those of the selector and that of After. *)
Definition query_records {T} (q : query T) : list T :=
  sel_records (q_sel q) ++ match q_after q with Some a => [a] | None => [] end.

(** A callback call that, if it is only given rows of [S], leaves a state in [P]. *)
Fixpoint keeps {T W} (S : T -> Prop) (P : W -> Prop) (p : prog (T:=T) W) : Prop :=
  match p with
  | PRet s _ _ => P s
  | PGet k => forall v, (forall r, v = Ok r -> S r) -> keeps S P (k v)
  end.

(** Is the query one on an index of the table, with index keys below 4 GiB? *)
Definition on_table {T F} (tb : table T F) (q : query T) : Prop :=
  In (q_index q) (primary_index :: t_indexes tb) /\ Forall (parts_short (sindex_of (q_index q))) (query_records q).

(** The rows [m] are read, directly or through a batch that can be read, and each has
    the key it is stored under; the indexes may hold anything. *)
Record row_reads {T F} (tb : table T F) (db : kv) (fl : F) (ob : optb) (m : tmap T) : Prop := {
  rr_ok : kv_ok db;
  rr_batch : ob <> NilBatch;
  rr_rw : readable (batch_of ob);
  rr_rows : RowsAre (schema_of tb) (view db (batch_of ob)) m;
  rr_keys : forall p r, m p = Some r -> s_pk (schema_of tb) r = p;
  rr_covers : covers tb fl (view db (batch_of ob))
}.

(** A call whose onConflict, if any, keeps the key of the row it is given first. *)
Definition keeps_key {T} (sc : schema T) (c : call T) : Prop :=
  match c with CUpsert f _ => forall a b, s_pk sc (f a b) = s_pk sc a | _ => True end.
