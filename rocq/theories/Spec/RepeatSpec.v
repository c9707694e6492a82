(** What a call leaves that was given a primary key in several of its chunks. *)

From Coq Require Import List NArith Bool.
From Verif.Model Require Import Bytes Go Keys Pebble Index Table.
From Verif.Spec Require Import KeySpec TableSpec.
Import ListNotations.

Section Repeat.
  Context {T : Type}.
  Variable sc : schema T.

  (** Row [x] has the entry [k] in index [ix]. *)
  Definition has_entry (ix : sindex T) (x : T) (k : bytes) : Prop :=
    si_filter ix x = true /\ k = entry_key sc ix x.

  (** The store after versions [ws] of rows were written to a table that held [m],
      each as if none of the others had been. The last version of a row is stored.
      An entry that the row had before stays if all its versions have it. An entry
      that it did not have is there if one of its versions has it. *)
  Record RepVersions (m : tmap T) (ws : list T) (db : kv) : Prop := MkVersions {
    rv_get : forall pk, kv_get db (row_key sc pk) = match puts sc m ws pk with Some r => s_val sc r | None => None end;
    rv_data : forall rest v, kv_get db (s_id sc :: x00 :: rest) = Some v -> exists pk, s_id sc :: x00 :: rest = row_key sc pk;
    rv_index : forall ix rest v, In ix (s_indexes sc) ->
      kv_get db (s_id sc :: si_id ix :: rest) = Some v <->
      v = [] /\
      ((exists o, m (s_pk sc o) = Some o /\ has_entry ix o (s_id sc :: si_id ix :: rest) /\
          forall w, In w ws -> s_pk sc w = s_pk sc o -> has_entry ix w (s_id sc :: si_id ix :: rest)) \/
       (exists w, In w ws /\ has_entry ix w (s_id sc :: si_id ix :: rest) /\
          forall o, m (s_pk sc w) = Some o -> ~ has_entry ix o (s_id sc :: si_id ix :: rest)))
  }.

  (** One version of each key of a chunk. *)
  Definition one_each (chunk ws : list T) : Prop :=
    incl ws chunk /\ NoDup (map (s_pk sc) ws) /\ forall r, In r chunk -> exists w, In w ws /\ s_pk sc w = s_pk sc r.
End Repeat.
