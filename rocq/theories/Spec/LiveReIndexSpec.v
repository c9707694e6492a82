(** What the other calls do while ReIndex runs. *)

From Coq Require Import List NArith Bool.
From Verif.Model Require Import Bytes Go Keys Pebble Index Table LiveReIndex.
From Verif.Spec Require Import KeySpec TableSpec.
Import ListNotations.

(** All that the others commit before the iterator of ReIndex is created, when ReIndex has [k] indexes to delete;
    and all they commit before its last write, when it makes [n] of them. *)
Definition before_open (os : others) (k : nat) : list bop := flat_map (o_at os) (seq 0 k) ++ o_open os.
Definition all_of (os : others) (k n : nat) : list bop := before_open os k ++ flat_map (o_at os) (seq k (n - k)).

(** No operation changes the value of [k]. *)
Definition leaves (k : bytes) (ops : list bop) : Prop :=
  forall o, In o ops -> match o with
                        | BSet k' _ | BDel k' => k' <> k
                        | BDelRange lo hi => ~ (ble lo k /\ blt k hi)
                        end.

(** A batch that stores the new rows [rows]: nothing but the rows and entries of theirs, all the rows, and all their
    entries in the indexes [must]. *)
Record adds {T} (sc : schema T) (must : sindex T -> Prop) (rows : list T) (ops : list bop) : Prop := MkAdds {
  adds_only : forall o, In o ops -> exists r, In r rows /\
    ((exists v, s_val sc r = Some v /\ o = BSet (row_key sc (s_pk sc r)) v) \/
     (exists ix, In ix (s_indexes sc) /\ si_filter ix r = true /\ o = BSet (entry_key sc ix r) []));
  adds_row : forall r, In r rows -> exists v, s_val sc r = Some v /\ In (BSet (row_key sc (s_pk sc r)) v) ops;
  adds_entry : forall r ix, In r rows -> In ix (s_indexes sc) -> must ix -> si_filter ix r = true ->
    In (BSet (entry_key sc ix r) []) ops
}.

(** The rows that the others add before the iterator is created, and before the last of [n] writes. *)
Definition rows_open {T} (at_ : nat -> list T) (open : list T) (k : nat) : list T := flat_map at_ (seq 0 k) ++ open.
Definition rows_all {T} (at_ : nat -> list T) (open : list T) (k n : nat) : list T := rows_open at_ open k ++ flat_map at_ (seq k (n - k)).

(** Rows that can be added to the table [m]: no two with one primary key, none with one that is taken. *)
Definition new_rows {T} (sc : schema T) (m : tmap T) (rows : list T) : Prop :=
  NoDup (map (s_pk sc) rows) /\ forall r, In r rows -> m (s_pk sc r) = None /\ row_ok sc r.
