(** What calls do to the rows of a table, whatever they are given; the indexes are
    left aside. *)

From Coq Require Import List NArith Bool.
From Verif.Model Require Import Bytes Go Keys Pebble Index Table.
From Verif.Spec Require Import KeySpec TableSpec HistSpec.
Import ListNotations.

Section Rows.
  Context {T : Type}.
  Variable sc : schema T.

  (** The rows in the store are those of [m]. The row under a key need not have that
      key itself, as onConflict may change it. *)
  Record RowsAre (db : kv) (m : tmap T) : Prop := MkRows {
    ra_some : forall p r, m p = Some r -> s_val sc r <> None;
    ra_get : forall p, kv_get db (row_key sc p) = match m p with Some r => s_val sc r | None => None end;
    ra_data : forall rest v, kv_get db (s_id sc :: x00 :: rest) = Some v -> exists p, s_id sc :: x00 :: rest = row_key sc p
  }.

  (** [m'] is [m] where each key of [rows] holds [g r] for one [r] of the rows with that key. *)
  Definition one_of (g : T -> T) (rows : list T) (m m' : tmap T) : Prop :=
    forall p, (exists r, In r rows /\ s_pk sc r = p /\ m' p = Some (g r)) \/
              (~ In p (map (s_pk sc) rows) /\ m' p = m p).

  (** One chunk after another. *)
  Fixpoint chunkwise (g : list T -> T -> T) (cs : list (list T)) (m m' : tmap T) : Prop :=
    match cs with
    | [] => forall p, m' p = m p
    | c :: cs' => exists m1, one_of (g c) c m m1 /\ chunkwise g cs' m1 m'
    end.

  (** A call that succeeded, with chunks of [n] rows. *)
  Definition call_rows (n : nat) (c : call T) (m m' : tmap T) : Prop :=
    match c with
    | CInsert l => exists cs, is_chunks n l cs /\ Forall (fun c => NoDup (map (s_pk sc) c)) cs /\
        (forall r, In r l -> m (s_pk sc r) = None) /\ chunkwise (fun _ r => r) cs m m'
    | CUpdate l => exists cs, is_chunks n l cs /\
        (forall r, In r l -> m (s_pk sc r) <> None) /\ chunkwise (fun _ r => r) cs m m'
    | CUpsert f l => exists cs, is_chunks n l cs /\ chunkwise (fun c r => upserted sc f m c r) cs m m'
    | CDelete l => forall p, m' p = removes sc m l p
    end.

  (** A history of calls with the sizes of their chunks, and which of them succeeded. *)
  Fixpoint hist_rows (ns : list nat) (oks : list (call T * bool)) (m m' : tmap T) : Prop :=
    match ns, oks with
    | n :: ns', (c, true) :: oks' => exists m1, call_rows n c m m1 /\ hist_rows ns' oks' m1 m'
    | _ :: ns', (c, false) :: oks' => hist_rows ns' oks' m m'
    | _, _ => forall p, m' p = m p
    end.
End Rows.
