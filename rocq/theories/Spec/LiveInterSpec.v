(** What an intersecting query should return while the table changes. *)

From Coq Require Import List NArith Bool Sorting.Sorted.
From Verif.Model Require Import Bytes Go Keys Pebble Index Table Scan Query LiveScan.
From Verif.Spec Require Import KeySpec StoreSpec TableSpec ScanSpec QuerySpec LiveScanSpec.
Import ListNotations.

Section Seen.
  Context {T F : Type}.
  Variable tb : table T F.
  (** the table at each moment *)
  Variable ms : nat -> tmap T.

  (** The parts of an intersection, from number [i] on, and the rows each of them saw; [may] says which moments part [i] may have
      looked at. *)
  Inductive saw (may : nat -> nat -> Prop) : nat -> list (query T) -> list (list T) -> Prop :=
  | sn_nil i : saw may i [] []
  | sn_cons i q qs ks l ls : Forall (may i) ks ->
      listed tb ms (sindex_of (q_index q)) ks
        (selections (schema_of tb) (sindex_of (q_index q)) (Byte.eqb (ix_id (q_index q)) x00) (q_sel q)) l ->
      saw may (S i) qs ls -> saw may i (q :: qs) (l :: ls).
End Seen.

(** The primary keys that rows of all the lists have. *)
Definition common {T} (sc : schema T) (ls : list (list T)) (ks : list bytes) : Prop :=
  StronglySorted (fun a b => bcmp a b = Lt) ks /\
  forall k, In k ks <-> Forall (fun l => exists r, In r l /\ s_pk sc r = k) ls.

(** The rows stored under the keys; none if one of them is gone. *)
Fixpoint rows_at {T} (m : tmap T) (ks : list bytes) : option (list T) :=
  match ks with
  | [] => Some []
  | k :: ks' => match m k, rows_at m ks' with Some r, Some l => Some (r :: l) | _, _ => None end
  end.

(** The query, taken alone, wants the row. *)
Definition wants {T F} (tb : table T F) (q : query T) (r : T) : Prop :=
  si_filter (sindex_of (q_index q)) r = true /\
  exists P, In P (selections (schema_of tb) (sindex_of (q_index q)) (Byte.eqb (ix_id (q_index q)) x00) (q_sel q)) /\ P r.

(** Nothing but offset and limit is asked of the rows found. *)
Definition plain_rows {T} (q : query T) : bool :=
  match q_filter q, q_less q, q_after q with None, None, None => true | _, _, _ => false end.
