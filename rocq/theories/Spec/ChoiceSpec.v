(** Which rows a query asks for, whatever index it uses. *)

From Coq Require Import List NArith Bool.
From Verif.Model Require Import Bytes Go Keys Index Table Scan Query.
From Verif.Spec Require Import StoreSpec TableSpec ScanSpec QuerySpec.
Import ListNotations.

(** The index of the query has [r], its selector selects [r] and its filter accepts [r]. *)
Definition asks_for {T F} (tb : table T F) (q : query T) (r : T) : Prop :=
  si_filter (sindex_of (q_index q)) r = true /\
  (exists P, In P (selections (schema_of tb) (sindex_of (q_index q)) (Byte.eqb (ix_id (q_index q)) x00) (q_sel q)) /\ P r) /\
  match q_filter q with Some f => f r = true | None => True end.

(** A strict order in which of two stored rows one is always less. *)
Definition tells_apart {T} (sc : schema T) (m : tmap T) (less : T -> T -> bool) : Prop :=
  strict_weak less /\ forall a b, m (s_pk sc a) = Some a -> m (s_pk sc b) = Some b -> a <> b -> less a b = true \/ less b a = true.

(** No stored row is selected by two points or ranges of the query: always with one point or range. *)
Definition once {T F} (tb : table T F) (m : tmap T) (q : query T) : Prop :=
  ForallOrdPairs (fun P Q : T -> Prop => forall r, m (s_pk (schema_of tb) r) = Some r -> si_filter (sindex_of (q_index q)) r = true -> P r -> Q r -> False)
    (selections (schema_of tb) (sindex_of (q_index q)) (Byte.eqb (ix_id (q_index q)) x00) (q_sel q)).
