(** The parts of an intersecting query. *)

From Coq Require Import List.
From Verif.Model Require Import Index Query.
Import ListNotations.

(** Two queries have the same parts, in any order and any number of times: a part is an index and a selector on it. *)
Definition same_parts {T} (q q' : query T) : Prop :=
  forall i s, (exists x, In x (q :: q_inter q) /\ q_index x = i /\ q_sel x = s) <-> (exists x, In x (q' :: q_inter q') /\ q_index x = i /\ q_sel x = s).
