(** Pages by Offset and Limit. *)

From Coq Require Import List NArith.
From Verif.Model Require Import Go.
Import ListNotations.

(** The rows of the first [k] pages of [n] rows, [run o n] being the query with Offset [o] and Limit [n]; the first error ends it. *)
Fixpoint offset_pages {T} (run : N -> N -> res (list T)) (n : N) (k : nat) : res (list T) :=
  match k with
  | O => Ok []
  | S k' =>
      match offset_pages run n k' with
      | Ok l => match run (N.of_nat k' * n)%N n with Ok p => Ok (l ++ p) | e => e end
      | e => e
      end
  end.
