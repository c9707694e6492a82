(** A filter that asks for more. *)

From Coq Require Import List Bool.
From Verif.Model Require Import Query.
Import ListNotations.

(** Accepted by the filter a query has already, if any, and by [g]. *)
Definition also {A} (f : option (A -> bool)) (g : A -> bool) (r : A) : bool :=
  match f with Some f => f r && g r | None => g r end.
