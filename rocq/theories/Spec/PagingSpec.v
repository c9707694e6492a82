(** Paging through a table that changes between the pages. *)

From Coq Require Import List NArith Bool.
From Verif.Model Require Import Bytes Go Keys Pebble Index Table Scan Query.
From Verif.Spec Require Import KeySpec StoreSpec TableSpec ScanSpec QuerySpec.
Import ListNotations.

(** What one page reads: the database, the filter, the batch and the rows these make up. *)
Record moment (T F : Type) := Moment { mo_db : kv; mo_fl : F; mo_ob : optb; mo_rows : tmap T }.
Arguments Moment {T F}.
Arguments mo_db {T F}.
Arguments mo_fl {T F}.
Arguments mo_ob {T F}.
Arguments mo_rows {T F}.

(** Running a query page by page, each page after the last row of the one before, until a page
    is empty; page number [i] is run at moment [i]. The pages that are not empty. *)
Fixpoint live_pages {T} (run : nat -> option T -> res (list T)) (fuel i : nat) (after : option T) : res (list (list T)) :=
  match fuel with
  | O => Diverge
  | S fuel' =>
      match run i after with
      | Ok [] => Ok []
      | Ok (r :: l) => match live_pages run fuel' (S i) (Some (last l r)) with Ok ps => Ok ((r :: l) :: ps) | e => e end
      | Err e => Err e
      | Panic => Panic
      | Diverge => Diverge
      end
  end.

(** [r] is among the rows the query asks for when the table is [m]. *)
Definition asked {T F} (tb : table T F) (q : query T) (m : tmap T) (r : T) : Prop :=
  exists l, selected tb (q_index q) m (q_sel q) l /\ In r (keep (q_filter q) l).
