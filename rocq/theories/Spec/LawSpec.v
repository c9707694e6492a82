(** The same call with other rows. *)

From Coq Require Import List NArith Bool.
From Verif.Model Require Import Bytes Go Pebble Table.
From Verif.Spec Require Import KeySpec StoreSpec TableSpec HistSpec.
Import ListNotations.

Definition with_rows {T} (c : call T) (rows : list T) : call T :=
  match c with
  | CInsert _ => CInsert rows
  | CUpdate _ => CUpdate rows
  | CUpsert f _ => CUpsert f rows
  | CDelete _ => CDelete rows
  end.

(** Several calls one after the other, none of them disturbed, with what they answer. *)
Section Runs.
  Context {T F : Type} (tb : table T F).

  Inductive quiet_runs : kv -> F -> list (call T * res unit) -> kv -> F -> Prop :=
  | runs_end db fl : quiet_runs db fl [] db fl
  | runs_call db fl ev c w r cs db' fl' :
      env_ok ev -> quiet ev -> run_call tb ev db fl None c = (w, r) -> quiet_runs (r_db w) (r_flt w) cs db' fl' ->
      quiet_runs db fl ((c, r) :: cs) db' fl'.
End Runs.
