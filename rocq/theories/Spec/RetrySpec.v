(** Making the same write call again and again. *)

From Coq Require Import List NArith Bool.
From Verif.Model Require Import Bytes Go Keys Pebble Index Table.
From Verif.Spec Require Import KeySpec StoreSpec TableSpec HistSpec.
Import ListNotations.

Section Retry.
  Context {T F : Type} (tb : table T F).

  (** One call is made until somebody is satisfied: a try ends with an answer, or the process dies in it, before or after the call took
      effect, and the next process has another filter that covers the database. [Some r]: the answer of that try. *)
  Inductive tries (c : call T) : kv -> F -> list (option (res unit)) -> kv -> F -> Prop :=
  | tries_end db fl : tries c db fl [] db fl
  | tries_told db fl ev w r rs db' fl' : env_ok ev -> run_call tb ev db fl None c = (w, r) -> tries c (r_db w) (r_flt w) rs db' fl' ->
      tries c db fl (Some r :: rs) db' fl'
  | tries_died db fl ev w r cur fl1 rs db' fl' : env_ok ev -> run_call tb ev db fl None c = (w, r) -> cur = db \/ cur = r_db w ->
      covers tb fl1 cur -> tries c cur fl1 rs db' fl' -> tries c db fl (None :: rs) db' fl'.

  (** Merging a row into what merging it left changes nothing. *)
  Definition repeatable (m : tmap T) (c : call T) : Prop :=
    match c with
    | CUpsert f l => forall r, In r l -> f (stored_row (schema_of tb) m c r) r = stored_row (schema_of tb) m c r
    | _ => True
    end.

  (** The rows of the two calls have different keys. *)
  Definition no_common_key (c o : call T) : Prop :=
    forall r x, In r (rows_of c) -> In x (rows_of o) -> s_pk (schema_of tb) r <> s_pk (schema_of tb) x.

  (** The same while other calls are made, on other rows: [before] and [after] list those made so far, with their success. *)
  Inductive tries_among (c : call T) (m : tmap T) : list (call T * bool) -> kv -> F -> list (option (res unit)) -> list (call T * bool) -> kv -> F -> Prop :=
  | among_end os db fl : tries_among c m os db fl [] os db fl
  | among_told os db fl ev w r rs after db' fl' : env_ok ev -> run_call tb ev db fl None c = (w, r) ->
      tries_among c m os (r_db w) (r_flt w) rs after db' fl' -> tries_among c m os db fl (Some r :: rs) after db' fl'
  | among_died os db fl ev w r cur fl1 rs after db' fl' : env_ok ev -> run_call tb ev db fl None c = (w, r) -> cur = db \/ cur = r_db w ->
      covers tb fl1 cur -> tries_among c m os cur fl1 rs after db' fl' -> tries_among c m os db fl (None :: rs) after db' fl'
  | among_other os db fl ev o w r rs after db' fl' : env_ok ev -> no_common_key c o -> admissible (schema_of tb) (outcome (schema_of tb) m os) o ->
      run_call tb ev db fl None o = (w, r) -> tries_among c m (os ++ [(o, ok_of r)]) (r_db w) (r_flt w) rs after db' fl' ->
      tries_among c m os db fl rs after db' fl'.

  Definition is_insert (c : call T) : Prop := match c with CInsert _ => True | _ => False end.
End Retry.
