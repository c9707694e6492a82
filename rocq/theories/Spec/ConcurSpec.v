(** What concurrent calls should look like: calls one after another. *)

From Coq Require Import List NArith Bool Sorting.Permutation.
From Verif.Model Require Import Bytes Go Keys Pebble Index Table Concur.
From Verif.Spec Require Import KeySpec TableSpec HistSpec.
Import ListNotations.

(** Calls one after another: the database and filter afterwards and what each returned. *)
Fixpoint run_serial {T F} (tb : table T F) (db : kv) (fl : F) (h : list (env T * call T)) : kv * F * list (res unit) :=
  match h with
  | [] => (db, fl, [])
  | (ev, c) :: h' =>
      let '(w, r) := run_call tb ev db fl None c in
      let '(db', fl', rs) := run_serial tb (r_db w) (r_flt w) h' in
      (db', fl', r :: rs)
  end.

(** What a call returns when it is the only one. *)
Definition solo {T F} (tb : table T F) (db : kv) (fl : F) (ec : env T * call T) : res unit :=
  snd (run_call tb (fst ec) db fl None (snd ec)).

(** Two calls have no primary key in common. *)
Definition disjoint {T} (sc : schema T) (c d : call T) : Prop :=
  forall r r', In r (rows_of c) -> In r' (rows_of d) -> s_pk sc r <> s_pk sc r'.

(** The calls that have returned, with what they returned. *)
Definition finished {T F} (y : sys (T:=T) (F:=F)) : list (env T * call T * res unit) :=
  flat_map (fun th => match th_res th with Some r => [(th_env th, th_call th, r)] | None => [] end) (y_threads y).

(** What happened is what happens when the calls that have returned are made one after
    another in some order. *)
Definition serializable {T F} (tb : table T F) (db : kv) (fl : F) (y : sys (T:=T) (F:=F)) : Prop :=
  exists o fl', Permutation o (finished y) /\ run_serial tb db fl (map fst o) = (y_db y, fl', map snd o).

(** The calls in the order in which they return. *)
Fixpoint returned {T F} (tb : table T F) (y : sys (T:=T) (F:=F)) (sch : list nat) : list (env T * call T * res unit) :=
  match sch with
  | [] => []
  | i :: sch' =>
      (match nth_error (y_threads y) i, nth_error (y_threads (step tb y i)) i with
       | Some t, Some t' =>
           match th_res t, th_res t' with
           | None, Some r => [(th_env t, th_call t, r)]
           | _, _ => []
           end
       | _, _ => []
       end) ++ returned tb (step tb y i) sch'
  end.

(** The rows, not looking at index entries. *)
Definition rows_are {T} (sc : schema T) (db : kv) (m : tmap T) : Prop :=
  forall p, kv_get db (row_key sc p) = match m p with Some r => s_val sc r | None => None end.

(** Calls that do not compute the stored row from the one read. *)
Definition blind {T} (c : call T) : Prop :=
  match c with CUpsert _ _ => False | _ => True end.

(** No primary key twice in one Insert, Update or Upsert. *)
Definition once {T} (sc : schema T) (c : call T) : Prop :=
  match c with CDelete _ => True | _ => NoDup (map (s_pk sc) (rows_of c)) end.

(** Calls whose onConflict function keeps the primary key. *)
Definition keeps_key {T} (sc : schema T) (c : call T) : Prop :=
  match c with CUpsert f _ => forall old r, s_pk sc old = s_pk sc r -> s_pk sc (f old r) = s_pk sc r | _ => True end.

(** The table content [m] has rows under their own keys only, which can be encoded. *)
Definition own_keys {T} (sc : schema T) (m : tmap T) : Prop :=
  forall p r, m p = Some r -> s_pk sc r = p /\ s_val sc r <> None.

(** The rows [l'] that a call given the rows [l] works with, if the table content was at times one of [ms]: Upsert merges each row with the
    version it has found at one of these times, the others take the row as given. *)
Definition settled {T} (sc : schema T) (ms : list (tmap T)) (c : call T) (l l' : list T) : Prop :=
  match c with
  | CUpsert f _ => Forall2 (fun r w => exists m, In m ms /\ w = match m (s_pk sc r) with Some old => f old r | None => r end) l l'
  | _ => l' = l
  end.

(** What the call then does to the content. *)
Definition lands {T} (sc : schema T) (m : tmap T) (c : call T) (l' : list T) : tmap T :=
  match c with CDelete _ => removes sc m l' | _ => puts sc m l' end.

(** Calls that return one after another, [true] for success, explain the content at the end: each that succeeds writes its rows over the
    content, those of an Upsert computed from contents it had before, not necessarily the last. [ms]: the contents so far, the last one first. *)
Inductive explained {T} (sc : schema T) : list (tmap T) -> list (call T * bool) -> tmap T -> Prop :=
| ex_end m ms : explained sc (m :: ms) [] m
| ex_failed ms c o m' : explained sc ms o m' -> explained sc ms ((c, false) :: o) m'
| ex_done m ms c l' o m' : settled sc (m :: ms) c (rows_of c) l' -> explained sc (lands sc m c l' :: m :: ms) o m' ->
    explained sc (m :: ms) ((c, true) :: o) m'.
