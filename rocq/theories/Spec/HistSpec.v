(** Write calls and histories of calls, described on abstract tables. *)

From Coq Require Import List NArith Bool.
From Verif.Model Require Import Bytes Go Keys Pebble Index Table.
From Verif.Spec Require Import KeySpec TableSpec.
Import ListNotations.

(** A write call as the user makes it. *)
Inductive call (T : Type) :=
| CInsert (rows : list T)
| CUpdate (rows : list T)
| CUpsert (on_conflict : T -> T -> T) (rows : list T)
| CDelete (rows : list T).
Arguments CInsert {T}.
Arguments CUpdate {T}.
Arguments CUpsert {T}.
Arguments CDelete {T}.

Section Hist.
  Context {T : Type}.
  Variable sc : schema T.

  Definition rows_of (c : call T) : list T :=
    match c with CInsert l | CUpdate l | CUpsert _ l | CDelete l => l end.

  (** The record given to Delete has the index entries of the stored one. *)
  Definition same_index_entries (r stored : T) : Prop :=
    forall ix, In ix (s_indexes sc) -> si_filter ix stored = true ->
      si_filter ix r = true /\ entry_key sc ix r = entry_key sc ix stored.

  (** The calls the theorems are about: pairwise distinct primary keys, index
      parts that fit their length fields, an onConflict that keeps the primary
      key, and Delete given records that agree with the stored ones on the indexes. *)
  Definition admissible (m : tmap T) (c : call T) : Prop :=
    Forall (row_ok sc) (rows_of c) /\
    match c with
    | CInsert l | CUpdate l => NoDup (map (s_pk sc) l)
    | CUpsert f l => NoDup (map (s_pk sc) l) /\
        (forall old r, s_pk sc old = s_pk sc r -> row_ok sc old -> row_ok sc r ->
           s_pk sc (f old r) = s_pk sc r /\ row_ok sc (f old r))
    | CDelete l => forall r o, In r l -> m (s_pk sc r) = Some o -> same_index_entries r o
    end.

  (** The same without a condition on the records given to Delete. *)
  Definition tame (c : call T) : Prop :=
    match c with
    | CDelete l => Forall (row_ok sc) l
    | _ => admissible (fun _ => None) c
    end.

  (** What a history with such Deletes leaves: exactly the rows of [m], all of
      their index entries, and no other entry than ones of rows that a Delete of
      [dels] was given a record for with the right primary key and another entry. *)
  Record RepOver (dels : list (list T)) (db : kv) (m : tmap T) : Prop := MkOver {
    ov_rows : forall pk r, m pk = Some r -> s_pk sc r = pk /\ row_ok sc r /\ s_val sc r <> None;
    ov_get : forall pk, kv_get db (row_key sc pk) = match m pk with Some r => s_val sc r | None => None end;
    ov_data : forall rest v, kv_get db (s_id sc :: x00 :: rest) = Some v ->
                exists pk, s_id sc :: x00 :: rest = row_key sc pk;
    ov_entries : forall ix pk r, In ix (s_indexes sc) -> m pk = Some r -> si_filter ix r = true ->
                kv_get db (entry_key sc ix r) = Some [];
    ov_others : forall ix rest v, In ix (s_indexes sc) -> kv_get db (s_id sc :: si_id ix :: rest) = Some v ->
                v = [] /\ exists r, si_filter ix r = true /\ s_id sc :: si_id ix :: rest = entry_key sc ix r /\
                  (m (s_pk sc r) = Some r \/
                   exists l d, In l dels /\ In d l /\ s_pk sc d = s_pk sc r /\
                     ~ (si_filter ix d = true /\ entry_key sc ix d = entry_key sc ix r))
  }.

  (** The records given to the Deletes that succeeded. *)
  Fixpoint deleted (oks : list (call T * bool)) : list (list T) :=
    match oks with
    | [] => []
    | (CDelete l, true) :: oks' => l :: deleted oks'
    | _ :: oks' => deleted oks'
    end.

  (** Which rows a call stores. *)
  Definition stored_row (m : tmap T) (c : call T) (r : T) : T :=
    match c with
    | CUpsert f _ => match m (s_pk sc r) with Some old => f old r | None => r end
    | _ => r
    end.

  (** When a call must succeed. *)
  Definition succeeds (m : tmap T) (c : call T) : Prop :=
    match c with
    | CInsert l => forall r, In r l -> m (s_pk sc r) = None /\ s_val sc r <> None
    | CUpdate l => forall r, In r l -> m (s_pk sc r) <> None /\ s_val sc r <> None
    | CUpsert f l => forall r, In r l -> s_val sc (stored_row m c r) <> None
    | CDelete l => True
    end.

  (** What a successful call does. *)
  Definition effect (m : tmap T) (c : call T) : tmap T :=
    match c with
    | CInsert l | CUpdate l => puts sc m l
    | CUpsert f l => merges sc f m l
    | CDelete l => removes sc m l
    end.

  (** Abstract outcome of a history: [oks] tells which calls succeeded. *)
  Fixpoint outcome (m : tmap T) (cs : list (call T * bool)) : tmap T :=
    match cs with
    | [] => m
    | (c, true) :: cs' => outcome (effect m c) cs'
    | (c, false) :: cs' => outcome m cs'
    end.

  Fixpoint admissible_hist (m : tmap T) (cs : list (call T * bool)) : Prop :=
    match cs with
    | [] => True
    | (c, ok) :: cs' => admissible m c /\ admissible_hist (if ok then effect m c else m) cs'
    end.

  Definition empty_map : tmap T := fun _ => None.

  (** All calls of a list succeed, and what they do together. *)
  Fixpoint all_succeed (m : tmap T) (cs : list (call T)) : Prop :=
    match cs with
    | [] => True
    | c :: cs' => admissible m c /\ succeeds m c /\ all_succeed (effect m c) cs'
    end.

  Fixpoint total_effect (m : tmap T) (cs : list (call T)) : tmap T :=
    match cs with
    | [] => m
    | c :: cs' => total_effect (effect m c) cs'
    end.
End Hist.

(** Making a call on a table. *)
Definition run_call {T F} (tb : table T F) (ev : env T) (db : kv) (fl : F) (ob : option batch) (c : call T)
    : wres (F:=F) * res unit :=
  match c with
  | CInsert l => insert tb ev db fl ob l
  | CUpdate l => update tb ev db fl ob l
  | CUpsert f l => upsert tb ev f db fl ob l
  | CDelete l => delete tb ev db fl ob l
  end.

(** Did the call return without error? *)
Definition ok_of {A} (r : res A) : bool := match r with Ok _ => true | _ => false end.

(** A history of calls without batch, each with its own environment: the final
    store and filter, and which calls succeeded. *)
Fixpoint run_hist {T F} (tb : table T F) (db : kv) (fl : F) (h : list (env T * call T))
    : kv * F * list (call T * bool) :=
  match h with
  | [] => (db, fl, [])
  | (ev, c) :: h' =>
      let '(w, r) := run_call tb ev db fl None c in
      let '(db', fl', oks) := run_hist tb (r_db w) (r_flt w) h' in
      (db', fl', (c, ok_of r) :: oks)
  end.

(** A history of calls given one batch: the batch and filter afterwards, and which
    calls succeeded. *)
Fixpoint run_batch_hist {T F} (tb : table T F) (db : kv) (fl : F) (b : batch) (h : list (env T * call T))
    : batch * F * list (call T * bool) :=
  match h with
  | [] => (b, fl, [])
  | (ev, c) :: h' =>
      let '(w, r) := run_call tb ev db fl (Some b) c in
      let b1 := match r_batch w with Some b1 => b1 | None => b end in
      let '(b', fl', oks) := run_batch_hist tb db (r_flt w) b1 h' in
      (b', fl', (c, ok_of r) :: oks)
  end.
