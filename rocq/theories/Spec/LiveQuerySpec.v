(** What a query without Intersects should return while the table changes. *)

From Coq Require Import List NArith Bool.
From Verif.Model Require Import Bytes Go Keys Pebble Index Table Scan LiveScan Query.
From Verif.Spec Require Import KeySpec StoreSpec TableSpec ScanSpec QuerySpec LiveScanSpec.
Import ListNotations.

(** Without filter and order the rows before the offset are passed over unread. *)
Definition ahead {T} (q : query T) : nat :=
  match q_filter q, q_less q with None, None => N.to_nat (q_offset q) | _, _ => 0 end.
Definition left_over {T} (q : query T) : N :=
  match q_filter q, q_less q with None, None => 0%N | _, _ => q_offset q end.

(** As [gathered], with [n] rounds before the first block. *)
Definition gathered_from {T F} (tb : table T F) (ms : nat -> tmap T) (gets : nat -> nat) (idx : index T) (n : nat) (l out : list T) (ok : bool) : Prop :=
  if Byte.eqb (ix_id idx) x00 then out = l /\ ok = true
  else fetched (schema_of tb) (t_prefetch tb) (fun n => ms (gets n)) n l (out, ok).

(** The rows read suffice for offset and limit. *)
Definition served {T} (q : query T) (rows : list T) : Prop :=
  q_less q = None /\ (0 < q_limit q)%N /\ (left_over q + q_limit q <= N.of_nat (length (keep (q_filter q) rows)))%N.

(** The answer when [rows] were read and then, unless [ok], a row was gone. *)
Inductive answered {T} (sc : schema T) (q : query T) (rows : list T) (ok : bool) : res (list T) -> Prop :=
| aw_done s s' : ok = true \/ served q rows -> ordered (q_less q) (keep (q_filter q) rows) s ->
    behind_opt sc (match q_less q with Some _ => q_after q | None => None end) s s' ->
    answered sc q rows ok (Ok (window (left_over q) (q_limit q) s'))
| aw_lost : ok = false -> ~ served q rows -> answered sc q rows ok (Err ENotFound).

(** [e] is 1 if the list has a row at the position of [a], otherwise 0. *)
Definition meets {T} (sc : schema T) (ix : sindex T) (a : T) (l : list T) (e : nat) : Prop :=
  (e = 1 /\ exists r, In r l /\ pos_cmp sc ix a r = Eq) \/ (e = 0 /\ forall r, In r l -> pos_cmp sc ix a r <> Eq).
