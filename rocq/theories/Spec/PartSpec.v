(** Calls of which only a part was done. *)

From Coq Require Import List Bool Sorting.Permutation Sorting.Sorted.
From Verif.Model Require Import Bytes Go Keys Pebble Index Table.
From Verif.Spec Require Import KeySpec TableSpec HistSpec.
Import ListNotations.

Section Part.
  Context {T : Type}.
  Variable sc : schema T.

  (** The same call with other rows. *)
  Definition with_rows (c : call T) (l : list T) : call T :=
    match c with
    | CInsert _ => CInsert l
    | CUpdate _ => CUpdate l
    | CUpsert f _ => CUpsert f l
    | CDelete _ => CDelete l
    end.

  (** [L] are the rows in the order in which the call handles them: one piece of [n] rows
      after another, each in the order of the keys; a Delete as they are given. *)
  Definition in_order (n : nat) (c : call T) (L : list T) : Prop :=
    match c with
    | CDelete l => L = l
    | _ => exists cs ss, is_chunks n (rows_of c) cs /\
        Forall2 (fun a b => Permutation a b /\
                   StronglySorted (fun x y => blt (row_key sc (s_pk sc x)) (row_key sc (s_pk sc y))) b) cs ss /\
        L = concat ss
    end.

  (** What is wrong with a row, and the error that tells it. *)
  Definition fault (m : tmap T) (c : call T) (r : T) (e : error) : Prop :=
    match c with
    | CInsert _ => e = EExists ([x00; x00; x00; x00] ++ s_pk sc r) /\ m (s_pk sc r) <> None \/
                   e = ESerialize /\ m (s_pk sc r) = None /\ s_val sc r = None
    | CUpdate _ => e = EMissing ([x00; x00; x00; x00] ++ s_pk sc r) /\ m (s_pk sc r) = None \/
                   e = ESerialize /\ m (s_pk sc r) <> None /\ s_val sc r = None
    | CUpsert _ _ => e = ESerialize /\ s_val sc (stored_row sc m c r) = None
    | CDelete _ => False
    end.

  (** The call handles the rows [l1] of [L] one after another, for which it would succeed and at
      which the context ([ctx i] tells if it is done at the i-th row) has not ended, and
      then stops: because there are no more, with the error of the context, or with that
      of the next row. *)
  Definition handles (ctx : nat -> bool) (m : tmap T) (c : call T) (L l1 : list T) (r : res unit) : Prop :=
    exists l2, L = l1 ++ l2 /\ succeeds sc m (with_rows c l1) /\ (forall i, i < length l1 -> ctx i = false) /\
      (r = Ok tt /\ l2 = [] \/
       exists x l3 e, l2 = x :: l3 /\ r = Err e /\
         (ctx (length l1) = true /\ e = ECtx \/ ctx (length l1) = false /\ fault m c x e)).

  (** [l1] is what was done of a call. *)
  Definition part_of (n : nat) (c : call T) (ok : bool) (l1 : list T) : Prop :=
    exists L l2, in_order n c L /\ L = l1 ++ l2 /\ (ok = true -> l2 = []).

  (** Calls one after another with pieces of [ns] rows, each done in part or completely. *)
  Fixpoint parts (ns : list nat) (m : tmap T) (oks : list (call T * bool)) (m' : tmap T) : Prop :=
    match ns, oks with
    | [], [] => m' = m
    | n :: ns', (c, ok) :: oks' => exists l1, part_of n c ok l1 /\ parts ns' (effect sc m (with_rows c l1)) oks' m'
    | _, _ => False
    end.

  (** Calls with distinct keys, and Deletes that match what is stored, whatever was done
      of the calls before. *)
  Fixpoint fit (m : tmap T) (cs : list (nat * call T)) : Prop :=
    match cs with
    | [] => True
    | (n, c) :: cs' => admissible sc m c /\ forall ok l1, part_of n c ok l1 -> fit (effect sc m (with_rows c l1)) cs'
    end.
End Part.
