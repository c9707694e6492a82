(** What one expects of functions given to OnClose. *)

From Coq Require Import List NArith Bool Arith.
From Verif.Model Require Import Bytes Pebble Closing.
Import ListNotations.

(** The function neither panics nor closes the database. *)
Definition calm (body : nat -> kv -> list act) (f : nat) : Prop := forall s a, In a (body f s) -> a <> AClose /\ a <> APanic.

Definition writes_of (l : list act) : list bop := flat_map (fun a => match a with AWrite o => [o] | _ => [] end) l.
Definition registers_of (l : list act) : list nat := flat_map (fun a => match a with ARegister f => [f] | _ => [] end) l.

(** The functions one after the other, each deciding by what the ones before it left: the content, the newly registered functions, and what is seen. *)
Inductive in_turn (body : nat -> kv -> list act) : kv -> list nat -> kv -> list nat -> list event -> Prop :=
| turn_end s : in_turn body s [] s [] []
| turn_next s f fs s' new tr :
    in_turn body (apply_ops s (writes_of (body f s))) fs s' new tr ->
    in_turn body s (f :: fs) s' (registers_of (body f s) ++ new) (ERan f :: map EWrote (writes_of (body f s)) ++ tr).

(** The functions that ran, in order. *)
Definition ran (tr : list event) : list nat := flat_map (fun e => match e with ERan f => [f] | _ => [] end) tr.
