(** When a FilterInitializable may be trusted. *)

From Coq Require Import List Bool.
From Verif.Model Require Import Bytes Go Table FilterLife.
Import ListNotations.

(** Some call of Initialize has returned without error. *)
Definition readied {S F} (os : list (iz_call S F)) (rs : list (res unit)) : Prop :=
  exists i init, nth_error os i = Some (ICInit init) /\ nth_error rs i = Some (Ok tt).
