(** Which keys of a filter's file store are told apart. *)

From Coq Require Import String List Bool.
From Verif.Model Require Import Bytes.
Import ListNotations.

(** The letters, digits, underscore and dot. *)
Definition letters : list byte :=
  list_byte_of_string "ABCDEFGHIJKLMNOPQRSTUVWXYZabcdefghijklmnopqrstuvwxyz0123456789_.".

(** [k] without everything else. *)
Definition lettered (k : bytes) : bytes := filter (fun b => existsb (Byte.eqb b) letters) k.
