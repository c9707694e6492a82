(** The life of one FilterInitializable: keys are added to it, it is initialized and saved, in any order and any number of times. *)

From Coq Require Import List Bool.
From Verif.Model Require Import Bytes Go Table Bloom.
Import ListNotations.

(** A call of Add, of Initialize or of Save, /repo/filter.go:24-54. What FilterInitialize and the Save of the filter inside do in
    that call (they read tables, fail, stop) comes with it. *)
Inductive iz_call {S F : Type} :=
| ICAdd (k : bytes)
| ICInit (init : S -> F -> S * F * res unit)
| ICSave (save : S -> F -> S * F * res unit).
Arguments iz_call : clear implicits.

(** One call and its result; /repo/filter.go:24-54. *)
Definition iz_step {S F} (f : filt F) (s : S) (z : initializable F) (o : iz_call S F) : S * initializable F * res unit :=
  match o with
  | ICAdd k => (s, f_add (iz_filt f) z k, Ok tt)
  | ICInit init => iz_init init s z
  | ICSave save => iz_save save s z
  end.

(** Calls one after another, with their results; /repo/filter.go:24-54. *)
Fixpoint iz_run {S F} (f : filt F) (s : S) (z : initializable F) (os : list (iz_call S F)) : S * initializable F * list (res unit) :=
  match os with
  | [] => (s, z, [])
  | o :: os' =>
      let '(s1, z1, r) := iz_step f s z o in
      let '(s2, z2, rs) := iz_run f s1 z1 os' in (s2, z2, r :: rs)
  end.
