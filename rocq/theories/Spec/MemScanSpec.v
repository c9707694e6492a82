(** How callbacks of scans may use the key bytes they are given. *)

From Coq Require Import List NArith.
From Verif.Model Require Import Bytes Go Keys Index Table Scan Slices Mem MemScan.
From Verif.Spec Require Import MemSpec.
Import ListNotations.

(** The index's functions on memory do what they do on values. *)
Record implements_index {T F} (mt : mtable T F) (idx : index T) : Prop := {
  ii_key : forall r, appends (mt_key mt idx r) (fun b => ix_key idx (new_kb b) r);
  ii_ord : forall r, appends (mt_ord mt idx r) (fun b => kb_buff (ix_order idx (new_kb b) r))
}.

(** The number of pairs of bounds a selector has. *)
Definition bounds_of {T} (sel : selector T) : nat :=
  match sel with SPoint _ | SRange _ _ => 1 | SPoints ps => length ps | SRanges rs => length rs | SOther => 0 end.

Section Calls.
  Context {T W : Type}.

  (** The callback [q] on memory does what [p] does when the key it was given, the slice [s], shows [b] whenever it looks. *)
  Inductive looks_any_time (b : bytes) (s : slc) : prog (T:=T) W -> mprog T W -> Prop :=
  | la_ret w c e : looks_any_time b s (PRet w c e) (MRet w c e)
  | la_read p k : looks_any_time b s p (k b) -> looks_any_time b s p (MRead s k)
  | la_get p k : (forall v, looks_any_time b s (p v) (k v)) -> looks_any_time b s (PGet p) (MGet k).

  (** The same, but it looks at the key only before Get, which it calls at most once. *)
  Inductive looks_first (b : bytes) (s : slc) : prog (T:=T) W -> mprog T W -> Prop :=
  | lf_ret w c e : looks_first b s (PRet w c e) (MRet w c e)
  | lf_read p k : looks_first b s p (k b) -> looks_first b s p (MRead s k)
  | lf_get p k : (forall v, exists w c e, p v = PRet w c e /\ k v = MRet w c e) -> looks_first b s (PGet p) (MGet k).
End Calls.
