(** Type-erased scanners: /repo/table_utils.go. *)

From Coq Require Import List Bool.
From Verif.Model Require Import Bytes Go Keys Pebble Index Table Scan.
Import ListNotations.

(** A Selector[any] argument (/repo/table_utils.go:22, 26). Selector[T] only has a Type method (/repo/selector.go:14-16), so the
    assertion s.(Selector[T]) (/repo/table_utils.go:68, 106) holds for selectors of records ([TypedSel]) and for selectors built for any ([AnySel]). *)
Inductive any_selector (T A : Type) := TypedSel (s : selector T) | AnySel (s : selector A).
Arguments TypedSel {T A}.
Arguments AnySel {T A}.

Section Any.
  Context {T F A : Type}.
  Variable tb : table T F.
  Variable ev : env T.

  (** A record as a value of type any; /repo/table_utils.go:39, 75. *)
  Variable inj : T -> A.

  (** The index passed on, /repo/table_utils.go:47-66, 88-104 with NewIndex, /repo/index.go:145-165. The Index[any] is one made by
      NewIndex, so its functions are not nil. *)
  Definition any_index (i : index A) : index T :=
    new_index (ix_id i) (fun kb t => ix_key i kb (inj t)) (Some (fun o t => ix_order i o (inj t))) (Some (fun t => ix_filter i (inj t))).

  (** The callback passed on, /repo/table_utils.go:78-84, 106-112: Lazy.Get converts the record. *)
  Fixpoint lift_prog {W} (p : prog (T:=A) W) : prog (T:=T) W :=
    match p with
    | PRet s c e => PRet s c e
    | PGet k => PGet (fun v => lift_prog (k (match v with Ok r => Ok (inj r) | Err e => Err e | Panic => Panic | Diverge => Diverge end)))
    end.

  (** Scan and ScanIndex with the collected rows appended at the end, /repo/table_utils.go:31-43, 44-76. *)
  Definition any_collect (out : list T * res unit) (acc : list A) : list A * res unit :=
    match out with
    | (ttr, Ok _) => (acc ++ map inj ttr, Ok tt)
    | (_, r) => (acc, r)
    end.

  (** /repo/table_utils.go:31-43. *)
  Definition any_scan (fuel : nat) (db : kv) (fl : F) (acc : list A) (rev : bool) (ob : optb) : list A * res unit :=
    any_collect (scan tb ev fuel db fl [] rev ob) acc.

  (** /repo/table_utils.go:44-76. Index.Iter asserts the selector's full type (/repo/index.go:184, 201, 228, 247) and panics on one built for
      any; one of an unknown type is not asserted (/repo/index.go:274-277). *)
  Definition any_scan_index (fuel : nat) (db : kv) (fl : F) (i : index A) (sel : any_selector T A) (acc : list A) (rev : bool) (ob : optb)
      : list A * res unit :=
    match sel with
    | TypedSel s => any_collect (scan_index tb ev fuel db fl (any_index i) s [] rev ob) acc
    | AnySel SOther => any_collect (scan_index tb ev fuel db fl (any_index i) SOther [] rev ob) acc
    | AnySel _ => (acc, Panic)
    end.

  (** /repo/table_utils.go:77-85: optBatch is not passed on. *)
  Definition any_scan_for_each {W} (fuel : nat) (db : kv) (fl : F) (f : W -> bytes -> prog (T:=A) W) (rev : bool) (ob : optb) (s : W)
      : W * res unit :=
    scan_for_each tb ev fuel db fl (fun s k => lift_prog (f s k)) rev NoBatch s.

  (** /repo/table_utils.go:86-114: optBatch is not passed on. *)
  Definition any_scan_index_for_each {W} (fuel : nat) (db : kv) (fl : F) (i : index A) (sel : any_selector T A)
      (f : W -> bytes -> prog (T:=A) W) (rev : bool) (ob : optb) (s : W) : W * res unit :=
    match sel with
    | TypedSel sl => scan_index_for_each tb ev fuel db fl (any_index i) sl (fun s k => lift_prog (f s k)) rev NoBatch s
    | AnySel SOther => scan_index_for_each tb ev fuel db fl (any_index i) SOther (fun s k => lift_prog (f s k)) rev NoBatch s
    | AnySel _ => (s, Panic)
    end.
End Any.
