(** Vocabulary for the key properties: what a key field means and how tuples of
    field values compare. Independent of the encoders in Model/Keys.v, except for
    the type [field] of field values. *)

From Coq Require Import List NArith ZArith Bool.
From Verif.Model Require Import Bytes Keys.
Import ListNotations.

(** Column types of a composite key; one per AddXxxField method of /repo/keys.go:20-134. *)
Inductive ftype :=
| TInt64 | TInt32 | TInt16 | TUint64 | TUint32 | TUint16 | TByte | TBytes | TBigInt (bits : N).

(** [f] is a legal value of column type [ty] (Go's static types give the ranges;
    a big integer must fit its declared width, /repo/keys.go:120-124). *)
Definition has_type (ty : ftype) (f : field) : Prop :=
  match ty, f with
  | TInt64, FInt64 i => (- 2 ^ 63 <= i < 2 ^ 63)%Z
  | TInt32, FInt32 i => (- 2 ^ 31 <= i < 2 ^ 31)%Z
  | TInt16, FInt16 i => (- 2 ^ 15 <= i < 2 ^ 15)%Z
  | TUint64, FUint64 i => (i < 2 ^ 64)%N
  | TUint32, FUint32 i => (i < 2 ^ 32)%N
  | TUint16, FUint16 i => (i < 2 ^ 16)%N
  | TByte, FByte _ => True
  | TBytes, FBytes _ => True
  | TBigInt bits, FBigInt i bits' => bits' = bits /\ (Z.abs i < 256 ^ Z.of_N (bits / 8))%Z
  | _, _ => False
  end.

(** A column whose encoding has no fixed width (/repo/keys.go:98-108). *)
Definition is_var (ty : ftype) : bool := match ty with TBytes => true | _ => false end.

(** Number of variable-width columns (/repo/keys.go:98-108). *)
Fixpoint var_count (s : list ftype) : nat :=
  match s with
  | [] => O
  | ty :: s' => (if is_var ty then 1 else 0) + var_count s'
  end.

(** All columns but the last are fixed width (/repo/keys.go:98-108). *)
Fixpoint var_only_last (s : list ftype) : Prop :=
  match s with
  | [] => True
  | [_] => True
  | ty :: s' => is_var ty = false /\ var_only_last s'
  end.

(** How two field values of the same column compare: numerically, or
    lexicographically for byte strings. *)
Definition field_cmp (f g : field) : comparison :=
  match f, g with
  | FInt64 i, FInt64 j => Z.compare i j
  | FInt32 i, FInt32 j => Z.compare i j
  | FInt16 i, FInt16 j => Z.compare i j
  | FUint64 i, FUint64 j => N.compare i j
  | FUint32 i, FUint32 j => N.compare i j
  | FUint16 i, FUint16 j => N.compare i j
  | FByte x, FByte y => N.compare (Byte.to_N x) (Byte.to_N y)
  | FBytes l, FBytes m => bcmp l m
  | FBigInt i _, FBigInt j _ => Z.compare i j
  | _, _ => Eq
  end.

(** Tuples compare field by field. *)
Fixpoint tuple_cmp (fs gs : list field) : comparison :=
  match fs, gs with
  | f :: fs', g :: gs' => match field_cmp f g with Eq => tuple_cmp fs' gs' | c => c end
  | _, _ => Eq
  end.

(** The physical layout of a row or index key as documented by its decoder:
    table, index, 4-byte length and index part, 4-byte length and order part,
    primary key (/repo/keys.go:257-288). *)
Definition spec_key (t i : byte) (ix ord pk : bytes) : bytes :=
  [t; i] ++ be_bytes 4 (N.of_nat (length ix)) ++ ix ++ be_bytes 4 (N.of_nat (length ord)) ++ ord ++ pk.

(** Shorter first, then lexicographic (shortlex); the order induced by a length
    prefix. *)
Definition shortlex (a b : bytes) : comparison :=
  match Nat.compare (length a) (length b) with Eq => bcmp a b | c => c end.

(** First difference wins (/repo/keys.go:197-221 writes the parts in this order). *)
Definition first_diff (cs : list comparison) : comparison :=
  fold_right (fun c d => match c with Eq => d | _ => c end) Eq cs.
