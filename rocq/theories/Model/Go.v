(** Go control flow: results, errors and machine integers. *)

From Coq Require Import List NArith ZArith Bool.
From Verif.Model Require Import Bytes.
Import ListNotations.

(** The errors that the modelled code can return. Messages are dropped, the
    offending key is kept where the code prints it.
    - [ENotFound]     /repo/bond.go (ErrNotFound), /repo/table.go:843, 868, 873, 960, 970
    - [EExists]       /repo/table.go:407
    - [EMissing]      /repo/table.go:530
    - [ESerialize]    /repo/table.go:412-415, 541-544, 739-742
    - [EDeserialize]  /repo/table.go:533-536, 718-721, 880, 911-913, 1050, 1121
    - [ECtx]          /repo/table.go:401, 519, 605, 705, 1059, 1162
    - [ECommit]       error of pebble's batch commit, /repo/table.go:443-446
    - [ENotIndexed]   pebble's error for reading a non-indexed batch (pebble batch.go: ErrNotIndexed)
    - [ESelector]     /repo/table.go:937, /repo/index.go:276
    - [EDuplicateIndex] /repo/table.go:253
    - [EUser]         an error returned by a user callback, /repo/table.go:1063-1067
    - [EQuery]        /repo/query.go:393-412
    - [EOther]        any other error value *)
Inductive error :=
| ENotFound
| EExists (pk : bytes)
| EMissing (pk : bytes)
| ESerialize
| EDeserialize
| ECtx
| ECommit
| ENotIndexed
| ESelector
| EDuplicateIndex (id : byte)
| EUser (n : nat)
| EQuery
| EOther.

(** A Go call result: a value, an error value, or a panic (run-time panic of
    slice bounds, nil dereference, or explicit panic). [Diverge] is returned when
    a loop with explicit fuel runs out of it; theorems exclude it or, where the
    Go loop really does not terminate, exhibit it for every fuel.
    Models the (value, error) return convention, e.g. /repo/table.go:836-846. *)
Inductive res (A : Type) :=
| Ok (a : A)
| Err (e : error)
| Panic
| Diverge.
Arguments Ok {A} a.
Arguments Err {A} e.
Arguments Panic {A}.
Arguments Diverge {A}.

(** Two's-complement conversion to a signed integer of [w] bytes
    (Go intN arithmetic wraps); /repo/keys.go:29, 46, 63 and /repo/index.go:31, 40, 49. *)
Definition to_signed (w : nat) (z : Z) : Z :=
  let m := (256 ^ Z.of_nat w)%Z in
  let r := (z mod m)%Z in
  if (r <? m / 2)%Z then r else (r - m)%Z.

(** Go [uintN(i)] of a signed integer: value modulo 2^N; /repo/keys.go:33, 50, 67. *)
Definition to_unsigned (w : nat) (z : Z) : N :=
  Z.to_N (z mod 256 ^ Z.of_nat w)%Z.

(** Go unary [^] on signed integers: bitwise complement; /repo/keys.go:29. *)
Definition z_not (z : Z) : Z := (- z - 1)%Z.

(** Range of a Go signed integer of [w] bytes; /repo/keys.go:20, 37, 54 (parameter types). *)
Definition int_range (w : nat) (z : Z) : Prop :=
  (- (256 ^ Z.of_nat w / 2) <= z < 256 ^ Z.of_nat w / 2)%Z.

(** Range of a Go unsigned integer of [w] bytes; /repo/keys.go:71, 78, 85 (parameter types). *)
Definition uint_range (w : nat) (n : N) : Prop := (n < 256 ^ N.of_nat w)%N.
