(** Number sequences: /repo/helpers.go:16-50. *)

From Coq Require Import List NArith ZArith Bool.
From Verif.Model Require Import Bytes Go.
Import ListNotations.
Local Open Scope N_scope.

(** /repo/helpers.go:16 NumberSequenceTimestampMask. *)
Definition seq_timestamp_mask : N := 0xFFFFFFFFFF000000.

(** /repo/helpers.go:17 NumberSequenceBitShift. *)
Definition seq_bit_shift : N := 24.

(** /repo/helpers.go:18 NumberSequenceSequenceNumberMask. *)
Definition seq_number_mask : N := 0x0000000000FFFFFF.

(** math.MaxUint64; /repo/helpers.go:32. *)
Definition max_uint64 : N := 2 ^ 64 - 1.

(** /repo/helpers.go:25-42 Next. [last] is lastId (0 in a new sequence), [sec] the
    value of time.Now().Unix(). The shift is on int64, the conversion to uint64
    keeps the bits. The result is (lastId afterwards, returned number, overflow?).
    The mutex makes calls atomic, so concurrent calls are a sequence of calls. *)
Definition seq_next (last : N) (sec : Z) : N * N * bool :=
  let next_id := Z.to_N ((sec * 2 ^ 24) mod 2 ^ 64)%Z in
  if N.land last seq_timestamp_mask =? N.land next_id seq_timestamp_mask then
    if N.land last seq_number_mask =? seq_number_mask then (last, max_uint64, true)
    else let next_id := (last + 1) mod 2 ^ 64 in (next_id, next_id, false)
  else (next_id, next_id, false).

(** /repo/helpers.go:44-46 Timestamp. *)
Definition seq_timestamp (ns : N) : N := N.shiftr ns seq_bit_shift.

(** /repo/helpers.go:48-50 SequenceNumber. *)
Definition seq_number (ns : N) : N := N.land ns seq_number_mask.

(** The returned numbers of a sequence of calls at the given seconds; [None] is the
    overflow error. /repo/helpers.go:25-42. *)
Fixpoint seq_calls (last : N) (secs : list Z) : list (option N) :=
  match secs with
  | [] => []
  | sec :: secs' =>
      let '(last', n, overflow) := seq_next last sec in
      (if overflow then None else Some n) :: seq_calls last' secs'
  end.

(** The ids of batches created or reset at the given seconds: the error of Next is
    dropped; /repo/batch.go:59, 86. *)
Fixpoint batch_ids (last : N) (secs : list Z) : list N :=
  match secs with
  | [] => []
  | sec :: secs' =>
      let '(last', n, _) := seq_next last sec in
      n :: batch_ids last' secs'
  end.
