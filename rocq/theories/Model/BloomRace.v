(** Concurrent Adds to a bloom filter: /repo/bloom/bloom_filter.go:79-85. All of them hold the read lock, so their accesses to the
    bits and to hasChanges interleave. One step is one access of a memory word, in program order (a weaker memory model allows
    more). *)

From Coq Require Import List NArith Bool Arith.
From Verif.Model Require Import Bytes Go Bloom.
Import ListNotations.

(** Where a call of Add is, /repo/bloom/bloom_filter.go:83-84 and the library's TestOrAdd and bitset.Set: about to test the
    [i]-th bit; about to read, or having read, the 64-bit word to set it; about to decide about hasChanges; about to write it; done. *)
Inductive apc :=
| ATest (i : nat) (present : bool)
| ARead (i : nat)
| AWrite (i : nat) (word : list N)
| AFlag (present : bool)
| ASet (v : bool)
| ADone.

(** Where a call starts; /repo/bloom/bloom_filter.go:84. *)
Definition astart (k : nat) : apc := match k with O => AFlag true | _ => ATest 0 true end.

(** The next bit, or the end of TestOrAdd; /repo/bloom/bloom_filter.go:84. *)
Definition anext (k i : nat) (present : bool) : apc := if Nat.ltb (S i) k then ATest (S i) present else AFlag present.

(** The bits in the same 64-bit word as [p]; library code behind /repo/bloom/bloom_filter.go:84. *)
Definition word_of (p : N) (bits : list N) : list N := filter (fun x => (x / 64 =? p / 64)%N) bits.
(** Overwriting that word; library code behind /repo/bloom/bloom_filter.go:84. *)
Definition put_word (p : N) (w bits : list N) : list N := w ++ filter (fun x => negb (x / 64 =? p / 64)%N) bits.

(** One access of one Add of [key] to its bucket; /repo/bloom/bloom_filter.go:84:
    [hasChanges = !TestOrAdd(key) || hasChanges], where || reads hasChanges only if the key was present. *)
Definition astep (h : hashes) (m : N) (k : nat) (key : bytes) (b : bucket) (pc : apc) : bucket * apc :=
  match pc with
  | ATest i present => (b, if bit_test (location h m key i) (bk_bits b) then anext k i present else ARead i)
  | ARead i => (b, AWrite i (word_of (location h m key i) (bk_bits b)))
  | AWrite i w =>
      (Bucket (bk_changes b) (bk_written b) (put_word (location h m key i) (location h m key i :: w) (bk_bits b)), anext k i false)
  | AFlag present => (b, if present then ASet (bk_changes b) else ASet true)
  | ASet v => (Bucket v (bk_written b) (bk_bits b), ADone)
  | ADone => (b, ADone)
  end.

(** A step of the [g]-th call; the calls are given by their keys. /repo/bloom/bloom_filter.go:79-85. *)
Definition race_step (h : hashes) (c : config) (keys : list bytes) (st : list bucket * list apc) (g : nat) : list bucket * list apc :=
  let '(bs, pcs) := st in
  match nth_error keys g, nth_error pcs g with
  | Some key, Some pc =>
      let i := h_bucket h key (c_n c) in
      match nth_error bs i with
      | Some b =>
          let '(b', pc') := astep h (c_m c) (c_k c) key b pc in
          (set_bucket bs i b', firstn g pcs ++ pc' :: skipn (S g) pcs)
      | None => st
      end
  | _, _ => st
  end.

(** A schedule: whose turn it is; /repo/bloom/bloom_filter.go:79-85. *)
Definition race_run (h : hashes) (c : config) (keys : list bytes) (bs : list bucket) (sched : list nat) : list bucket * list apc :=
  fold_left (race_step h c keys) sched (bs, map (fun _ => astart (c_k c)) keys).

(** All calls have returned; /repo/bloom/bloom_filter.go:85. *)
Definition all_done (pcs : list apc) : Prop := forall pc, In pc pcs -> pc = ADone.
