(** Filters whose key prefix is a slice of the caller's memory: /repo/bloom/bloom_filter.go with Go's append. *)

From Coq Require Import List NArith Bool Arith Decimal DecimalNat.
From Verif.Model Require Import Bytes Go Keys Pebble Slices Bloom.
Import ListNotations.

(** A filter as NewBloomFilter makes it: it keeps the slice it is given, /repo/bloom/bloom_filter.go:42-77. *)
Record mconfig := MConfig { mc_m : N; mc_k : nat; mc_n : nat; mc_pre : slc }.

(** Its configuration as the memory shows it now; /repo/bloom/bloom_filter.go:32-40. *)
Definition mc_view (h : heap byte) (c : mconfig) : config := Config (mc_m c) (mc_k c) (mc_n c) (sl_read h (mc_pre c)).

Section Calls.
  Context {S : Type}.
  Variable grow : nat -> nat -> nat.
  Variable st : storer S.
  Variable cd : codec.

  (** append(keyPrefix, suffix...), copied at once into another buffer; /repo/bloom/bloom_filter.go:202-212 buildKey, buildBucketNumKey. *)
  Definition m_key (h : heap byte) (pre : slc) (suffix : bytes) : heap byte * bytes :=
    let '(h', s) := sl_append grow x00 h pre suffix in (h', sl_read h' s).

  (** /repo/bloom/bloom_filter.go:202-206 buildKey. *)
  Definition m_bucket_key (h : heap byte) (c : mconfig) (i : nat) : heap byte * bytes := m_key h (mc_pre c) (digits (Nat.to_uint i)).
  (** /repo/bloom/bloom_filter.go:208-212 buildBucketNumKey. *)
  Definition m_count_key (h : heap byte) (c : mconfig) : heap byte * bytes := m_key h (mc_pre c) [x62; x6e].

  Variable c : mconfig.

  (** The loop of Load; /repo/bloom/bloom_filter.go:107-133. *)
  Fixpoint m_load_buckets (h : heap byte) (s : S) (i : nat) (bs : list bucket) : heap byte * list bucket * res unit :=
    match bs with
    | [] => (h, [], Ok tt)
    | b :: bs' =>
        let '(h1, key) := m_bucket_key h c i in
        match st_get st s key with
        | None => (h1, bs, Err ENotFound)
        | Some data =>
            match unpack cd data with
            | None => (h1, bs, Err EOther)
            | Some (m, k, bits) =>
                if ((m =? mc_m c)%N && Nat.eqb k (mc_k c))%bool then
                  let '(h2, bs2, r) := m_load_buckets h1 s (Datatypes.S i) bs' in
                  (h2, Bucket (bk_changes b) true (bits ++ bk_bits b) :: bs2, r)
                else (h1, bs, Err EOther)
            end
        end
    end.

  (** /repo/bloom/bloom_filter.go:93-136 Load. *)
  Definition m_load (h : heap byte) (s : S) (bs : list bucket) : heap byte * list bucket * res unit :=
    let '(h1, key) := m_count_key h c in
    match st_get st s key with
    | None => (h1, bs, Err EOther)
    | Some v =>
        if Nat.ltb (length v) 8 then (h1, bs, Panic)
        else if N.eqb (be_val (firstn 8 v)) (N.of_nat (mc_n c)) then m_load_buckets h1 s 0 bs
        else (h1, bs, Err EOther)
    end.

  (** The loop of Save; /repo/bloom/bloom_filter.go:152-184. *)
  Fixpoint m_save_buckets (stop : option (nat * nat)) (n : nat) (h : heap byte) (s : S) (i : nat) (bs : list bucket) : heap byte * (S * list bucket * res unit) :=
    match bs with
    | [] => (h, (s, [], Ok tt))
    | b :: bs' =>
        if (negb (bk_changes b) && bk_written b)%bool then
          let '(h', (s', bs2, r)) := m_save_buckets stop n h s (Datatypes.S i) bs' in (h', (s', b :: bs2, r))
        else
          let '(h1, key) := m_bucket_key h c i in
          let '(s1, ok) := save_set st stop n s key (pack cd (mc_m c, mc_k c, bk_bits b)) in
          if ok then
            let '(h', (s', bs2, r)) := m_save_buckets stop (Datatypes.S n) h1 s1 (Datatypes.S i) bs' in
            (h', (s', Bucket false true (bk_bits b) :: bs2, r))
          else (h1, (s1, bs, Err EOther))
    end.

  (** /repo/bloom/bloom_filter.go:138-187 Save. *)
  Definition m_save (stop : option (nat * nat)) (h : heap byte) (s : S) (bs : list bucket) : heap byte * (S * list bucket * res unit) :=
    let '(h1, key) := m_count_key h c in
    let '(s1, ok) := save_set st stop 0 s key (be_bytes 8 (N.of_nat (mc_n c))) in
    if ok then m_save_buckets stop 1 h1 s1 0 bs else (h1, (s1, bs, Err EOther)).

  Variable hs : hashes.

  (** One call; Clear makes its own copy of the prefix, Add does not use it. /repo/bloom/bloom_filter.go:42-194. *)
  Definition m_step (h : heap byte) (s : S) (bs : list bucket) (o : bop_f) : heap byte * (S * list bucket * res unit) :=
    match o with
    | FAdd k => (h, (s, bloom_add hs (mc_view h c) bs k, Ok tt))
    | FSave stop => m_save stop h s bs
    | FLoad => let '(h', bs', r) := m_load h s bs in (h', (s, bs', r))
    | FClear => let '(s', r) := bloom_clear st (mc_view h c) s in (h, (s', bs, r))
    | FNew => (h, (s, new_bloom (mc_view h c), Ok tt))
    end.
End Calls.

(** Calls of several filters over one memory and one store: the [i]-th filter does [o]; /repo/bloom/bloom_filter.go:42-194. *)
Fixpoint m_run {S} grow (st : storer S) cd hs (fs : list mconfig) (h : heap byte) (s : S) (bss : list (list bucket)) (os : list (nat * bop_f))
    : heap byte * (S * list (list bucket) * list (res unit)) :=
  match os with
  | [] => (h, (s, bss, []))
  | (i, o) :: os' =>
      match nth_error fs i, nth_error bss i with
      | Some c, Some bs =>
          let '(h1, (s1, bs1, r)) := m_step grow st cd c hs h s bs o in
          let '(h2, (s2, bss2, rs)) := m_run grow st cd hs fs h1 s1 (firstn i bss ++ bs1 :: skipn (Datatypes.S i) bss) os' in
          (h2, (s2, bss2, r :: rs))
      | _, _ => m_run grow st cd hs fs h s bss os'
      end
  end.
