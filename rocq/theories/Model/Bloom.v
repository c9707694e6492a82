(** Bloom filters, their persistence and initialization: /repo/bloom/bloom_filter.go, /repo/filter.go. *)

From Coq Require Import List NArith Bool Arith Lia Decimal DecimalNat.
From Verif.Model Require Import Bytes Go Keys Pebble Index Table Scan AnyScan.
Import ListNotations.

(** ** The library github.com/bits-and-blooms/bloom/v3, called at /repo/bloom/bloom_filter.go:55, 84, 90, 113, 119, 127, 163 *)

(** The four 64-bit hash values of a key (murmur3 in the library), and the bucket a key goes to (CRC32 and jump hash,
    /repo/bloom/bloom_filter.go:196-200, 214-221). Both are left open: any functions. *)
Record hashes := Hashes { h_base : bytes -> N * N * N * N; h_bucket : bytes -> nat -> nat }.

(** location: the i-th bit of a key in a filter of [m] bits; library code behind /repo/bloom/bloom_filter.go:84, 90. *)
Definition location (h : hashes) (m : N) (key : bytes) (i : nat) : N :=
  let '(h0, h1, h2, h3) := h_base h key in
  let ii := N.of_nat i in
  let a := if (ii mod 2 =? 0)%N then h0 else h1 in
  let b := if (((ii + ii mod 2) mod 4) / 2 =? 0)%N then h2 else h3 in
  (((a + ii * b) mod 2 ^ 64) mod m)%N.

(** A bit set, as the list of the set bits; the filter created at /repo/bloom/bloom_filter.go:55. *)
Definition bit_test (p : N) (bits : list N) : bool := existsb (N.eqb p) bits.

(** Test, /repo/bloom/bloom_filter.go:90. *)
Definition bl_test (h : hashes) (m : N) (k : nat) (bits : list N) (key : bytes) : bool :=
  forallb (fun i => bit_test (location h m key i) bits) (seq 0 k).

(** TestOrAdd, /repo/bloom/bloom_filter.go:84: sets the bits one after another and tells if all were set. *)
Definition bl_test_or_add (h : hashes) (m : N) (k : nat) (bits : list N) (key : bytes) : list N * bool :=
  fold_left (fun '(bits, present) i =>
    let p := location h m key i in
    if bit_test p bits then (bits, present) else (p :: bits, false)) (seq 0 k) (bits, true).

(** A serialized filter: number of bits, number of hashes, bits; what WriteTo writes (/repo/bloom/bloom_filter.go:163). *)
Definition image := (N * nat * list N)%type.

(** WriteTo through zstd and back, /repo/bloom/bloom_filter.go:113-122, 157-171; [None] is an error. *)
Record codec := Codec { pack : image -> bytes; unpack : bytes -> option image }.

(** ** The filter *)

(** /repo/bloom/bloom_filter.go:22-30 _bucket; its number is its position, the mutex is not used. *)
Record bucket := Bucket { bk_changes : bool; bk_written : bool; bk_bits : list N }.

(** The arguments of NewBloomFilter, /repo/bloom/bloom_filter.go:42: number of bits and hashes (as estimated by the
    library from n and fp), number of buckets, key prefix. *)
Record config := Config { c_m : N; c_k : nat; c_n : nat; c_prefix : bytes }.

(** The default prefix, /repo/bloom/bloom_filter.go:59-65. *)
Definition bloom_prefix : bytes := [x00; x00; x00; x00; x00; x00; x00; x00; x00; x00; x62; x66; x5f].

(** /repo/bloom/bloom_filter.go:42-77 NewBloomFilter. *)
Definition new_bloom (c : config) : list bucket := repeat (Bucket false false []) (c_n c).

(** The [i]-th bucket becomes [b]; /repo/bloom/bloom_filter.go:83-84, 127-132, 182-183. *)
Definition set_bucket (bs : list bucket) (i : nat) (b : bucket) : list bucket := firstn i bs ++ b :: skipn (S i) bs.

(** /repo/bloom/bloom_filter.go:79-85 Add, run alone. A filter without buckets panics (not modelled: the filter is unchanged). *)
Definition bloom_add (h : hashes) (c : config) (bs : list bucket) (key : bytes) : list bucket :=
  let i := h_bucket h key (c_n c) in
  match nth_error bs i with
  | Some b =>
      let '(bits, present) := bl_test_or_add h (c_m c) (c_k c) (bk_bits b) key in
      set_bucket bs i (Bucket (negb present || bk_changes b) (bk_written b) bits)
  | None => bs
  end.

(** /repo/bloom/bloom_filter.go:87-91 MayContain. *)
Definition bloom_may (h : hashes) (c : config) (bs : list bucket) (key : bytes) : bool :=
  match nth_error bs (h_bucket h key (c_n c)) with
  | Some b => bl_test h (c_m c) (c_k c) (bk_bits b) key
  | None => false
  end.

(** The number of buckets never changes. *)
Lemma bloom_add_length h c bs key : length (bloom_add h c bs key) = length bs.
Proof.
  unfold bloom_add. destruct (nth_error bs (h_bucket h key (c_n c))) as [b|] eqn:E; auto.
  destruct (bl_test_or_add h (c_m c) (c_k c) (bk_bits b) key) as [bits p].
  assert (L : h_bucket h key (c_n c) < length bs) by (apply nth_error_Some; congruence).
  unfold set_bucket. rewrite app_length, firstn_length. cbn [length]. rewrite skipn_length. lia.
Qed.

(** A filter of the configuration [c], with all its buckets; /repo/bloom/bloom_filter.go:32-40. *)
Record bloom (c : config) := Bloom { bl_bs : list bucket; bl_len : length bl_bs = c_n c }.
Arguments Bloom {c}.
Arguments bl_bs {c}.
Arguments bl_len {c}.

(** As the filter of a table; /repo/filter.go:15-17. *)
Definition bloom_filt (h : hashes) (c : config) : filt (bloom c) :=
  Filt (fun z k => Bloom (bloom_add h c (bl_bs z) k) (eq_trans (bloom_add_length h c (bl_bs z) k) (bl_len z)))
       (fun z k => bloom_may h c (bl_bs z) k).

(** ** Persistence *)

(** A FilterStorer, /repo/filter.go:9-13: Get ([None] is an error), Set, DeleteRange with its success, and what the i-th byte of
    a Set that is interrupted there leaves behind. *)
Record storer (S : Type) := Storer {
  st_get : S -> bytes -> option bytes;
  st_set : S -> bytes -> bytes -> S;
  st_del_range : S -> bytes -> bytes -> S * bool;
  st_torn : S -> bytes -> bytes -> nat -> S
}.
Arguments Storer {S}.
Arguments st_get {S}.
Arguments st_set {S}.
Arguments st_del_range {S}.
Arguments st_torn {S}.

(** The database as a store: /repo/bond.go:242-274; an interrupted Set changes nothing. *)
Definition db_storer : storer kv := Storer kv_get kv_set (fun s lo hi => (kv_del_range s lo hi, true)) (fun s _ _ _ => s).

(** fmt.Sprintf("%d"), /repo/bloom/bloom_filter.go:204. *)
Fixpoint digits (u : uint) : bytes :=
  match u with
  | Nil => []
  | D0 u => x30 :: digits u | D1 u => x31 :: digits u | D2 u => x32 :: digits u | D3 u => x33 :: digits u | D4 u => x34 :: digits u
  | D5 u => x35 :: digits u | D6 u => x36 :: digits u | D7 u => x37 :: digits u | D8 u => x38 :: digits u | D9 u => x39 :: digits u
  end.

(** /repo/bloom/bloom_filter.go:202-206 buildKey. *)
Definition bucket_key (c : config) (i : nat) : bytes := c_prefix c ++ digits (Nat.to_uint i).
(** /repo/bloom/bloom_filter.go:208-212 buildBucketNumKey: the prefix and "bn". *)
Definition count_key (c : config) : bytes := c_prefix c ++ [x62; x6e].

Section Persist.
  Context {S : Type}.
  Variable st : storer S.
  Variable cd : codec.
  Variable c : config.

  (** The loop of Load over the buckets from number [i] on, /repo/bloom/bloom_filter.go:107-133: the buckets done so far
      stay changed if a later one fails. *)
  Fixpoint load_buckets (s : S) (i : nat) (bs : list bucket) : list bucket * res unit :=
    match bs with
    | [] => ([], Ok tt)
    | b :: bs' =>
        match st_get st s (bucket_key c i) with
        | None => (bs, Err ENotFound)
        | Some data =>
            match unpack cd data with
            | None => (bs, Err EOther)
            | Some (m, k, bits) =>
                if ((m =? c_m c)%N && Nat.eqb k (c_k c))%bool then
                  let '(bs2, r) := load_buckets s (Datatypes.S i) bs' in
                  (Bucket (bk_changes b) true (bits ++ bk_bits b) :: bs2, r)
                else (bs, Err EOther)
            end
        end
    end.

  (** /repo/bloom/bloom_filter.go:93-136 Load; Uint64 panics on less than 8 bytes (line 100). *)
  Definition bloom_load (s : S) (bs : list bucket) : list bucket * res unit :=
    match st_get st s (count_key c) with
    | None => (bs, Err EOther)
    | Some v =>
        if Nat.ltb (length v) 8 then (bs, Panic)
        else if N.eqb (be_val (firstn 8 v)) (N.of_nat (c_n c)) then load_buckets s 0 bs
        else (bs, Err EOther)
    end.

  (** One Set of Save (/repo/bloom/bloom_filter.go:147, 173-177), the [n]-th: [stop = Some (n, j)] fails or dies in the n-th Set after j bytes. *)
  Definition save_set (stop : option (nat * nat)) (n : nat) (s : S) (k v : bytes) : S * bool :=
    match stop with
    | Some (n0, j) => if Nat.eqb n n0 then (st_torn st s k v j, false) else (st_set st s k v, true)
    | None => (st_set st s k v, true)
    end.

  (** The loop of Save, /repo/bloom/bloom_filter.go:152-184, from bucket [i] on; [n] counts the Sets. *)
  Fixpoint save_buckets (stop : option (nat * nat)) (n : nat) (s : S) (i : nat) (bs : list bucket) : S * list bucket * res unit :=
    match bs with
    | [] => (s, [], Ok tt)
    | b :: bs' =>
        if (negb (bk_changes b) && bk_written b)%bool then
          let '(s', bs2, r) := save_buckets stop n s (Datatypes.S i) bs' in (s', b :: bs2, r)
        else
          let '(s1, ok) := save_set stop n s (bucket_key c i) (pack cd (c_m c, c_k c, bk_bits b)) in
          if ok then
            let '(s', bs2, r) := save_buckets stop (Datatypes.S n) s1 (Datatypes.S i) bs' in
            (s', Bucket false true (bk_bits b) :: bs2, r)
          else (s1, bs, Err EOther)
    end.

  (** /repo/bloom/bloom_filter.go:138-187 Save. *)
  Definition bloom_save (stop : option (nat * nat)) (s : S) (bs : list bucket) : S * list bucket * res unit :=
    let '(s1, ok) := save_set stop 0 s (count_key c) (be_bytes 8 (N.of_nat (c_n c))) in
    if ok then save_buckets stop 1 s1 0 bs else (s1, bs, Err EOther).

  (** end[len(end)-1]++, /repo/bloom/bloom_filter.go:192 (wraps at 0xFF). *)
  Definition bump (p : bytes) : bytes :=
    match List.rev p with
    | [] => []
    | b :: r => List.rev (n2b ((b2n b + 1) mod 256) :: r)
    end.

  (** /repo/bloom/bloom_filter.go:189-194 Clear; an empty prefix panics. The filter itself is not touched. *)
  Definition bloom_clear (s : S) : S * res unit :=
    match c_prefix c with
    | [] => (s, Panic)
    | _ => let '(s', ok) := st_del_range st s (c_prefix c) (bump (c_prefix c)) in (s', if ok then Ok tt else Err EOther)
    end.

  (** The scanners of FilterInitialize, /repo/filter.go:64-72: what ScanForEach with the adding callback does to the filter. *)
  Fixpoint run_scanners (scs : list (list bucket -> list bucket * res unit)) (bs : list bucket) : list bucket * res unit :=
    match scs with
    | [] => (bs, Ok tt)
    | f :: scs' =>
        match f bs with
        | (bs', Ok _) => run_scanners scs' bs'
        | r => r
        end
    end.

  (** /repo/filter.go:56-75 FilterInitialize. *)
  Definition filter_init (s : S) (scs : list (list bucket -> list bucket * res unit)) (bs : list bucket) : S * list bucket * res unit :=
    match bloom_load s bs with
    | (bs1, Ok _) => (s, bs1, Ok tt)
    | (bs1, Err _) =>
        match bloom_clear s with
        | (s1, Ok _) => let '(bs2, r) := run_scanners scs bs1 in (s1, bs2, r)
        | (s1, r) => (s1, bs1, r)
        end
    | (bs1, r) => (s, bs1, r)
    end.
End Persist.

(** The callback of FilterInitialize, /repo/filter.go:65-68: adds the key, never loads the record. *)
Definition init_cb {A} (h : hashes) (c : config) (bs : list bucket) (k : bytes) : prog (T:=A) (list bucket) :=
  PRet (bloom_add h c bs k) true None.

(** The scanner TableAnyScanner(table) with that callback; /repo/filter.go:64-68, /repo/table_utils.go:77-85. *)
Definition table_scanner {T F A} (h : hashes) (c : config) (tb : table T F) (ev : env T) (inj : T -> A) (fuel : nat) (db : kv) (fl : F)
    (bs : list bucket) : list bucket * res unit :=
  any_scan_for_each tb ev inj fuel db fl (init_cb h c) false NoBatch bs.

(** /repo/filter.go:24-54 FilterInitializable: the filter and isInitialized. *)
Record initializable (F : Type) := Initz { iz_flt : F; iz_on : bool }.
Arguments Initz {F}.
Arguments iz_flt {F}.
Arguments iz_on {F}.

(** /repo/filter.go:30-36 MayContain, and Add of the embedded Filter. *)
Definition iz_filt {F} (f : filt F) : filt (initializable F) :=
  Filt (fun z k => Initz (f_add f (iz_flt z) k) (iz_on z))
       (fun z k => if iz_on z then f_may f (iz_flt z) k else true).

(** /repo/filter.go:38-46 Initialize; [init] is FilterInitialize of the embedded Filter. *)
Definition iz_init {S F} (init : S -> F -> S * F * res unit) (s : S) (z : initializable F) : S * initializable F * res unit :=
  match init s (iz_flt z) with
  | (s', fl, Ok _) => (s', Initz fl true, Ok tt)
  | (s', fl, r) => (s', Initz fl (iz_on z), r)
  end.

(** /repo/filter.go:48-54 Save; [save] is that of the embedded Filter. *)
Definition iz_save {S F} (save : S -> F -> S * F * res unit) (s : S) (z : initializable F) : S * initializable F * res unit :=
  if iz_on z then let '(s', fl, r) := save s (iz_flt z) in (s', Initz fl true, r)
  else (s, z, Err EOther).

(** ** Histories of one filter *)

(** What happens: Add, Save (completing, or stopped by an error or a crash), Load, Clear, or a new process with a new filter;
    /repo/bloom/bloom_filter.go:42-194. *)
Inductive bop_f := FAdd (k : bytes) | FSave (stop : option (nat * nat)) | FLoad | FClear | FNew.

(** One of them, with its result; /repo/bloom/bloom_filter.go:42-194. *)
Definition bloom_step {S} (st : storer S) cd h c (s : S) (bs : list bucket) (o : bop_f) : S * list bucket * res unit :=
  match o with
  | FAdd k => (s, bloom_add h c bs k, Ok tt)
  | FSave stop => bloom_save st cd c stop s bs
  | FLoad => let '(bs', r) := bloom_load st cd c s bs in (s, bs', r)
  | FClear => let '(s', r) := bloom_clear st c s in (s', bs, r)
  | FNew => (s, new_bloom c, Ok tt)
  end.

(** A history and the results; /repo/bloom/bloom_filter.go:42-194. *)
Fixpoint bloom_run {S} (st : storer S) cd h c (s : S) (bs : list bucket) (os : list bop_f) : S * list bucket * list (res unit) :=
  match os with
  | [] => (s, bs, [])
  | o :: os' =>
      let '(s1, bs1, r) := bloom_step st cd h c s bs o in
      let '(s2, bs2, rs) := bloom_run st cd h c s1 bs1 os' in
      (s2, bs2, r :: rs)
  end.
