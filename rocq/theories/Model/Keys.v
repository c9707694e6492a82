(** Key builder and key encoding: /repo/keys.go, and the order builder of
    /repo/index.go:25-118.

    Go slices are modelled by value here; sharing of backing arrays is the
    subject of Model/Slices.v. *)

From Coq Require Import List NArith ZArith Bool.
From Verif.Model Require Import Bytes Go.
Import ListNotations.

(** /repo/keys.go:11-14 type KeyBuilder. *)
Record key_builder := KB { kb_buff : bytes; kb_fid : byte }.

(** /repo/keys.go:16-18 NewKeyBuilder. *)
Definition new_kb (buff : bytes) : key_builder := KB buff x00.

(** /repo/keys.go:136-141 putFieldID; the field id is a byte and wraps. *)
Definition put_field_id (b : key_builder) : key_builder :=
  let f := n2b (b2n (kb_fid b) + 1) in
  KB (kb_buff b ++ [f]) f.

(** Appending bytes to the builder's buffer (Go append); /repo/keys.go:24, 32, 73, 94, 100, 106. *)
Definition kb_append (b : key_builder) (l : bytes) : key_builder :=
  KB (kb_buff b ++ l) (kb_fid b).

(** The bytes after the field id written for a signed integer of [w] bytes:
    sign byte, then the big-endian value ([^-i] for negatives);
    /repo/keys.go:23-33, 40-50, 57-67. *)
Definition int_field_bytes (w : nat) (i : Z) : bytes :=
  let sign := if (0 <? i)%Z then x02 else if (i =? 0)%Z then x01 else x00 in
  let i' := if (i <? 0)%Z then z_not (to_signed w (- i)) else i in
  sign :: be_bytes w (to_unsigned w i').

(** /repo/keys.go:20-35 AddInt64Field. *)
Definition add_int64 (b : key_builder) (i : Z) : key_builder :=
  kb_append (put_field_id b) (int_field_bytes 8 i).

(** /repo/keys.go:37-52 AddInt32Field. *)
Definition add_int32 (b : key_builder) (i : Z) : key_builder :=
  kb_append (put_field_id b) (int_field_bytes 4 i).

(** /repo/keys.go:54-69 AddInt16Field. *)
Definition add_int16 (b : key_builder) (i : Z) : key_builder :=
  kb_append (put_field_id b) (int_field_bytes 2 i).

(** /repo/keys.go:71-76 AddUint64Field. *)
Definition add_uint64 (b : key_builder) (i : N) : key_builder :=
  kb_append (put_field_id b) (be_bytes 8 i).

(** /repo/keys.go:78-83 AddUint32Field. *)
Definition add_uint32 (b : key_builder) (i : N) : key_builder :=
  kb_append (put_field_id b) (be_bytes 4 i).

(** /repo/keys.go:85-90 AddUint16Field. *)
Definition add_uint16 (b : key_builder) (i : N) : key_builder :=
  kb_append (put_field_id b) (be_bytes 2 i).

(** /repo/keys.go:92-96 AddByteField. *)
Definition add_byte (b : key_builder) (x : byte) : key_builder :=
  kb_append (put_field_id b) [x].

(** /repo/keys.go:98-108 AddStringField and AddBytesField (a Go string is its bytes). *)
Definition add_bytes (b : key_builder) (l : bytes) : key_builder :=
  kb_append (put_field_id b) l.

(** [0xFF - x] on a byte; /repo/keys.go:129 and Go's [^b], /repo/index.go:85, 95. *)
Definition byte_not (x : byte) : byte := n2b (255 - b2n x).

(** /repo/keys.go:110-134 AddBigIntField. [bits] is the Go argument; its value
    divided by 8 is the width. [None] is the panic of big.Int.FillBytes when the
    magnitude needs more bytes (line 124); with a negative [bits] the loops do not
    run and the code slices with a negative length, which also panics, so [bits]
    is a natural number here. A nil *big.Int is not modelled. *)
Definition big_int_field_bytes (bi : Z) (bits : N) : option bytes :=
  let sign := if (0 <? bi)%Z then x02 else if (bi =? 0)%Z then x01 else x00 in
  let w := N.to_nat (bits / 8) in
  let mag := Z.to_N (Z.abs bi) in
  if (mag <? 256 ^ N.of_nat w)%N then
    let digits := be_bytes w mag in
    Some (sign :: (if (bi <? 0)%Z then map byte_not digits else digits))
  else None.

(** /repo/keys.go:110-134 AddBigIntField. *)
Definition add_big_int (b : key_builder) (bi : Z) (bits : N) : res key_builder :=
  match big_int_field_bytes bi bits with
  | Some l => Ok (kb_append (put_field_id b) l)
  | None => Panic
  end.

(** ** IndexOrder, /repo/index.go:25-118. The struct only wraps a KeyBuilder. *)

(** /repo/index.go:29-36 OrderInt64 ([desc] is IndexOrderTypeDESC). *)
Definition order_int64 (o : key_builder) (i : Z) (desc : bool) : key_builder :=
  add_int64 o (if desc then to_signed 8 (- i) else i).

(** /repo/index.go:38-45 OrderInt32. *)
Definition order_int32 (o : key_builder) (i : Z) (desc : bool) : key_builder :=
  add_int32 o (if desc then to_signed 4 (- i) else i).

(** /repo/index.go:47-54 OrderInt16. *)
Definition order_int16 (o : key_builder) (i : Z) (desc : bool) : key_builder :=
  add_int16 o (if desc then to_signed 2 (- i) else i).

(** Go [^i] on an unsigned integer of [w] bytes; /repo/index.go:58, 67, 76. *)
Definition uint_not (w : nat) (i : N) : N := (256 ^ N.of_nat w - 1 - i)%N.

(** /repo/index.go:56-63 OrderUint64. *)
Definition order_uint64 (o : key_builder) (i : N) (desc : bool) : key_builder :=
  add_uint64 o (if desc then uint_not 8 i else i).

(** /repo/index.go:65-72 OrderUint32. *)
Definition order_uint32 (o : key_builder) (i : N) (desc : bool) : key_builder :=
  add_uint32 o (if desc then uint_not 4 i else i).

(** /repo/index.go:74-81 OrderUint16. *)
Definition order_uint16 (o : key_builder) (i : N) (desc : bool) : key_builder :=
  add_uint16 o (if desc then uint_not 2 i else i).

(** /repo/index.go:83-90 OrderByte. *)
Definition order_byte (o : key_builder) (x : byte) (desc : bool) : key_builder :=
  add_byte o (if desc then byte_not x else x).

(** /repo/index.go:92-101 OrderBytes. The in-place complement of the argument
    is an effect on the caller's slice: the second component is the new contents
    of the slice passed in. *)
Definition order_bytes (o : key_builder) (l : bytes) (desc : bool) : key_builder * bytes :=
  let l' := if desc then map byte_not l else l in
  (add_bytes o l', l').

(** /repo/index.go:103-110 OrderBigInt (big.Int.Neg allocates, the argument is not changed). *)
Definition order_big_int (o : key_builder) (bi : Z) (bits : N) (desc : bool) : res key_builder :=
  add_big_int o (if desc then (- bi)%Z else bi) bits.

(** ** Keys *)

(** /repo/keys.go:147-153 type Key. *)
Record key := MkKey {
  k_table : byte;
  k_index_id : byte;
  k_index : bytes;
  k_order : bytes;
  k_pk : bytes
}.

(** /repo/bond.go:24-34: BOND_DB_DATA_TABLE_ID. *)
Definition bond_table_id : byte := x00.
(** /repo/bond.go:24-34: BOND_DB_DATA_USER_SPACE_INDEX_ID. *)
Definition bond_user_index_id : byte := xff.
(** /repo/index.go:120 PrimaryIndexID. *)
Definition primary_index_id : byte := x00.

(** /repo/keys.go:165-173 Key.ToDataKey. *)
Definition to_data_key (k : key) : key :=
  MkKey (k_table k) primary_index_id [] [] (k_pk k).

(** /repo/keys.go:175-183 Key.ToKeyPrefix. *)
Definition to_key_prefix (k : key) : key :=
  MkKey (k_table k) (k_index_id k) (k_index k) [] [].

(** /repo/keys.go:193-195 Key.IsKeyPrefix. *)
Definition is_key_prefix (k : key) : bool :=
  match k_pk k with [] => true | _ => false end.

(** /repo/keys.go:185-187 Key.IsDataKey. *)
Definition is_data_key (k : key) : bool :=
  (b2n (k_index_id k) =? 0)%N && (blen (k_index k) =? 0)%N.

(** /repo/keys.go:189-191 Key.IsIndexKey. *)
Definition is_index_key (k : key) : bool :=
  negb (b2n (k_index_id k) =? 0)%N && negb (blen (k_index k) =? 0)%N.

(** 4-byte big-endian length, truncated to uint32; /repo/keys.go:207-209, 213-214. *)
Definition len4 (l : bytes) : bytes := be_bytes 4 (blen l).

(** /repo/keys.go:197-221 KeyEncode; [raw] is the optional pre-filled buffer. *)
Definition key_encode (k : key) (raw : bytes) : bytes :=
  raw ++ [k_table k; k_index_id k] ++ len4 (k_index k) ++ k_index k ++
  (if is_key_prefix k then [] else len4 (k_order k) ++ k_order k ++ k_pk k).

(** Overwrite four bytes at position [pos] (binary.BigEndian.PutUint32 on a
    sub-slice); /repo/keys.go:238, 248. *)
Definition put_u32_at (buff : bytes) (pos : nat) (v : N) : bytes :=
  firstn pos buff ++ be_bytes 4 v ++ skipn (pos + 4) buff.

(** /repo/keys.go:223-255 KeyEncodeRaw. [None] is a nil function argument. *)
Definition key_encode_raw (table_id index_id : byte)
  (index_f order_f pk_f : option (bytes -> bytes)) (buff0 : bytes) : bytes :=
  let buff := buff0 ++ [table_id] in
  let buff := buff ++ [index_id] in
  let buff := buff ++ [x00; x00; x00; x00] in
  let len_index := (length buff - 4)%nat in
  let buff := match index_f with
              | Some f => let buff := f buff in
                          put_u32_at buff len_index (N.of_nat (length buff - (len_index + 4)))
              | None => buff
              end in
  match pk_f with
  | None => buff
  | Some pf =>
      let buff := buff ++ [x00; x00; x00; x00] in
      let len_index := (length buff - 4)%nat in
      let buff := match order_f with
                  | Some f => let buff := f buff in
                              put_u32_at buff len_index (N.of_nat (length buff - (len_index + 4)))
                  | None => buff
                  end in
      pf buff
  end.

(** bytes.Buffer.Read into a fresh zeroed slice of length [n]: the slice, padded
    with zeros when the buffer is short, and the rest of the buffer;
    /repo/keys.go:263-264, 267-268, 270-271, 274-275, 278-279. *)
Definition read_n (n : nat) (buff : bytes) : bytes * bytes :=
  (firstn n buff ++ repeat x00 (n - length buff), skipn n buff).

(** bytes.Buffer.ReadByte with the error dropped; /repo/keys.go:260-261. *)
Definition read_byte (buff : bytes) : byte * bytes :=
  match buff with
  | [] => (x00, [])
  | b :: r => (b, r)
  end.

(** /repo/keys.go:257-288 KeyDecode. [Panic] is make with a negative length (line 278).
    Lengths are 32-bit, so int(indexLen) does not overflow on a 64-bit platform. *)
Definition key_decode (kb : bytes) : res key :=
  let '(t, r) := read_byte kb in
  let '(i, r) := read_byte r in
  let '(ilb, r) := read_n 4 r in
  let il := be_val ilb in
  let '(index, r) := read_n (N.to_nat il) r in
  let '(olb, r) := read_n 4 r in
  let ol := be_val olb in
  let '(order, r) := read_n (N.to_nat ol) r in
  let pkl := (Z.of_nat (length kb) - Z.of_N il - Z.of_N ol - 10)%Z in
  if (pkl <? 0)%Z then Panic
  else
    let '(pk, r) := read_n (Z.to_nat pkl) r in
    Ok (MkKey t i index order pk).

(** Slice expression [l[lo:hi]]; [None] is the run-time panic. The bound is the
    length here (Go allows up to the capacity; keys are exactly sized or the code
    would read stale bytes). /repo/keys.go:306-309, 323-324, 346. *)
Definition slice (l : bytes) (lo hi : N) : option bytes :=
  if ((lo <=? hi) && (hi <=? blen l))%N then
    Some (firstn (N.to_nat hi - N.to_nat lo) (skipn (N.to_nat lo) l))
  else None.

(** /repo/keys.go:292-312 KeyBytes.ToDataKeyBytes; [raw] is the optional buffer. *)
Definition to_data_key_bytes (k : bytes) (raw : bytes) : res bytes :=
  match k with
  | [] => Panic
  | t :: _ =>
    match slice k 2 6 with
    | None => Panic
    | Some ilb =>
      let il := be_val ilb in
      match slice k (6 + il) (10 + il) with
      | None => Panic
      | Some olb =>
        let ol := be_val olb in
        match slice k (10 + il + ol) (blen k) with
        | None => Panic
        | Some pk =>
          Ok (raw ++ [t; x00] ++ [x00; x00; x00; x00] ++ [x00; x00; x00; x00] ++ pk)
        end
      end
    end
  end.

(** /repo/keys.go:314-316 KeyBytes.TableID. *)
Definition kb_table_id (k : bytes) : res byte :=
  match k with t :: _ => Ok t | _ => Panic end.

(** /repo/keys.go:318-320 KeyBytes.IndexID. *)
Definition kb_index_id (k : bytes) : res byte :=
  match k with _ :: i :: _ => Ok i | _ => Panic end.

(** /repo/keys.go:322-325 KeyBytes.Index; 6+keyLen is uint32 arithmetic and wraps. *)
Definition kb_index (k : bytes) : res bytes :=
  match slice k 2 6 with
  | None => Panic
  | Some lb =>
      match slice k 6 ((6 + be_val lb) mod 2 ^ 32) with
      | None => Panic
      | Some l => Ok l
      end
  end.

(** /repo/keys.go:327-329 KeyBytes.IsDataKey. *)
Definition kb_is_data_key (k : bytes) : res bool :=
  match kb_index_id k with Ok i => Ok (b2n i =? 0)%N | Err e => Err e | Panic => Panic | Diverge => Diverge end.

(** /repo/keys.go:331-333 KeyBytes.IsIndexKey. *)
Definition kb_is_index_key (k : bytes) : res bool :=
  match kb_index_id k with Ok i => Ok (negb (b2n i =? 0)%N) | Err e => Err e | Panic => Panic | Diverge => Diverge end.

(** /repo/keys.go:345-347 _KeyPrefixSplitIndex. *)
Definition split_index (k : bytes) : res N :=
  match slice k 2 6 with
  | None => Panic
  | Some lb => Ok (6 + be_val lb)%N
  end.

(** The prefix of a key cut at the split index, as pebble does with
    Comparer.Split; /repo/keys.go:339-343. *)
Definition key_prefix_of (k : bytes) : res bytes :=
  match split_index k with
  | Ok n => match slice k 0 n with Some p => Ok p | None => Panic end
  | _ => Panic
  end.

(** /repo/keys.go:155-163 NewUserKey. *)
Definition new_user_key (k : bytes) : bytes :=
  key_encode (MkKey bond_table_id bond_user_index_id [] [] k) [].

(** Loop of /repo/table.go:1269-1274 over the reversed string: increment the
    last byte that is not 0xFF, leaving the bytes behind it unchanged. *)
Fixpoint succ_rev (l : bytes) : bytes :=
  match l with
  | [] => []
  | b :: r => if (b2n b =? 255)%N then b :: succ_rev r else n2b (b2n b + 1) :: r
  end.

(** /repo/table.go:1262-1276 keySuccessor (the result; the destination buffer is
    modelled by value). *)
Definition key_successor (src : bytes) : bytes := rev (succ_rev (rev src)).

(** ** Field programs: every use of a KeyBuilder through its methods. *)

(** One AddXxxField call; /repo/keys.go:20-134 (big integers: /repo/keys.go:110). *)
Inductive field :=
| FInt64 (i : Z)
| FInt32 (i : Z)
| FInt16 (i : Z)
| FUint64 (i : N)
| FUint32 (i : N)
| FUint16 (i : N)
| FByte (b : byte)
| FBytes (l : bytes)
| FBigInt (i : Z) (bits : N).

(** Dispatch to the AddXxxField method; /repo/keys.go:20-134. *)
Definition add_field (b : key_builder) (f : field) : res key_builder :=
  match f with
  | FInt64 i => Ok (add_int64 b i)
  | FInt32 i => Ok (add_int32 b i)
  | FInt16 i => Ok (add_int16 b i)
  | FUint64 i => Ok (add_uint64 b i)
  | FUint32 i => Ok (add_uint32 b i)
  | FUint16 i => Ok (add_uint16 b i)
  | FByte x => Ok (add_byte b x)
  | FBytes l => Ok (add_bytes b l)
  | FBigInt i bits => add_big_int b i bits
  end.

(** A chain of AddXxxField calls, b.AddX(..).AddY(..); /repo/keys.go:20-134. *)
Fixpoint add_fields (b : key_builder) (fs : list field) : res key_builder :=
  match fs with
  | [] => Ok b
  | f :: fs' =>
      match add_field b f with
      | Ok b' => add_fields b' fs'
      | e => e
      end
  end.
