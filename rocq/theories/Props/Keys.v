(** Properties C01-C11: field encodings, key layout, prefix successor. *)

From Coq Require Import List NArith ZArith Lia Bool.
From Verif.Model Require Import Bytes Go Keys.
From Verif.Spec Require Import KeySpec.
From Verif.Proofs Require Import BytesFacts KeysFacts KeysProps.
Import ListNotations.

(** C01. Signed fields compare like the integers, whatever follows them. *)
Theorem C01_int64_field_order : forall b i j s t,
  (- 2 ^ 63 <= i < 2 ^ 63)%Z -> (- 2 ^ 63 <= j < 2 ^ 63)%Z ->
  bcmp (kb_buff (add_int64 b i) ++ s) (kb_buff (add_int64 b j) ++ t)
  = match Z.compare i j with Eq => bcmp s t | c => c end.
Proof. exact add_int64_cmp. Qed.
Print Assumptions C01_int64_field_order.

Theorem C01_int32_field_order : forall b i j s t,
  (- 2 ^ 31 <= i < 2 ^ 31)%Z -> (- 2 ^ 31 <= j < 2 ^ 31)%Z ->
  bcmp (kb_buff (add_int32 b i) ++ s) (kb_buff (add_int32 b j) ++ t)
  = match Z.compare i j with Eq => bcmp s t | c => c end.
Proof. exact add_int32_cmp. Qed.
Print Assumptions C01_int32_field_order.

Theorem C01_int16_field_order : forall b i j s t,
  (- 2 ^ 15 <= i < 2 ^ 15)%Z -> (- 2 ^ 15 <= j < 2 ^ 15)%Z ->
  bcmp (kb_buff (add_int16 b i) ++ s) (kb_buff (add_int16 b j) ++ t)
  = match Z.compare i j with Eq => bcmp s t | c => c end.
Proof. exact add_int16_cmp. Qed.
Print Assumptions C01_int16_field_order.

(** MinInt64 and -MaxInt64 are in range and come out in order. *)
Example C01_case :
  let b := add_uint16 (new_kb [x07]) 12 in
  blt (kb_buff (add_int64 b (- 2 ^ 63))) (kb_buff (add_int64 b (- (2 ^ 63 - 1))))
  /\ blt (kb_buff (add_int64 b (-1))) (kb_buff (add_int64 b 0))
  /\ blt (kb_buff (add_int64 b 0)) (kb_buff (add_int64 b 1)).
Proof. vm_compute. auto. Qed.

(** C02. Unsigned fields. *)
Theorem C02_uint64_field_order : forall b i j s t, (i < 2 ^ 64)%N -> (j < 2 ^ 64)%N ->
  bcmp (kb_buff (add_uint64 b i) ++ s) (kb_buff (add_uint64 b j) ++ t)
  = match N.compare i j with Eq => bcmp s t | c => c end.
Proof. exact add_uint64_cmp. Qed.
Print Assumptions C02_uint64_field_order.

Theorem C02_uint32_field_order : forall b i j s t, (i < 2 ^ 32)%N -> (j < 2 ^ 32)%N ->
  bcmp (kb_buff (add_uint32 b i) ++ s) (kb_buff (add_uint32 b j) ++ t)
  = match N.compare i j with Eq => bcmp s t | c => c end.
Proof. exact add_uint32_cmp. Qed.
Print Assumptions C02_uint32_field_order.

Theorem C02_uint16_field_order : forall b i j s t, (i < 2 ^ 16)%N -> (j < 2 ^ 16)%N ->
  bcmp (kb_buff (add_uint16 b i) ++ s) (kb_buff (add_uint16 b j) ++ t)
  = match N.compare i j with Eq => bcmp s t | c => c end.
Proof. exact add_uint16_cmp. Qed.
Print Assumptions C02_uint16_field_order.

Theorem C02_byte_field_order : forall b x y s t,
  bcmp (kb_buff (add_byte b x) ++ s) (kb_buff (add_byte b y) ++ t)
  = match N.compare (Byte.to_N x) (Byte.to_N y) with Eq => bcmp s t | c => c end.
Proof. exact add_byte_cmp. Qed.
Print Assumptions C02_byte_field_order.

Example C02_case :
  blt (kb_buff (add_uint64 (new_kb []) 255)) (kb_buff (add_uint64 (new_kb []) 256))
  /\ blt (kb_buff (add_byte (new_kb []) x7f)) (kb_buff (add_byte (new_kb []) x80)).
Proof. vm_compute. auto. Qed.

(** C03. Big integer fields: total and ordered within the width, panic outside. *)
Theorem C03_big_int_field_order : forall b i j bits ki kj s t,
  add_big_int b i bits = Ok ki -> add_big_int b j bits = Ok kj ->
  bcmp (kb_buff ki ++ s) (kb_buff kj ++ t) = match Z.compare i j with Eq => bcmp s t | c => c end.
Proof. exact add_big_int_cmp. Qed.
Print Assumptions C03_big_int_field_order.

Theorem C03_big_int_field_fits : forall b i bits, (Z.abs i < 256 ^ Z.of_N (bits / 8))%Z ->
  exists k, add_big_int b i bits = Ok k.
Proof. exact add_big_int_ok. Qed.
Print Assumptions C03_big_int_field_fits.

Theorem C03_big_int_field_too_big : forall b i bits, (256 ^ Z.of_N (bits / 8) <= Z.abs i)%Z ->
  add_big_int b i bits = Panic.
Proof. exact add_big_int_panics. Qed.
Print Assumptions C03_big_int_field_too_big.

Example C03_case :
  exists ki kj, add_big_int (new_kb [x01]) (-256) 24 = Ok ki /\ add_big_int (new_kb [x01]) (-255) 24 = Ok kj
  /\ blt (kb_buff ki) (kb_buff kj) /\ add_big_int (new_kb []) 65536 16 = Panic.
Proof. eexists. eexists. vm_compute. repeat split. Qed.

(** C04. Descending order. The full statement fails for the minimum of the signed
    types and for byte strings one of which is a prefix of the other. *)
Theorem C04_desc_min_int_refuted :
  let b := new_kb [] in
  (exists i j, (- 2 ^ 63 <= i < 2 ^ 63)%Z /\ (- 2 ^ 63 <= j < 2 ^ 63)%Z /\ (i < j)%Z /\
    ~ blt (kb_buff (order_int64 b j true)) (kb_buff (order_int64 b i true))) /\
  (exists i j, (- 2 ^ 31 <= i < 2 ^ 31)%Z /\ (- 2 ^ 31 <= j < 2 ^ 31)%Z /\ (i < j)%Z /\
    ~ blt (kb_buff (order_int32 b j true)) (kb_buff (order_int32 b i true))) /\
  (exists i j, (- 2 ^ 15 <= i < 2 ^ 15)%Z /\ (- 2 ^ 15 <= j < 2 ^ 15)%Z /\ (i < j)%Z /\
    ~ blt (kb_buff (order_int16 b j true)) (kb_buff (order_int16 b i true))).
Proof. exact desc_min_int_refuted. Qed.
Print Assumptions C04_desc_min_int_refuted.

Theorem C04_desc_bytes_refuted : exists x y, blt x y /\
  ~ blt (kb_buff (fst (order_bytes (new_kb []) y true))) (kb_buff (fst (order_bytes (new_kb []) x true))).
Proof. exact desc_bytes_refuted. Qed.
Print Assumptions C04_desc_bytes_refuted.

(** What holds: all signed values but the minimum, all unsigned values, bytes,
    big integers, byte strings of equal length. *)
Theorem C04_desc_int64_partial : forall b i j,
  (- 2 ^ 63 < i < 2 ^ 63)%Z -> (- 2 ^ 63 < j < 2 ^ 63)%Z ->
  bcmp (kb_buff (order_int64 b i true)) (kb_buff (order_int64 b j true)) = Z.compare j i.
Proof. exact order_int64_desc. Qed.
Print Assumptions C04_desc_int64_partial.

Theorem C04_desc_int32_partial : forall b i j,
  (- 2 ^ 31 < i < 2 ^ 31)%Z -> (- 2 ^ 31 < j < 2 ^ 31)%Z ->
  bcmp (kb_buff (order_int32 b i true)) (kb_buff (order_int32 b j true)) = Z.compare j i.
Proof. exact order_int32_desc. Qed.
Print Assumptions C04_desc_int32_partial.

Theorem C04_desc_int16_partial : forall b i j,
  (- 2 ^ 15 < i < 2 ^ 15)%Z -> (- 2 ^ 15 < j < 2 ^ 15)%Z ->
  bcmp (kb_buff (order_int16 b i true)) (kb_buff (order_int16 b j true)) = Z.compare j i.
Proof. exact order_int16_desc. Qed.
Print Assumptions C04_desc_int16_partial.

Theorem C04_desc_uint64 : forall b i j, (i < 2 ^ 64)%N -> (j < 2 ^ 64)%N ->
  bcmp (kb_buff (order_uint64 b i true)) (kb_buff (order_uint64 b j true)) = N.compare j i.
Proof. exact order_uint64_desc. Qed.
Print Assumptions C04_desc_uint64.

Theorem C04_desc_uint32 : forall b i j, (i < 2 ^ 32)%N -> (j < 2 ^ 32)%N ->
  bcmp (kb_buff (order_uint32 b i true)) (kb_buff (order_uint32 b j true)) = N.compare j i.
Proof. exact order_uint32_desc. Qed.
Print Assumptions C04_desc_uint32.

Theorem C04_desc_uint16 : forall b i j, (i < 2 ^ 16)%N -> (j < 2 ^ 16)%N ->
  bcmp (kb_buff (order_uint16 b i true)) (kb_buff (order_uint16 b j true)) = N.compare j i.
Proof. exact order_uint16_desc. Qed.
Print Assumptions C04_desc_uint16.

Theorem C04_desc_byte : forall b x y,
  bcmp (kb_buff (order_byte b x true)) (kb_buff (order_byte b y true))
  = N.compare (Byte.to_N y) (Byte.to_N x).
Proof. exact order_byte_desc. Qed.
Print Assumptions C04_desc_byte.

Theorem C04_desc_big_int : forall b i j bits ki kj,
  order_big_int b i bits true = Ok ki -> order_big_int b j bits true = Ok kj ->
  bcmp (kb_buff ki) (kb_buff kj) = Z.compare j i.
Proof. exact order_big_int_desc. Qed.
Print Assumptions C04_desc_big_int.

Theorem C04_desc_bytes_partial : forall b x y, length x = length y ->
  bcmp (kb_buff (fst (order_bytes b x true))) (kb_buff (fst (order_bytes b y true))) = bcmp y x.
Proof. exact order_bytes_desc. Qed.
Print Assumptions C04_desc_bytes_partial.

Example C04_case :
  blt (kb_buff (order_int64 (new_kb []) 7 true)) (kb_buff (order_int64 (new_kb []) (-7) true))
  /\ blt (kb_buff (order_uint16 (new_kb []) 256 true)) (kb_buff (order_uint16 (new_kb []) 255 true))
  /\ blt (kb_buff (fst (order_bytes (new_kb []) [x62; x00] true)))
         (kb_buff (fst (order_bytes (new_kb []) [x61; xff] true)))
  /\ exists k, order_big_int (new_kb []) (-300) 16 true = Ok k.
Proof. vm_compute. repeat split. eexists; reflexivity. Qed.

(** C05. Composite keys identify their tuple. *)
Theorem C05_composite_key_injective : forall s fs gs b kf kg, (var_count s <= 1)%nat ->
  Forall2 has_type s fs -> Forall2 has_type s gs ->
  add_fields b fs = Ok kf -> add_fields b gs = Ok kg -> kb_buff kf = kb_buff kg -> fs = gs.
Proof. exact add_fields_inj. Qed.
Print Assumptions C05_composite_key_injective.

Theorem C05_composite_key_total : forall s fs b, Forall2 has_type s fs -> exists k, add_fields b fs = Ok k.
Proof. exact add_fields_total. Qed.
Print Assumptions C05_composite_key_total.

(** The restriction to one variable-length column is needed. *)
Theorem C05_two_strings_refuted : exists fs gs kf kg,
  Forall2 has_type [TBytes; TBytes] fs /\ Forall2 has_type [TBytes; TBytes] gs /\ fs <> gs /\
  add_fields (new_kb []) fs = Ok kf /\ add_fields (new_kb []) gs = Ok kg /\ kb_buff kf = kb_buff kg.
Proof. exact two_strings_refuted. Qed.
Print Assumptions C05_two_strings_refuted.

Example C05_case :
  let s := [TInt64; TBytes; TBigInt 64; TByte] in
  let fs := [FInt64 (-3); FBytes [x61; x03]; FBigInt 5 64; FByte x01] in
  (var_count s <= 1)%nat /\ Forall2 has_type s fs /\ exists k, add_fields (new_kb [x09]) fs = Ok k.
Proof. split; [cbn; lia|]. split; [repeat constructor; vm_compute; auto; intuition discriminate|].
  eexists; reflexivity. Qed.

(** C06. Composite keys compare field by field. *)
Theorem C06_composite_key_order : forall s fs gs b kf kg, var_only_last s ->
  Forall2 has_type s fs -> Forall2 has_type s gs ->
  add_fields b fs = Ok kf -> add_fields b gs = Ok kg ->
  bcmp (kb_buff kf) (kb_buff kg) = tuple_cmp fs gs.
Proof. exact add_fields_cmp. Qed.
Print Assumptions C06_composite_key_order.

(** A variable-length column before the last one breaks the order. *)
Theorem C06_inner_string_refuted : exists fs gs kf kg,
  Forall2 has_type [TBytes; TByte] fs /\ Forall2 has_type [TBytes; TByte] gs /\
  add_fields (new_kb []) fs = Ok kf /\ add_fields (new_kb []) gs = Ok kg /\
  tuple_cmp fs gs = Lt /\ bcmp (kb_buff kf) (kb_buff kg) = Gt.
Proof. exact inner_string_refuted. Qed.
Print Assumptions C06_inner_string_refuted.

Example C06_case :
  let s := [TInt16; TUint64; TBytes] in
  let fs := [FInt16 (-2); FUint64 9; FBytes [x61]] in
  let gs := [FInt16 (-2); FUint64 9; FBytes [x61; x00]] in
  var_only_last s /\ Forall2 has_type s fs /\ Forall2 has_type s gs /\ tuple_cmp fs gs = Lt.
Proof. cbn. repeat split; repeat constructor; vm_compute; auto; intuition discriminate. Qed.

(** C07. Round trip, and the key prefixes for which decoding panics. *)
Theorem C07_key_roundtrip : forall k, k_pk k <> [] ->
  (N.of_nat (length (k_index k)) < 2 ^ 32)%N -> (N.of_nat (length (k_order k)) < 2 ^ 32)%N ->
  key_decode (key_encode k []) = Ok k.
Proof. exact key_roundtrip. Qed.
Print Assumptions C07_key_roundtrip.

Theorem C07_key_prefix_decode_panics : forall k, k_pk k = [] ->
  (N.of_nat (length (k_index k)) < 2 ^ 32)%N -> key_decode (key_encode k []) = Panic.
Proof. exact key_prefix_panics. Qed.
Print Assumptions C07_key_prefix_decode_panics.

Example C07_case : let k := MkKey x01 x02 [x05; x06] [x07] [x08; x09; x0a] in
  k_pk k <> [] /\ key_decode (key_encode k []) = Ok k /\ key_decode (key_encode (to_key_prefix k) []) = Panic.
Proof. vm_compute. repeat split. discriminate. Qed.

(** C08. The two encoders agree; reading back. *)
Theorem C08_encoders_agree : forall t i (fi fo fp : bytes -> bytes) (ix ord pk buff : bytes),
  (forall b, fi b = b ++ ix) -> (forall b, fo b = b ++ ord) -> (forall b, fp b = b ++ pk) ->
  key_encode_raw t i (Some fi) (Some fo) (Some fp) buff = buff ++ spec_key t i ix ord pk
  /\ (pk <> [] -> key_encode_raw t i (Some fi) (Some fo) (Some fp) buff
                  = buff ++ key_encode (MkKey t i ix ord pk) [])
  /\ key_encode_raw t i None None (Some fp) buff = buff ++ spec_key t i [] [] pk
  /\ key_encode_raw t i (Some fi) None None buff = buff ++ key_encode (to_key_prefix (MkKey t i ix ord pk)) [].
Proof. exact key_encode_raw_spec. Qed.
Print Assumptions C08_encoders_agree.

Theorem C08_readback : forall t i ix ord pk raw,
  (N.of_nat (length ix) < 2 ^ 32 - 6)%N -> (N.of_nat (length ord) < 2 ^ 32)%N ->
  let k := spec_key t i ix ord pk in
  kb_table_id k = Ok t /\ kb_index_id k = Ok i /\ kb_index k = Ok ix /\
  to_data_key_bytes k raw = Ok (raw ++ spec_key t x00 [] [] pk) /\
  (pk <> [] -> to_data_key_bytes k raw = Ok (key_encode (to_data_key (MkKey t i ix ord pk)) raw)).
Proof. exact spec_key_readback. Qed.
Print Assumptions C08_readback.

Theorem C08_key_builder_programs_append : forall fs b k, add_fields (new_kb b) fs = Ok k ->
  exists l, (forall b', exists k', add_fields (new_kb b') fs = Ok k' /\ kb_buff k' = b' ++ l).
Proof. exact add_fields_appends. Qed.
Print Assumptions C08_key_builder_programs_append.

Example C08_case :
  key_encode_raw x01 x02 (Some (fun b => b ++ [x05])) (Some (fun b => b)) (Some (fun b => b ++ [x08; x09])) [xaa]
  = [xaa] ++ spec_key x01 x02 [x05] [] [x08; x09].
Proof. reflexivity. Qed.

(** C09. Physical order and disjointness. *)
Theorem C09_key_order : forall t i ix ord pk t' i' ix' ord' pk',
  (N.of_nat (length ix) < 2 ^ 32)%N -> (N.of_nat (length ord) < 2 ^ 32)%N ->
  (N.of_nat (length ix') < 2 ^ 32)%N -> (N.of_nat (length ord') < 2 ^ 32)%N ->
  bcmp (spec_key t i ix ord pk) (spec_key t' i' ix' ord' pk') =
  first_diff [N.compare (Byte.to_N t) (Byte.to_N t'); N.compare (Byte.to_N i) (Byte.to_N i');
              shortlex ix ix'; shortlex ord ord'; bcmp pk pk'].
Proof. exact spec_key_cmp. Qed.
Print Assumptions C09_key_order.

Theorem C09_keys_distinct : forall t i ix ord pk t' i' ix' ord' pk',
  (N.of_nat (length ix) < 2 ^ 32)%N -> (N.of_nat (length ord) < 2 ^ 32)%N ->
  (N.of_nat (length ix') < 2 ^ 32)%N -> (N.of_nat (length ord') < 2 ^ 32)%N ->
  spec_key t i ix ord pk = spec_key t' i' ix' ord' pk' ->
  (t, i, ix, ord, pk) = (t', i', ix', ord', pk').
Proof. exact spec_key_inj. Qed.
Print Assumptions C09_keys_distinct.

Theorem C09_user_keys_apart : forall k t i ix ord pk, t <> x00 \/ i <> xff -> k <> [] ->
  new_user_key k <> spec_key t i ix ord pk.
Proof. exact user_key_apart. Qed.
Print Assumptions C09_user_keys_apart.

Theorem C09_user_keys_distinct : forall k k', k <> [] -> k' <> [] -> new_user_key k = new_user_key k' -> k = k'.
Proof. exact user_key_inj. Qed.
Print Assumptions C09_user_keys_distinct.

Example C09_case :
  bcmp (spec_key x01 x01 [xff] [] [x01]) (spec_key x01 x01 [x00; x00] [] [x01]) = Lt
  /\ new_user_key [x6b] <> spec_key x01 x00 [] [] [x6b].
Proof. split; [reflexivity|discriminate]. Qed.

(** C10. The Split contract. [wf_key k]: k starts with a complete prefix
    (table, index, length, index part). *)
Theorem C10_split_monotone : forall a b, wf_key a -> wf_key b ->
  exists pa pb, key_prefix_of a = Ok pa /\ key_prefix_of b = Ok pb /\
    (ble a b -> ble pa pb) /\ has_prefix pa a = true /\ has_prefix pb b = true /\
    key_prefix_of pa = Ok pa.
Proof. exact split_contract. Qed.
Print Assumptions C10_split_monotone.

Theorem C10_split_same_prefix : forall t i ix ord pk t' i' ix' ord' pk',
  (N.of_nat (length ix) < 2 ^ 32)%N -> (N.of_nat (length ix') < 2 ^ 32)%N ->
  key_prefix_of (spec_key t i ix ord pk) = key_prefix_of (spec_key t' i' ix' ord' pk')
  <-> (t, i, ix) = (t', i', ix').
Proof. exact split_same_prefix. Qed.
Print Assumptions C10_split_same_prefix.

Example C10_case : wf_key (spec_key x01 x01 [xff; x02] [x03] [x01]) /\
  key_prefix_of (spec_key x01 x01 [xff; x02] [x03] [x01]) = Ok [x01; x01; x00; x00; x00; x02; xff; x02].
Proof. split; [|reflexivity]. exists x01, x01, [xff; x02], (be_bytes 4 1 ++ [x03; x01]). split; reflexivity. Qed.

(** C11. Prefix scan bounds. Full statement: for every prefix the interval
    [p, successor p) is exactly the set of keys with prefix p. It is false for
    every prefix with a trailing 0xFF (and something before it). *)
Theorem C11_prefix_upper_bound_refuted : forall p b f, (Byte.to_N b < 255)%N -> (0 < f)%nat ->
  let l := p ++ b :: repeat xff f in
  exists k, ble l k /\ blt k (key_successor l) /\ ~ (exists s, k = l ++ s).
Proof. exact key_successor_inexact. Qed.
Print Assumptions C11_prefix_upper_bound_refuted.

(** It is exact when the last byte is not 0xFF, and never misses a key unless the
    prefix is all 0xFF. *)
Theorem C11_prefix_upper_bound_partial : forall l k, last_not_ff l ->
  (ble l k /\ blt k (key_successor l)) <-> exists s, k = l ++ s.
Proof. exact key_successor_exact. Qed.
Print Assumptions C11_prefix_upper_bound_partial.

Theorem C11_prefix_upper_bound_complete : forall l s, ~ all_ff l ->
  ble l (l ++ s) /\ blt (l ++ s) (key_successor l).
Proof. exact key_successor_sound. Qed.
Print Assumptions C11_prefix_upper_bound_complete.

Example C11_case : last_not_ff [x01; xff; x02] /\ ~ all_ff [x01; xff] /\
  key_successor [x01; xff; x02] = [x01; xff; x03] /\ key_successor [x01; x02; xff] = [x01; x03; xff].
Proof.
  split; [exists [x01; xff], x02; split; reflexivity|]. split; [|split; reflexivity].
  intro H. specialize (H x01 (or_introl eq_refl)). discriminate.
Qed.

(** C60. The bytes of a key tell rows (index 0) from index entries, and every key is one of them. *)
Theorem C60_key_bytes_class : forall t i ix ord pk, let k := spec_key t i ix ord pk in
  (kb_is_data_key k = Ok true <-> i = x00) /\ (kb_is_index_key k = Ok true <-> i <> x00) /\
  exists d, kb_is_data_key k = Ok d /\ kb_is_index_key k = Ok (negb d).
Proof. exact bytes_class. Qed.
Print Assumptions C60_key_bytes_class.

(** C60. The same for the decoded key of a row. *)
Theorem C60_row_class : forall t pk, exists k, key_decode (spec_key t x00 [] [] pk) = Ok k /\ is_data_key k = true /\ is_index_key k = false.
Proof. exact row_class. Qed.
Print Assumptions C60_row_class.

(** C60 is false for decoded keys of index entries: an entry with an empty index part (an index that only orders) is neither a
    data key nor an index key. The others are index keys. *)
Theorem C60_entry_class_partial : forall t i ix ord pk, (N.of_nat (length ix) < 2 ^ 32)%N -> (N.of_nat (length ord) < 2 ^ 32)%N -> i <> x00 ->
  exists k, key_decode (spec_key t i ix ord pk) = Ok k /\ is_data_key k = false /\ (is_index_key k = true <-> ix <> []).
Proof. exact entry_class. Qed.
Print Assumptions C60_entry_class_partial.

Theorem C60_order_only_index_refuted : exists t i ord pk k, i <> x00 /\ key_decode (spec_key t i [] ord pk) = Ok k /\
  kb_is_index_key (spec_key t i [] ord pk) = Ok true /\ is_index_key k = false /\ is_data_key k = false.
Proof. exists x01, x02, [x01; x05], [x01; x09]. eexists. split; [discriminate|]. split; [vm_compute; reflexivity|]. vm_compute. auto. Qed.
Print Assumptions C60_order_only_index_refuted.

Example C60_case : exists k, key_decode (spec_key x01 x02 [x01; x07] [x01; x05] [x01; x09]) = Ok k /\ is_index_key k = true /\ is_data_key k = false /\
  kb_is_data_key (spec_key x01 x00 [] [] [x01; x09]) = Ok true.
Proof. eexists. split; [vm_compute; reflexivity|]. vm_compute. auto. Qed.
