(** Properties C50, C51: builders, records and queries that share memory. *)

From Coq Require Import List NArith Bool Arith Lia.
From Verif.Model Require Import Bytes Go Keys Slices.
From Verif.Spec Require Import SliceSpec.
From Verif.Proofs Require Import SliceFacts.
Import ListNotations.

(** C50 is false as stated: OrderBytes with DESC complements the bytes of the caller's record. For every record with a non-empty byte
    field the record is changed, and the next computation gives another key. *)
Theorem C50_order_bytes_desc_refuted : forall grow h s, sl_ok h s -> 0 < sl_len s -> exists h1 b1 h2 b2, let b := HKB (Slc 0 0 0 0) x00 in
  h_run grow h b [SOrderBytes s true] = Ok (h1, b1) /\ h_run grow h1 b [SOrderBytes s true] = Ok (h2, b2) /\
  sl_read h1 s <> sl_read h s /\ sl_read h2 (hb_buff b2) <> sl_read h1 (hb_buff b1) /\ sl_read h2 s = sl_read h s.
Proof. exact desc_twice. Qed.
Print Assumptions C50_order_bytes_desc_refuted.

(** C50. What OrderBytes DESC does: the right key this time, and the complement left in the record. *)
Theorem C50_order_bytes_desc : forall grow h b s, sl_ok h (hb_buff b) -> sl_ok h s ->
  (sl_arr s <> sl_arr (hb_buff b) \/ sl_off s + sl_len s <= sl_off (hb_buff b) \/ sl_off (hb_buff b) + sl_cap (hb_buff b) <= sl_off s) ->
  exists h' b', h_run grow h b [SOrderBytes s true] = Ok (h', b') /\
  KB (sl_read h' (hb_buff b')) (hb_fid b') = fst (order_bytes (KB (sl_read h (hb_buff b)) (hb_fid b)) (sl_read h s) true) /\
  sl_read h' s = snd (order_bytes (KB (sl_read h (hb_buff b)) (hb_fid b)) (sl_read h s) true).
Proof. exact order_bytes_in_place. Qed.
Print Assumptions C50_order_bytes_desc.

(** C50, C51. Any chain of other calls, whatever the capacities and however memory grows: the bytes are those of the builder as a value
    (Model/Keys.v), a panic happens exactly when it does there, and nothing that lies outside the free room behind the builder is
    changed, in particular no byte slice of a record. *)
Theorem C50_record_kept_partial : forall grow h b xs, sl_ok h (hb_buff b) -> Forall (fun x => ~ in_place x) xs ->
  Forall (fun x => Forall (fun s => sl_ok h s /\ apart (hb_buff b) s) (step_slices x)) xs ->
  match add_fields (KB (sl_read h (hb_buff b)) (hb_fid b)) (map (step_value h) xs) with
  | Ok k => exists h' b', h_run grow h b xs = Ok (h', b') /\ KB (sl_read h' (hb_buff b')) (hb_fid b') = k /\ sl_ok h' (hb_buff b') /\
      forall t, sl_ok h t -> apart (hb_buff b) t -> sl_read h' t = sl_read h t /\ sl_ok h' t
  | r => match h_run grow h b xs with Ok _ => False | Err e => r = Err e | Panic => r = Panic | Diverge => r = Diverge end
  end.
Proof. exact chain. Qed.
Print Assumptions C50_record_kept_partial.

(** C50. So the same record gives the same key every time. *)
Theorem C50_same_key_partial : forall grow h b xs h1 b1 b2 h2 b3, sl_ok h (hb_buff b) -> Forall (fun x => ~ in_place x) xs ->
  Forall (fun x => Forall (fun s => sl_ok h s /\ apart (hb_buff b) s /\ apart (hb_buff b2) s) (step_slices x)) xs ->
  h_run grow h b xs = Ok (h1, b1) ->
  sl_ok h1 (hb_buff b2) -> sl_read h1 (hb_buff b2) = sl_read h (hb_buff b) -> hb_fid b2 = hb_fid b ->
  h_run grow h1 b2 xs = Ok (h2, b3) -> sl_read h2 (hb_buff b3) = sl_read h1 (hb_buff b1).
Proof. exact again. Qed.
Print Assumptions C50_same_key_partial.

(** A record with bytes 1 2 3 in array 0 and a builder with four free cells in array 1, extended beyond them. *)
Example C50_case : let h := [[x01; x02; x03]; [xaa; x00; x00; x00; x00]] in let b := HKB (Slc 1 0 1 5) x00 in let s := Slc 0 0 3 3 in
  sl_ok h (hb_buff b) /\ sl_ok h s /\ apart (hb_buff b) s /\
  exists h' b', h_run (fun old n => 2 * old - n) h b [SBytes s; SVal (FUint16 258); SOrderBytes s false] = Ok (h', b') /\
  sl_read h' (hb_buff b') = [xaa; x01; x01; x02; x03; x02; x01; x02; x03; x01; x02; x03] /\ sl_read h' s = [x01; x02; x03].
Proof.
  cbv zeta. split; [split; [cbn; lia|right; split; cbn; lia]|]. split; [split; [cbn; lia|right; split; cbn; lia]|].
  split; [left; discriminate|]. eexists _, _. split; [vm_compute; reflexivity|]. split; vm_compute; reflexivity.
Qed.

(** C51 is false as stated: of two extensions of a builder with free room the second overwrites the first. *)
Theorem C51_builder_shared_refuted : forall grow h b x y, sl_ok h (hb_buff b) -> sl_len (hb_buff b) + 2 <= sl_cap (hb_buff b) ->
  exists h1 b1 h2 b2, h_run grow h b [SVal (FByte x)] = Ok (h1, b1) /\ h_run grow h1 b [SVal (FByte y)] = Ok (h2, b2) /\
  sl_read h1 (hb_buff b1) = sl_read h (hb_buff b) ++ [next_fid (hb_fid b); x] /\
  sl_read h2 (hb_buff b1) = sl_read h (hb_buff b) ++ [next_fid (hb_fid b); y].
Proof. exact shared_builder. Qed.
Print Assumptions C51_builder_shared_refuted.

(** C51. Two extensions of a builder without free room are independent. *)
Theorem C51_full_builder_partial : forall grow h b xs ys h1 b1 h2 b2, sl_ok h (hb_buff b) -> sl_len (hb_buff b) = sl_cap (hb_buff b) ->
  Forall (fun x => ~ in_place x) (xs ++ ys) -> Forall (fun x => Forall (sl_ok h) (step_slices x)) (xs ++ ys) ->
  h_run grow h b xs = Ok (h1, b1) -> h_run grow h1 b ys = Ok (h2, b2) ->
  add_fields (KB (sl_read h (hb_buff b)) (hb_fid b)) (map (step_value h) xs) = Ok (KB (sl_read h2 (hb_buff b1)) (hb_fid b1)) /\
  add_fields (KB (sl_read h (hb_buff b)) (hb_fid b)) (map (step_value h) ys) = Ok (KB (sl_read h2 (hb_buff b2)) (hb_fid b2)).
Proof. exact full_builder. Qed.
Print Assumptions C51_full_builder_partial.

Example C51_case : let h := [[xaa; xbb]] in let b := HKB (Slc 0 0 2 2) x00 in sl_ok h (hb_buff b) /\
  exists h1 b1 h2 b2, h_run (fun old n => 2 * old - n) h b [SVal (FByte x01); SVal (FByte x02)] = Ok (h1, b1) /\
  h_run (fun old n => 2 * old - n) h1 b [SVal (FByte x03)] = Ok (h2, b2) /\
  sl_read h2 (hb_buff b1) = [xaa; xbb; x01; x01; x02; x02] /\ sl_read h2 (hb_buff b2) = [xaa; xbb; x01; x03].
Proof.
  cbv zeta. split; [split; [cbn; lia|right; split; cbn; lia]|]. eexists _, _, _, _. split; [vm_compute; reflexivity|].
  split; [vm_compute; reflexivity|]. split; vm_compute; reflexivity.
Qed.

(** C51. The same for queries: with Go's doubling of small slices, the fourth intersect of one query replaces that of another. *)
Theorem C51_query_shared_refuted : forall (Q : Type) (v : Q) (a b c d e : hquery Q), d <> e -> exists h q h1 q1 h2 q2,
  hq_run (fun old n => 2 * old - n) a [] (HQ v (Slc 0 0 0 0)) [QIntersects [a]; QIntersects [b]; QIntersects [c]] = (h, q) /\
  hq_run (fun old n => 2 * old - n) a h q [QIntersects [d]] = (h1, q1) /\ hq_run (fun old n => 2 * old - n) a h1 q [QIntersects [e]] = (h2, q2) /\
  sl_read h1 (hq_inter q1) = [a; b; c; d] /\ sl_read h2 (hq_inter q1) = [a; b; c; e].
Proof. exact @q_shared. Qed.
Print Assumptions C51_query_shared_refuted.

(** C51. A single chain of calls on a query gives the query as a value; two chains from a query without free room do not disturb each other. *)
Theorem C51_query_chain_partial : forall (Q : Type) grow z (h : heap (hquery Q)) q xs h' q', sl_ok h (hq_inter q) -> hq_run grow z h q xs = (h', q') ->
  q_chain (hq_val q) (sl_read h (hq_inter q)) xs = (hq_val q', sl_read h' (hq_inter q')) /\ sl_ok h' (hq_inter q') /\
  forall t, sl_ok h t -> apart (hq_inter q) t -> sl_read h' t = sl_read h t /\ sl_ok h' t.
Proof. exact @q_chain_ok. Qed.
Print Assumptions C51_query_chain_partial.

Theorem C51_full_query_partial : forall (Q : Type) grow z (h : heap (hquery Q)) q xs ys h1 q1 h2 q2,
  sl_ok h (hq_inter q) -> sl_len (hq_inter q) = sl_cap (hq_inter q) ->
  hq_run grow z h q xs = (h1, q1) -> hq_run grow z h1 q ys = (h2, q2) ->
  q_chain (hq_val q) (sl_read h (hq_inter q)) xs = (hq_val q1, sl_read h2 (hq_inter q1)) /\
  q_chain (hq_val q) (sl_read h (hq_inter q)) ys = (hq_val q2, sl_read h2 (hq_inter q2)).
Proof. exact @q_full. Qed.
Print Assumptions C51_full_query_partial.

(** A new query has no intersects and no room for any. *)
Example C51_query_case : let z := HQ 0 (Slc 0 0 0 0) in let a := HQ 1 (Slc 0 0 0 0) in let b := HQ 2 (Slc 0 0 0 0) in sl_ok (@nil (list (hquery nat))) (hq_inter z) /\
  exists h1 q1 h2 q2, hq_run (fun old n => 2 * old - n) z [] z [QIntersects [a; b]; QOther S] = (h1, q1) /\
  hq_run (fun old n => 2 * old - n) z h1 z [QIntersects [b]] = (h2, q2) /\
  sl_read h2 (hq_inter q1) = [a; b] /\ hq_val q1 = 1 /\ sl_read h2 (hq_inter q2) = [b].
Proof.
  cbv zeta. split; [split; [auto|left; reflexivity]|]. eexists _, _, _, _. split; [vm_compute; reflexivity|]. split; [vm_compute; reflexivity|]. vm_compute. auto.
Qed.
