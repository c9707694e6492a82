(** Property C71: scans and queries that share pooled buffers. *)

From Coq Require Import List NArith Bool Arith Lia.
From Verif.Model Require Import Bytes Go Keys Pebble Index Table Scan Query Slices Mem MemScan MemQuery MemInter.
From Verif.Spec Require Import SliceSpec TableSpec MemSpec MemScanSpec.
From Verif.Proofs Require Import MemFacts MemCalls MemBounds MemScanFacts MemQueryFacts MemInterFacts Witness TableBugs ScanBugs QueryBugs MemWitness MemScanWitness.
Import ListNotations.

(** C71, ScanForEach and ScanIndexForEach on the primary index: for every table and index whose key functions append, all buffers that overlap
    nowhere, every growth of memory and everything other goroutines do to memory that is not held, every selector, and every callback that looks
    at the key it was given only during that call: the outcome is that of the scan on values, of which Props/Scan.v speaks; the buffers that go
    back to the pools overlap nowhere; and the scan never changes what other slices show. *)
Theorem C71_primary_scan : forall grow noise foreign T F (mt : mtable T F) (ev : env T) W (fm : W -> slc -> mprog T W) fv
    fuel m bufs kb mkb vals db fl idx sel rev ob s m' back k' out,
  leaves noise foreign -> implements mt -> env_ok ev -> (forall w b sl, looks_any_time b sl (fv w b) (fm w sl)) ->
  implements_index mt idx -> ix_id idx = primary_index_id -> length bufs = bounds_of sel -> scan_room foreign m bufs kb mkb vals ->
  m_scan_index_for_each grow noise mt ev fuel m bufs kb mkb vals db fl idx sel fm rev ob s = (m', (back, k'), out) ->
  scan_index_for_each (mt_val mt) ev fuel db fl idx sel fv rev ob s = out /\ returned foreign m m' (mkb :: k' :: back).
Proof. exact @primary_scan. Qed.
Print Assumptions C71_primary_scan.

(** C71, on any index, for callbacks that look at the key before they call Get, and call Get at most once. *)
Theorem C71_scan_partial : forall grow noise foreign T F (mt : mtable T F) (ev : env T) W (fm : W -> slc -> mprog T W) fv
    fuel m bufs kb mkb vals db fl idx sel rev ob s m' back k' out,
  leaves noise foreign -> implements mt -> env_ok ev -> (forall w b sl, looks_first b sl (fv w b) (fm w sl)) ->
  implements_index mt idx -> 0 < t_prefetch (mt_val mt) -> length vals = t_prefetch (mt_val mt) ->
  length bufs = bounds_of sel -> scan_room foreign m bufs kb mkb vals ->
  m_scan_index_for_each grow noise mt ev fuel m bufs kb mkb vals db fl idx sel fm rev ob s = (m', (back, k'), out) ->
  scan_index_for_each (mt_val mt) ev fuel db fl idx sel fv rev ob s = out /\ returned foreign m m' (mkb :: k' :: back).
Proof. exact @first_scan. Qed.
Print Assumptions C71_scan_partial.

(** C71, ScanIndex. *)
Theorem C71_scan_index : forall grow noise foreign T F (mt : mtable T F) (ev : env T)
    fuel m bufs kb mkb vals db fl idx sel acc rev ob m' back k' out,
  leaves noise foreign -> implements mt -> env_ok ev -> implements_index mt idx -> 0 < t_prefetch (mt_val mt) -> length vals = t_prefetch (mt_val mt) ->
  length bufs = bounds_of sel -> scan_room foreign m bufs kb mkb vals ->
  m_scan_index grow noise mt ev fuel m bufs kb mkb vals db fl idx sel acc rev ob = (m', (back, k'), out) ->
  scan_index (mt_val mt) ev fuel db fl idx sel acc rev ob = out /\ returned foreign m m' (mkb :: k' :: back).
Proof. exact @append_scan. Qed.
Print Assumptions C71_scan_index.

(** C71, the scan that fills a filter, whatever Add does with a key: it is given the bytes of every key. *)
Theorem C71_filter_scan : forall grow noise foreign T F (mt : mtable T F) (ev : env T) W (add : W -> bytes -> W)
    fuel m bufs kb mkb vals db fl idx sel rev ob s m' back k' out,
  leaves noise foreign -> implements mt -> env_ok ev -> implements_index mt idx -> 0 < t_prefetch (mt_val mt) -> length vals = t_prefetch (mt_val mt) ->
  length bufs = bounds_of sel -> scan_room foreign m bufs kb mkb vals ->
  m_scan_index_for_each grow noise mt ev fuel m bufs kb mkb vals db fl idx sel (m_filter_cb add) rev ob s = (m', (back, k'), out) ->
  scan_index_for_each (mt_val mt) ev fuel db fl idx sel (fun w b => PRet (add w b) true None) rev ob s = out /\ returned foreign m m' (mkb :: k' :: back).
Proof. exact @filter_scan. Qed.
Print Assumptions C71_filter_scan.

(** C71, Execute of a query without Intersects, with as many pairs of buffers as the selector, which After may change, has bounds. *)
Theorem C71_query : forall grow noise foreign T F (mt : mtable T F) (ev : env T) srt
    fuel m bufs kb mkb vals db fl q ob m' back k' r,
  leaves noise foreign -> implements mt -> env_ok ev -> implements_index mt (q_index q) ->
  0 < t_prefetch (mt_val mt) -> length vals = t_prefetch (mt_val mt) -> scan_room foreign m bufs kb mkb vals ->
  length bufs = match q_after q, q_less q with
                | Some a, None => match selector_with_after (mt_val mt) (q_index q) a (q_sel q) with Ok s => bounds_of s | _ => 0 end
                | _, _ => bounds_of (q_sel q)
                end ->
  m_execute_query grow noise mt ev srt fuel m bufs kb mkb vals db fl q ob = (m', (back, k'), r) ->
  execute_query (mt_val mt) ev srt fuel db fl q ob = r /\ returned foreign m m' (mkb :: k' :: back).
Proof. exact @query_scan. Qed.
Print Assumptions C71_query.

(** C71, Execute of a query with Intersects. The bounds of each index use the buffers that the index before gave back; the keys wait in maps as strings over
    memory of their own, and come back as slices of any capacities [junk] whatever. The rows and errors are those of the query on values. *)
Theorem C71_intersect : forall grow noise junk foreign T F (mt : mtable T F) (ev : env T) srt fuel m pool kb db fl q ob m' pool' kb' r,
  leaves noise foreign -> implements mt -> env_ok ev ->
  Forall (fun p => implements_index mt (q_index p) /\ bounds_of (q_sel p) <= length pool) (q :: q_inter q) ->
  buffers (m_heap m) (kb :: sides pool ++ foreign) ->
  m_execute_intersect grow noise junk mt ev srt fuel m pool kb db fl q ob = (m', (pool', kb'), r) ->
  execute_intersect (mt_val mt) ev srt fuel db fl q ob = r /\ returned foreign m m' (kb' :: sides pool').
Proof. intros; eapply inter_scan; eauto. Qed.
Print Assumptions C71_intersect.

(** The accounts of kind 10 that are in one of two ranges of scores and have score 2, 4 or 5: the second and third index use the buffers of those before, and
    the slices made of the keys claim room for a thousand bytes more. In order and past the account 4 only account 5 is left. *)
Example C71_intersect_case :
  let by_score sel := MkQuery acct_by_score sel false None None 0 0 None [] in
  let q := q_intersects (q_with (new_query accts) acct_by_kind kind10)
    [by_score (SRanges [[Acct 0 0 1 true; Acct 0 0 3 true]; [Acct 0 0 4 true; Acct 0 0 9 true]]);
     by_score (SPoints [Acct 0 0 5 true; Acct 0 0 4 true; Acct 0 0 2 true])] in
  let junk := fun s => sl_len s + 1000 in
  let pool := bnd ++ [(Slc 1 50 0 30, Slc 1 80 0 9)] in
  implements accts_mem /\ leaves busy others /\
  Forall (fun p => implements_index accts_mem (q_index p) /\ bounds_of (q_sel p) <= length pool) (q :: q_inter q) /\
  buffers (m_heap hall) (itb :: sides pool ++ others) /\
  (let '(m, (pool', k), r) := m_execute_intersect dbl busy junk accts_mem env1 isort 20 hall pool itb five_db tt q NoBatch in
   r = Ok [Acct 2 10 2 true; Acct 4 10 4 true; Acct 5 10 5 true] /\ length pool' = 3 /\ 20 < length (m_past m)) /\
  (let '(_, _, r) := m_execute_intersect dbl busy junk accts_mem env1 isort 20 hall pool itb five_db tt
      (q_with_after (q_order q (fun a b => a_id a <? a_id b)%N) (Acct 4 0 0 true)) NoBatch in
   r = Ok [Acct 5 10 5 true]).
Proof.
  split; [exact accts_implements|]. split; [apply scribble_leaves|]. split.
  { pose proof accts_by_kind_mem as K. pose proof accts_by_score_mem as S.
    repeat (apply Forall_cons; [split; [first [exact K|exact S]|cbn; lia]|]). apply Forall_nil. }
  split.
  { split.
    - repeat (apply Forall_cons || apply Forall_nil); (split; [cbn; lia|right; split; cbn; lia]).
    - unfold bnd, itb, others, sides, disjoint; cbn [app flat_map fst snd].
      repeat (first [apply FOP_cons|apply FOP_nil|apply Forall_cons|apply Forall_nil]); cbn [sl_arr sl_off sl_cap];
        first [left; lia|right; left; lia|right; right; left; lia|right; right; right; lia]. }
  split; vm_compute; repeat split. repeat constructor.
Qed.

(** Not so for a callback that looks at the key behind Get while it scans a secondary index: Get moves the iterator whose memory the key is. *)
Theorem C71_key_after_get_refuted : exists W (fm : W -> slc -> mprog acct W) fv m bufs kb mkb vals db sel w fuel,
  (forall w b s, looks_any_time b s (fv w b) (fm w s)) /\ implements accts_mem /\ implements_index accts_mem acct_by_kind /\ leaves busy others /\
  scan_room others m bufs kb mkb vals /\ length bufs = bounds_of sel /\ length vals = t_prefetch accts /\
  snd (scan_index_for_each accts env1 fuel db tt acct_by_kind sel fv false NoBatch w) = Ok tt /\
  snd (m_scan_index_for_each dbl busy accts_mem env1 fuel m bufs kb mkb vals db tt acct_by_kind sel fm false NoBatch w)
    <> scan_index_for_each accts env1 fuel db tt acct_by_kind sel fv false NoBatch w.
Proof. exact late_key. Qed.
Print Assumptions C71_key_after_get_refuted.

(** Nor for a callback that keeps the keys without copying them, on either kind of index: here all five slices show the last key. *)
Theorem C71_kept_key_refuted : forall idx, In idx [primary_index; acct_by_kind] -> exists m bufs kb mkb vals db sel fuel,
  implements accts_mem /\ implements_index accts_mem idx /\ leaves busy others /\ scan_room others m bufs kb mkb vals /\ length bufs = bounds_of sel /\
  length vals = t_prefetch accts /\
  let '(m', _, (ks, r)) := m_scan_index_for_each dbl busy accts_mem env1 fuel m bufs kb mkb vals db tt idx sel keep_key false NoBatch [] in
  let '(bs, r') := scan_index_for_each accts env1 fuel db tt idx sel (fun w b => PRet (w ++ [b]) true None) false NoBatch [] in
  r = Ok tt /\ r' = Ok tt /\ length ks = 5 /\ NoDup bs /\ map (m_read m') ks = repeat (nth 4 bs []) 5.
Proof. exact kept_key. Qed.
Print Assumptions C71_kept_key_refuted.

(** Scans of five accounts fetched three at a time, with buffers side by side in one array, some without enough room, while other goroutines write over
    a free array and allocate: by kind; by two ranges backwards; a query with Offset, Limit and After; and a primary scan whose callback looks at the key
    behind Get. *)
Example C71_case : implements accts_mem /\ implements_index accts_mem acct_by_kind /\ implements_index accts_mem primary_index /\
  leaves busy others /\ (forall n, scan_room others hall (firstn n bnd) itb mkb1 vbs) /\
  (let '(m, (back, k), out) := m_scan_index dbl busy accts_mem env1 20 hall (firstn 1 bnd) itb mkb1 vbs five_db tt acct_by_kind kind10 [] false NoBatch in
   out = (rev five, Ok tt) /\ length back = 5 /\ 20 < length (m_past m) /\ m_heap m <> m_heap hall) /\
  (let '(m, _, out) := m_scan_index dbl busy accts_mem env1 20 hall bnd itb mkb1 vbs five_db tt acct_by_kind
      (SRanges [[Acct 0 10 3 true; Acct 9 10 1 true]; [Acct 0 10 6 true; Acct 9 10 4 true]]) [] true NoBatch in
   out = scan_index accts env1 20 five_db tt acct_by_kind
      (SRanges [[Acct 0 10 3 true; Acct 9 10 1 true]; [Acct 0 10 6 true; Acct 9 10 4 true]]) [] true NoBatch /\ length (fst out) = 5) /\
  (let q := q_with_limit (q_with_offset (q_with_after (q_with (new_query accts) acct_by_kind kind10) (Acct 4 10 4 true)) 1) 1 in
   let '(_, _, r) := m_execute_query dbl busy accts_mem env1 isort 20 hall (firstn 1 bnd) itb mkb1 vbs five_db tt q NoBatch in r = Ok [Acct 2 10 2 true]) /\
  (let '(_, _, out) := m_scan_index_for_each dbl busy accts_mem env1 20 hall (firstn 1 bnd) itb mkb1 vbs five_db tt primary_index kind10 late_look false NoBatch [] in
   out = scan_index_for_each accts env1 20 five_db tt primary_index kind10 late_value false NoBatch [] /\ length (fst out) = 5).
Proof.
  split; [exact accts_implements|]. split; [exact accts_by_kind_mem|]. split; [exact accts_primary_mem|]. split; [apply scribble_leaves|].
  split; [exact hall_room|]. split; [|split; [|split]].
  - vm_compute. repeat split; try discriminate. repeat constructor.
  - vm_compute. repeat split.
  - vm_compute. reflexivity.
  - vm_compute. repeat split.
Qed.
