(** Property C80: queries without Intersects while rows are written. *)

From Coq Require Import List NArith Lia Bool Arith Sorting.Sorted.
From Verif.Model Require Import Bytes Go Keys Pebble Index Table Scan LiveScan Query LiveQuery.
From Verif.Spec Require Import KeySpec StoreSpec TableSpec HistSpec ScanSpec QuerySpec PagingSpec LiveScanSpec LiveQuerySpec.
From Verif.Proofs Require Import Witness TableBugs ScanBugs QueryBugs PagingBugs LiveFacts LiveBugs LiveQueryFacts LiveQueryBugs.
Import ListNotations.

(** C80. The moments of the table are [ms 0], [ms 1], …. A query, with After only together with Order: each point or range is listed at
    a moment that some pebble iterator saw. Without filter and order the rows before the offset are passed over, one round each. Of the
    others block number [n] is fetched at moment [gets n]. If a row of a block is gone the query fails with ErrNotFound, unless the
    blocks before had enough rows for offset and limit; otherwise it returns the rows read, filtered, sorted, after and within
    the window. *)
Theorem C80_live_query : forall (T F : Type) (tb : table T F), good_table tb -> forall ev, env_ok ev -> quiet ev -> forall srt,
  forall w (ms : nat -> tmap T), (forall k, consistent tb (lk_db (w k)) (lk_fl (w k)) (ms k)) ->
  forall sees gets (q : query T), sorts srt -> In (q_index q) (primary_index :: t_indexes tb) ->
  (forall k, exact_selector tb (q_index q) (ms k) (q_sel q)) -> 0 < t_prefetch tb ->
  (q_after q = None \/ q_less q <> None) -> (q_offset q < 2 ^ 63)%N -> (q_limit q < 2 ^ 63)%N ->
  exists ks l, Forall (fun k => exists j lo hi, k = sees j lo hi) ks /\ (single (q_sel q) -> exists lo hi, ks = [sees 0 lo hi]) /\
  listed tb ms (sindex_of (q_index q)) ks
    (selections (schema_of tb) (sindex_of (q_index q)) (Byte.eqb (ix_id (q_index q)) x00) (q_sel q)) l /\
  exists rows ok, gathered_from tb ms gets (q_index q) (ahead q) (skipn (ahead q) (dir (q_rev q) l)) rows ok /\
  forall fuel, length l <= fuel -> answered (schema_of tb) q rows ok (live_query tb ev srt w sees gets fuel q).
Proof. exact @live_plain. Qed.
Print Assumptions C80_live_query.

(** C80. With After and without Order, forwards over one point or range: the rows listed at the moment the query began that are
    behind the given row, wherever that row is by now. *)
Theorem C80_live_after : forall (T F : Type) (tb : table T F), good_table tb -> forall ev, env_ok ev -> quiet ev -> forall srt,
  forall w (ms : nat -> tmap T), (forall k, consistent tb (lk_db (w k)) (lk_fl (w k)) (ms k)) ->
  forall sees gets (q : query T) a, In (q_index q) (primary_index :: t_indexes tb) ->
  (forall k, exact_selector tb (q_index q) (ms k) (q_sel q)) -> 0 < t_prefetch tb ->
  single (q_sel q) -> q_less q = None -> q_after q = Some a -> q_rev q = false ->
  after_fits (schema_of tb) (sindex_of (q_index q)) (Byte.eqb (ix_id (q_index q)) x00) a (q_sel q) ->
  (q_offset q < 2 ^ 63)%N -> (q_limit q < 2 ^ 63)%N ->
  exists lo hi l e, selected tb (q_index q) (ms (sees 0 lo hi)) (q_sel q) l /\ meets (schema_of tb) (sindex_of (q_index q)) a l e /\
  exists rows ok, gathered_from tb ms gets (q_index q) (e + ahead q)
    (skipn (ahead q) (rows_after (schema_of tb) (sindex_of (q_index q)) a l)) rows ok /\
  forall fuel, length l <= fuel -> answered (schema_of tb) q rows ok (live_query tb ev srt w sees gets fuel q).
Proof. exact @live_after. Qed.
Print Assumptions C80_live_after.

(** C80. If such a query succeeds, every row it returns was stored at some moment and passes the filter, they are at most as many as
    the limit, and, without after, offset and limit, a row that nobody wrote meanwhile is returned exactly if selector and filter
    want it. *)
Theorem C80_untouched_rows : forall (T F : Type) (tb : table T F), good_table tb -> forall ev, env_ok ev -> quiet ev -> forall srt,
  forall w (ms : nat -> tmap T), (forall k, consistent tb (lk_db (w k)) (lk_fl (w k)) (ms k)) ->
  forall sees gets (q : query T) fuel out, sorts srt -> In (q_index q) (primary_index :: t_indexes tb) ->
  (forall k, exact_selector tb (q_index q) (ms k) (q_sel q)) -> 0 < t_prefetch tb ->
  (q_after q = None \/ q_less q <> None) -> (q_offset q < 2 ^ 63)%N -> (q_limit q < 2 ^ 63)%N ->
  (forall ks l, listed tb ms (sindex_of (q_index q)) ks
     (selections (schema_of tb) (sindex_of (q_index q)) (Byte.eqb (ix_id (q_index q)) x00) (q_sel q)) l -> length l <= fuel) ->
  live_query tb ev srt w sees gets fuel q = Ok out ->
  (forall x, In x out -> (exists k, ms k (s_pk (schema_of tb) x) = Some x) /\ match q_filter q with Some f => f x = true | None => True end) /\
  ((0 < q_limit q)%N -> (N.of_nat (length out) <= q_limit q)%N) /\
  (q_after q = None -> q_offset q = 0%N -> q_limit q = 0%N -> forall r, (forall k, ms k (s_pk (schema_of tb) r) = Some r) ->
     (In r out <-> picks tb (q_index q) (q_sel q) r /\ match q_filter q with Some f => f r = true | None => True end)).
Proof. exact @live_query_rows. Qed.
Print Assumptions C80_untouched_rows.

(** C80. When nothing changes it is the query of C27-C30. *)
Theorem C80_still : forall (T F : Type) (tb : table T F) ev srt sees gets q lk fuel,
  live_query tb ev srt (fun _ => lk) sees gets fuel q = execute_query tb ev srt fuel (lk_db lk) (lk_fl lk) q NoBatch.
Proof. exact @live_query_still. Qed.
Print Assumptions C80_still.

(** Five rows of kind 10 are read in blocks of three, and row 5 goes after the first. *)
Example C80_case :
  (forall k, consistent accts (lk_db (then_ five four k)) tt (match k with O => puts asc empty_map five | S _ => puts asc empty_map four end)) /\
  (forall k, exact_selector accts acct_by_kind (match k with O => puts asc empty_map five | S _ => puts asc empty_map four end) kind10) /\
  after_fits asc (sindex_of acct_by_kind) false (Acct 2 10 8 true) kind10 /\
  ask_live five four by_round 9 (q_with_limit (q_with_filter best10 even_id) 1) = Ok [Acct 2 10 8 true] /\
  ask_live five four by_round 9 (q_with_filter best10 even_id) = Err ENotFound /\
  ask_live five four by_round 9 (q_with_limit (q_with_offset best10 1) 2) = Ok [Acct 2 10 8 true; Acct 3 10 7 true] /\
  ask_live five four by_round 9 (q_with_limit (q_with_offset best10 2) 1) = Err ENotFound /\
  ask_live five four by_round 9 (q_with_limit best10 3) = Ok (firstn 3 five) /\
  ask_live four five by_round 9 (q_order (q_with_filter best10 even_id) (fun a b => N.ltb (a_score a) (a_score b))) = Ok [Acct 4 10 6 true; Acct 2 10 8 true] /\
  ask_live four five by_round 9 (q_with_after best10 (Acct 2 10 8 true)) = Ok [Acct 3 10 7 true; Acct 4 10 6 true].
Proof. split; [exact (proj1 five_ok)|]. split; [exact (proj2 five_ok)|]. split; [exact after_two|exact live_query_case]. Qed.

(** C80. A query without Order does not return its rows in the order of the index, and one with Limit not the first rows of any
    moment: while the best account of kind 10 is asked for, its score falls below that of the other. The answer is the account
    with its low score; [a1] before the change and [a3] after it would be right. *)
Theorem C80_index_order_refuted : consistent accts (lk_db (look_at [a1; a2; a3])) tt (puts asc empty_map [a1; a2; a3]) /\
  consistent accts (lk_db (look_at [a1low; a2; a3])) tt (puts asc empty_map [a1low; a2; a3]) /\
  ~ StronglySorted (pos_lt asc (sindex_of acct_by_kind)) [a1low; a3] /\
  forall fuel, 5 <= fuel ->
  ask_still [a1; a2; a3] fuel (q_with_limit best10 1) = Ok [a1] /\ ask_still [a1low; a2; a3] fuel (q_with_limit best10 1) = Ok [a3] /\
  ask_live [a1; a2; a3] [a1low; a2; a3] at_last fuel (q_with_limit best10 1) = Ok [a1low] /\
  ask_live [a1; a2; a3] [a1low; a2; a3] at_last fuel best10 = Ok [a1low; a3].
Proof. split; [exact abc_at|]. split; [exact low_at|]. split; [exact low_unordered|exact low_query]. Qed.
Print Assumptions C80_index_order_refuted.

(** C80. A row that the query would not return can make it fail: of the rows behind the first two only one is asked for, and a row two
    places behind it, deleted before the block is fetched, fails the query. *)
Theorem C80_unneeded_row_refuted :
  ask_still five 9 (q_with_limit (q_with_offset best10 2) 1) = Ok [Acct 3 10 7 true] /\
  ask_still four 9 (q_with_limit (q_with_offset best10 2) 1) = Ok [Acct 3 10 7 true] /\
  ask_live five four by_round 9 (q_with_limit (q_with_offset best10 2) 1) = Err ENotFound.
Proof. repeat split; vm_compute; reflexivity. Qed.
Print Assumptions C80_unneeded_row_refuted.
