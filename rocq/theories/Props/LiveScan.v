(** Property C65: scans while rows are written. *)

From Coq Require Import List NArith Lia Bool Arith Sorting.Sorted.
From Verif.Model Require Import Bytes Go Keys Pebble Index Table Scan LiveScan Query.
From Verif.Spec Require Import KeySpec StoreSpec TableSpec HistSpec ScanSpec QuerySpec PagingSpec LiveScanSpec.
From Verif.Proofs Require Import Witness TableBugs ScanBugs QueryBugs PagingBugs LiveFacts LiveBugs.
Import ListNotations.

(** C65. The moments of the table are [ms 0], [ms 1], …. A scan by any selector, in either direction: each point or range of the
    selector is listed at a moment that some pebble iterator saw, one point or range at the moment the scan began. The rows are those
    of the primary index entries; behind other indexes block number [n] of the rows is fetched at moment [gets n], and the scan stops
    with ErrNotFound at the first block with a row that is gone. *)
Theorem C65_live_scan : forall (T F : Type) (tb : table T F), good_table tb -> forall ev, env_ok ev -> quiet ev ->
  forall w (ms : nat -> tmap T), (forall k, consistent tb (lk_db (w k)) (lk_fl (w k)) (ms k)) ->
  forall sees gets rv idx sel, In idx (primary_index :: t_indexes tb) -> (forall k, exact_selector tb idx (ms k) sel) ->
  0 < t_prefetch tb ->
  exists ks l, Forall (fun k => exists j lo hi, k = sees j lo hi) ks /\ (single sel -> exists lo hi, ks = [sees 0 lo hi]) /\
  listed tb ms (sindex_of idx) ks (selections (schema_of tb) (sindex_of idx) (Byte.eqb (ix_id idx) x00) sel) l /\
  exists out ok, gathered tb ms gets idx (dir rv l) out ok /\
  forall fuel acc, length l <= fuel ->
    live_scan tb ev w sees gets fuel idx sel acc rv = (acc ++ out, if ok then Ok tt else Err ENotFound).
Proof. exact @live_rows. Qed.
Print Assumptions C65_live_scan.

(** C65. If such a scan succeeds, every row it returns was stored at some moment, a row that nobody wrote meanwhile is returned exactly
    if the selector wants it, and with one point or range no primary key comes twice. *)
Theorem C65_untouched_rows : forall (T F : Type) (tb : table T F), good_table tb -> forall ev, env_ok ev -> quiet ev ->
  forall w (ms : nat -> tmap T), (forall k, consistent tb (lk_db (w k)) (lk_fl (w k)) (ms k)) ->
  forall sees gets rv idx sel out fuel, In idx (primary_index :: t_indexes tb) -> (forall k, exact_selector tb idx (ms k) sel) ->
  0 < t_prefetch tb ->
  (forall ks l, listed tb ms (sindex_of idx) ks (selections (schema_of tb) (sindex_of idx) (Byte.eqb (ix_id idx) x00) sel) l -> length l <= fuel) ->
  live_scan tb ev w sees gets fuel idx sel [] rv = (out, Ok tt) ->
  (forall x, In x out -> exists k, ms k (s_pk (schema_of tb) x) = Some x) /\
  (forall r, (forall k, ms k (s_pk (schema_of tb) r) = Some r) -> (In r out <-> picks tb idx sel r)) /\
  (single sel -> NoDup (map (s_pk (schema_of tb)) out)).
Proof. exact @live_untouched. Qed.
Print Assumptions C65_untouched_rows.

(** C65. When nothing changes it is the scan of C23-C26. *)
Theorem C65_still : forall (T F : Type) (tb : table T F) ev lk sees gets fuel idx sel acc rv,
  live_scan tb ev (fun _ => lk) sees gets fuel idx sel acc rv = scan_index tb ev fuel (lk_db lk) (lk_fl lk) idx sel acc rv NoBatch.
Proof. exact @live_still. Qed.
Print Assumptions C65_still.

(** Row 2 is written while kinds 10 and 12 are scanned: the scans return the rows 1 and 3. *)
Example C65_case :
  (forall k, consistent accts (lk_db (then_ [a1; a2; a3] [a1; a2'; a3] k)) tt (match k with O => puts asc empty_map [a1; a2; a3] | S _ => puts asc empty_map [a1; a2'; a3] end)) /\
  (forall k, exact_selector accts acct_by_kind (match k with O => puts asc empty_map [a1; a2; a3] | S _ => puts asc empty_map [a1; a2'; a3] end) kinds) /\
  live_scan accts env1 (then_ [a1; a2; a3] [a1; a2'; a3]) at_first at_last 5 acct_by_kind kinds [] false = ([a1; a3], Ok tt) /\
  live_scan accts env1 (then_ [a1; a2; a3] [a1; a2'; a3]) at_first at_last 5 acct_by_kind (SPoints [Acct 0 12 9 true; Acct 0 10 9 true]) [] true =
    ([a3; a1], Ok tt).
Proof. exact live_scan_case. Qed.

(** C65. A scan does not show the table of one moment: while kind 10 is scanned row 3 is moved to kind 12, and the scan returns
    it with kind 12; [a1; a3] before the change and [a1] after it would be right. *)
Theorem C65_one_moment_refuted : consistent accts (lk_db (look_at [a1; a2; a3])) tt (puts asc empty_map [a1; a2; a3]) /\
  consistent accts (lk_db (look_at [a1; a2; a3'])) tt (puts asc empty_map [a1; a2; a3']) /\
  forall fuel, 5 <= fuel ->
  scan_index accts env1 fuel (lk_db (look_at [a1; a2; a3])) tt acct_by_kind kind10 [] false NoBatch = ([a1; a3], Ok tt) /\
  scan_index accts env1 fuel (lk_db (look_at [a1; a2; a3'])) tt acct_by_kind kind10 [] false NoBatch = ([a1], Ok tt) /\
  scan10 [a1; a2; a3'] fuel = ([a1; a3'], Ok tt).
Proof.
  split; [exact abc_at|]. split; [exact moved_at|]. intros fuel H. destruct (still_scan fuel H) as [A [B _]].
  split; [exact A|]. split; [exact B|exact (moved_scan fuel H)].
Qed.
Print Assumptions C65_one_moment_refuted.

(** C65. A scan fails if a row it is about to fetch is deleted, though it succeeds before and after the deletion. *)
Theorem C65_deleted_row_fails_refuted : consistent accts (lk_db (look_at [a1; a2; a3])) tt (puts asc empty_map [a1; a2; a3]) /\
  consistent accts (lk_db (look_at [a1; a2])) tt (puts asc empty_map [a1; a2]) /\
  forall fuel, 5 <= fuel ->
  scan_index accts env1 fuel (lk_db (look_at [a1; a2; a3])) tt acct_by_kind kind10 [] false NoBatch = ([a1; a3], Ok tt) /\
  scan_index accts env1 fuel (lk_db (look_at [a1; a2])) tt acct_by_kind kind10 [] false NoBatch = ([a1], Ok tt) /\
  scan10 [a1; a2] fuel = ([], Err ENotFound).
Proof.
  split; [exact abc_at|]. split; [exact gone_at|]. intros fuel H. destruct (still_scan fuel H) as [A [_ C]].
  split; [exact A|]. split; [exact C|exact (gone_scan fuel H)].
Qed.
Print Assumptions C65_deleted_row_fails_refuted.

(** C65. A scan by several points can return a row twice, or miss it, though the row is there and selected all the time: kinds 10 and
    12 are scanned, and when kind 10 has been read row 3 is moved from kind 10 to kind 12, or from kind 12 to kind 10. *)
Theorem C65_once_refuted : consistent accts (lk_db (look_at [a1; a2; a3])) tt (puts asc empty_map [a1; a2; a3]) /\
  consistent accts (lk_db (look_at [a1; a2; a3'])) tt (puts asc empty_map [a1; a2; a3']) /\
  forall fuel, 5 <= fuel ->
  scan_index accts env1 fuel (lk_db (look_at [a1; a2; a3])) tt acct_by_kind kinds [] false NoBatch = ([a1; a3], Ok tt) /\
  scan_index accts env1 fuel (lk_db (look_at [a1; a2; a3'])) tt acct_by_kind kinds [] false NoBatch = ([a1; a3'], Ok tt) /\
  twice_scan fuel = ([a1; a3'; a3'], Ok tt) /\ missed_scan fuel = ([a1], Ok tt).
Proof.
  split; [exact abc_at|]. split; [exact moved_at|]. intros fuel H. destruct (twice fuel H) as [A [B C]].
  split; [exact B|]. split; [exact C|]. split; [exact A|exact (missed fuel H)].
Qed.
Print Assumptions C65_once_refuted.
