(** Property C64: paging through a table that changes. *)

From Coq Require Import List NArith Lia Bool Arith Sorting.Sorted.
From Verif.Model Require Import Bytes Go Keys Pebble Index Table Scan Query.
From Verif.Spec Require Import KeySpec StoreSpec TableSpec HistSpec ScanSpec QuerySpec PagingSpec.
From Verif.Proofs Require Import Witness TableBugs ScanBugs QueryBugs PagingFacts PagingBugs.
Import ListNotations.

(** C64. Pages of [n] rows without Order, each after the last row of the page before, page [i] run when the table is [w i]:
    no row comes twice, the rows ascend, each page has at most [n] rows, all asked for at its moment, and every row that the
    query asks for at all these moments is on a page. Missing: Order (refuted below), and what C29 excludes. *)
Theorem C64_live_paging_partial : forall (T F : Type) (tb : table T F), good_table tb -> forall ev, env_ok ev ->
  forall srt, 0 < t_prefetch tb -> quiet ev ->
  forall (w : nat -> moment T F) q n fuel, (forall i, reads tb (mo_db (w i)) (mo_fl (w i)) (mo_ob (w i)) (mo_rows (w i))) ->
  In (q_index q) (primary_index :: t_indexes tb) -> (forall i, exact_selector tb (q_index q) (mo_rows (w i)) (q_sel q)) ->
  q_inter q = [] -> q_less q = None -> q_after q = None -> q_rev q = false -> q_offset q = 0%N ->
  (0 < n < 2 ^ 63)%N -> (forall ps, q_sel q = SPoints ps -> Byte.eqb (ix_id (q_index q)) x00 = false) ->
  (forall i l, selected tb (q_index q) (mo_rows (w i)) (q_sel q) l ->
     StronglySorted (pos_lt (schema_of tb) (sindex_of (q_index q))) l /\ length l <= fuel i) ->
  forall k ps, live_pages (fun i a => execute tb ev srt (fuel i) (mo_db (w i)) (mo_fl (w i)) (page (q_with_limit q n) a) (mo_ob (w i))) k 0 None = Ok ps ->
    NoDup (concat ps) /\ StronglySorted (pos_lt (schema_of tb) (sindex_of (q_index q))) (concat ps) /\
    (forall i p, nth_error ps i = Some p -> 1 <= length p <= N.to_nat n /\ forall r, In r p -> asked tb q (mo_rows (w i)) r) /\
    (forall r, (forall i, i <= length ps -> asked tb q (mo_rows (w i)) r) -> In r (concat ps)).
Proof. exact @live_paging. Qed.
Print Assumptions C64_live_paging_partial.

(** C64. Such paging ends, with no error, if all the rows ever asked for are in some list [U], after as many pages at most. *)
Theorem C64_live_paging_ends : forall (T F : Type) (tb : table T F), good_table tb -> forall ev, env_ok ev ->
  forall srt, 0 < t_prefetch tb -> quiet ev ->
  forall (w : nat -> moment T F) q n fuel, (forall i, reads tb (mo_db (w i)) (mo_fl (w i)) (mo_ob (w i)) (mo_rows (w i))) ->
  In (q_index q) (primary_index :: t_indexes tb) -> (forall i, exact_selector tb (q_index q) (mo_rows (w i)) (q_sel q)) ->
  q_inter q = [] -> q_less q = None -> q_after q = None -> q_rev q = false -> q_offset q = 0%N ->
  (0 < n < 2 ^ 63)%N -> (forall ps, q_sel q = SPoints ps -> Byte.eqb (ix_id (q_index q)) x00 = false) ->
  (forall i l, selected tb (q_index q) (mo_rows (w i)) (q_sel q) l ->
     StronglySorted (pos_lt (schema_of tb) (sindex_of (q_index q))) l /\ length l <= fuel i) ->
  forall (U : list T) k, (forall i r, asked tb q (mo_rows (w i)) r -> In r U) -> length U < k ->
  exists ps, live_pages (fun i a => execute tb ev srt (fuel i) (mo_db (w i)) (mo_fl (w i)) (page (q_with_limit q n) a) (mo_ob (w i))) k 0 None = Ok ps.
Proof. exact @live_ends. Qed.
Print Assumptions C64_live_paging_ends.

(** After the first page row 1 is deleted and row 4 inserted. *)
Example C64_case : (forall i, reads accts (mo_db (one_out i)) (mo_fl (one_out i)) (mo_ob (one_out i)) (mo_rows (one_out i)) /\
    exact_selector accts (q_index all_ids) (mo_rows (one_out i)) (q_sel all_ids)) /\
  live_pages (run_at one_out (q_with_limit all_ids 1) 5) 5 0 None = Ok [[a1]; [a2]; [a3]; [a4]].
Proof. exact live_case. Qed.

(** C64. With Order, if the last row of a page is deleted before the next page, that page starts from the first row again. *)
Theorem C64_ordered_paging_refuted :
  (forall i, reads accts (mo_db (three_out i)) (mo_fl (three_out i)) (mo_ob (three_out i)) (mo_rows (three_out i))) /\
  forall fuel, 5 <= fuel ->
  live_pages (run_at three_out (q_with_limit (q_order all_ids by_score) 2) fuel) 3 0 None = Ok [[a2; a3]; [a2; a1]].
Proof. exact live_ordered. Qed.
Print Assumptions C64_ordered_paging_refuted.
