(** Properties C27-C30: queries. *)

From Coq Require Import List NArith Lia Bool Arith Sorting.Sorted.
From Verif.Model Require Import Bytes Go Keys Pebble Index Table Scan Query.
From Verif.Spec Require Import KeySpec StoreSpec TableSpec HistSpec ScanSpec QuerySpec.
From Verif.Proofs Require Import Witness TableBugs ScanBugs QueryProps InterFacts QueryBugs.
Import ListNotations.

(** C27. A query without Order and After returns the selected rows in scan direction, filtered,
    then cut by offset and limit; it reads no row once it has as many as offset and limit need.
    Missing: selectors that are not exact, offsets and limits from 2^63 on (refuted below). *)
Theorem C27_query_rows_partial : forall (T F : Type) (tb : table T F), good_table tb -> forall ev, env_ok ev ->
  forall srt db fl ob m, reads tb db fl ob m -> 0 < t_prefetch tb -> quiet ev ->
  forall q, In (q_index q) (primary_index :: t_indexes tb) -> exact_selector tb (q_index q) m (q_sel q) ->
  q_inter q = [] -> q_less q = None -> q_after q = None -> (q_offset q < 2 ^ 63)%N -> (q_limit q < 2 ^ 63)%N ->
  exists l, selected tb (q_index q) m (q_sel q) l /\
  forall fuel, enough q (dir (q_rev q) l) fuel ->
    execute tb ev srt fuel db fl q ob = Ok (window (q_offset q) (q_limit q) (keep (q_filter q) (dir (q_rev q) l))).
Proof. exact @query_plain. Qed.
Print Assumptions C27_query_rows_partial.

Example C27_case : run 5 (q_with_limit (q_with_offset (q_with_filter (q_reverse all_ids) a_on) 1) 7) = Ok [a1] /\
  run 2 (q_with_limit all_ids 2) = Ok [a1; a2] /\ run 1 (q_with_limit all_ids 2) = Diverge.
Proof. repeat split; vm_compute; reflexivity. Qed.

Theorem C27_overflow_loses_rows_refuted : reads accts abc_db tt NoBatch abc_m /\ forall fuel, 5 <= fuel ->
  run fuel all_ids = Ok [a1; a2; a3] /\ run fuel (q_with_limit (q_with_offset all_ids 1) (2 ^ 64 - 1)) = Ok [a2].
Proof. split; [exact abc_reads|]. intros fuel H. split; [exact (all_ids_rows fuel H)|exact (overflow_loses fuel H)]. Qed.
Print Assumptions C27_overflow_loses_rows_refuted.

Theorem C27_huge_limit_panics_refuted : reads accts abc_db tt NoBatch abc_m /\ forall fuel, 5 <= fuel ->
  run fuel (q_with_limit (q_order all_ids by_score) (2 ^ 64 - 1)) = Panic /\
  run fuel (q_with_limit (q_with all_ids primary_index (SRange (Acct 5 0 0 false) (Acct 9 0 0 false))) (2 ^ 64 - 1)) = Panic.
Proof. split; [exact abc_reads|exact huge_limit_panics]. Qed.
Print Assumptions C27_huge_limit_panics_refuted.

(** C27. Building a query: of several calls of With, Filter, Order, Offset, Limit and After the last of each kind
    counts, whatever their order; Reverse twice is no Reverse; Intersects adds to what was given before. *)
Theorem C27_builder_chain : forall (T F : Type) (tb : table T F) (l : list (qcall T)),
  let q := fold_left build l (new_query tb) in
  settled pick_with (primary_index, SPoint (t_empty tb)) l (q_index q, q_sel q) /\
  settled pick_filter None l (q_filter q) /\ settled pick_order None l (q_less q) /\
  settled pick_offset 0%N l (q_offset q) /\ settled pick_limit 0%N l (q_limit q) /\ settled pick_after None l (q_after q) /\
  q_rev q = Nat.odd (reverses l) /\ q_inter q = intersected l.
Proof. exact @builder_chain. Qed.
Print Assumptions C27_builder_chain.

Example C27_builder_case :
  let q := fold_left build [QLimit 3; QReverse; QInter [all_ids]; QOffset 1; QReverse; QLimit 2; QInter [of_kind; all_ids]; QReverse] (new_query accts) in
  q_limit q = 2%N /\ q_offset q = 1%N /\ q_rev q = true /\ q_inter q = [all_ids; of_kind; all_ids] /\ q_after q = None.
Proof. repeat split. Qed.

(** C28. With Order the filtered rows are sorted first, then everything up to and including the
    After row (found by primary key) is dropped, then offset and limit apply. *)
Theorem C28_order_partial : forall (T F : Type) (tb : table T F), good_table tb -> forall ev, env_ok ev ->
  forall srt db fl ob m, reads tb db fl ob m -> 0 < t_prefetch tb -> quiet ev ->
  forall q less, sorts srt -> In (q_index q) (primary_index :: t_indexes tb) -> exact_selector tb (q_index q) m (q_sel q) ->
  q_inter q = [] -> q_less q = Some less -> (q_offset q < 2 ^ 63)%N -> (q_limit q < 2 ^ 63)%N ->
  exists l s a, selected tb (q_index q) m (q_sel q) l /\
    ordered (Some less) (keep (q_filter q) (dir (q_rev q) l)) s /\ behind_opt (schema_of tb) (q_after q) s a /\
  forall fuel, length l <= fuel -> execute tb ev srt fuel db fl q ob = Ok (window (q_offset q) (q_limit q) a).
Proof. exact @query_order. Qed.
Print Assumptions C28_order_partial.

(** C28. Without Order and Reverse, After leaves the selected rows positioned behind the given
    row. Missing: the cases refuted below. *)
Theorem C28_after_partial : forall (T F : Type) (tb : table T F), good_table tb -> forall ev, env_ok ev ->
  forall srt db fl ob m, reads tb db fl ob m -> 0 < t_prefetch tb -> quiet ev ->
  forall q a, In (q_index q) (primary_index :: t_indexes tb) -> exact_selector tb (q_index q) m (q_sel q) ->
  q_inter q = [] -> q_less q = None -> q_after q = Some a -> q_rev q = false ->
  after_fits (schema_of tb) (sindex_of (q_index q)) (Byte.eqb (ix_id (q_index q)) x00) a (q_sel q) ->
  (q_offset q < 2 ^ 63)%N -> (q_limit q < 2 ^ 63)%N ->
  forall l, selected tb (q_index q) m (q_sel q) l -> StronglySorted (pos_lt (schema_of tb) (sindex_of (q_index q))) l ->
  forall fuel, length l <= fuel ->
    execute tb ev srt fuel db fl q ob =
    Ok (window (q_offset q) (q_limit q) (keep (q_filter q) (rows_after (schema_of tb) (sindex_of (q_index q)) a l))).
Proof. exact @query_after. Qed.
Print Assumptions C28_after_partial.

Example C28_case : sorts (@isort acct) /\ strict_weak by_score /\
  run 5 (q_order all_ids by_score) = Ok [a2; a3; a1] /\
  run 5 (q_with_limit (q_with_after (q_order all_ids by_score) a2) 1) = Ok [a3] /\
  run 5 (q_with_after all_ids (Acct 1 0 0 false)) = Ok [a2; a3].
Proof. split; [exact isort_sorts|]. split; [exact (lt_strict_weak a_score)|]. repeat split; vm_compute; reflexivity. Qed.

Theorem C28_after_reverse_refuted : reads accts abc_db tt NoBatch abc_m /\ forall fuel, 5 <= fuel ->
  run fuel (q_reverse all_ids) = Ok [a3; a2; a1] /\ run fuel (q_with_after (q_reverse all_ids) a2) = Ok [a3; a2].
Proof. split; [exact abc_reads|exact after_reverse]. Qed.
Print Assumptions C28_after_reverse_refuted.

Theorem C28_after_in_front_refuted : reads accts abc_db tt NoBatch abc_m /\ forall fuel, 5 <= fuel ->
  let q := q_with all_ids primary_index (SRange (Acct 3 0 0 false) (Acct 9 0 0 false)) in
  run fuel q = Ok [a3] /\ run fuel (q_with_after q a1) = Ok [a2; a3].
Proof. split; [exact abc_reads|exact after_in_front]. Qed.
Print Assumptions C28_after_in_front_refuted.

Theorem C28_after_behind_panics_refuted : reads accts abc_db tt NoBatch abc_m /\ forall fuel, 5 <= fuel ->
  let q := q_with all_ids primary_index (SRanges [[Acct 1 0 0 false; Acct 2 0 0 false]]) in
  run fuel q = Ok [a1; a2] /\ run fuel (q_with_after q a3) = Panic.
Proof. split; [exact abc_reads|exact after_behind_panics]. Qed.
Print Assumptions C28_after_behind_panics_refuted.

(** C29. Pages of [n] rows, each after the last row of the page before, make up the unpaged
    result. Missing: Reverse, descending or overlapping multi selectors, points of the primary index. *)
Theorem C29_paging_partial : forall (T F : Type) (tb : table T F), good_table tb -> forall ev, env_ok ev ->
  forall srt db fl ob m, reads tb db fl ob m -> 0 < t_prefetch tb -> quiet ev ->
  forall q n, In (q_index q) (primary_index :: t_indexes tb) -> exact_selector tb (q_index q) m (q_sel q) ->
  q_inter q = [] -> q_less q = None -> q_after q = None -> q_rev q = false -> q_offset q = 0%N ->
  (0 < n < 2 ^ 63)%N -> (forall ps, q_sel q = SPoints ps -> Byte.eqb (ix_id (q_index q)) x00 = false) ->
  forall l, selected tb (q_index q) m (q_sel q) l -> StronglySorted (pos_lt (schema_of tb) (sindex_of (q_index q))) l ->
  forall fuel, length l <= fuel ->
    execute tb ev srt fuel db fl (q_with_limit q 0) ob = Ok (keep (q_filter q) l) /\
    pages (fun a => execute tb ev srt fuel db fl (page (q_with_limit q n) a) ob) (S (length l)) None = Ok (keep (q_filter q) l).
Proof. exact @paging_plain. Qed.
Print Assumptions C29_paging_partial.

Theorem C29_paging_ordered_partial : forall (T F : Type) (tb : table T F), good_table tb -> forall ev, env_ok ev ->
  forall srt db fl ob m, reads tb db fl ob m -> 0 < t_prefetch tb -> quiet ev ->
  forall q less n, sorts srt -> In (q_index q) (primary_index :: t_indexes tb) -> exact_selector tb (q_index q) m (q_sel q) ->
  q_inter q = [] -> q_less q = Some less -> q_after q = None -> q_offset q = 0%N -> (0 < n < 2 ^ 63)%N ->
  forall l, selected tb (q_index q) m (q_sel q) l -> NoDup (map (s_pk (schema_of tb)) l) ->
  exists s, ordered (Some less) (keep (q_filter q) (dir (q_rev q) l)) s /\
  forall fuel, length l <= fuel ->
    execute tb ev srt fuel db fl (q_with_limit q 0) ob = Ok s /\
    pages (fun a => execute tb ev srt fuel db fl (page (q_with_limit q n) a) ob) (S (length l)) None = Ok s.
Proof. exact @paging_order. Qed.
Print Assumptions C29_paging_ordered_partial.

(** A single point or range always lists its rows in position order, each key once. *)
Theorem C29_single_selections_ascend : forall (T F : Type) (tb : table T F), good_table tb ->
  forall db fl ob m, reads tb db fl ob m -> forall idx sel l,
  In idx (primary_index :: t_indexes tb) -> selected tb idx m sel l ->
  match sel with SPoint _ | SRange _ _ => True | _ => False end ->
  StronglySorted (pos_lt (schema_of tb) (sindex_of idx)) l /\ NoDup (map (s_pk (schema_of tb)) l).
Proof. exact @single_selection. Qed.
Print Assumptions C29_single_selections_ascend.

Example C29_case : pages (fun a => run 5 (page (q_with_limit all_ids 1) a)) 4 None = Ok [a1; a2; a3] /\
  pages (fun a => run 5 (page (q_with_limit (q_order all_ids by_score) 2) a)) 4 None = Ok [a2; a3; a1].
Proof. split; vm_compute; reflexivity. Qed.

Theorem C29_points_never_end_refuted : reads accts abc_db tt NoBatch abc_m /\ forall fuel, 5 <= fuel ->
  run fuel id_points = Ok [a1; a2; a3] /\
  forall n, pages (fun a => run fuel (page (q_with_limit id_points 1) a)) n None = Diverge.
Proof. split; [exact abc_reads|]. intros fuel H. split; [exact (proj1 (points_step fuel H))|exact (points_pages fuel H)]. Qed.
Print Assumptions C29_points_never_end_refuted.

(** C30. Intersecting queries return, by primary key, the rows that every part selects and the
    filter accepts, sorted, cut after the After row and by offset and limit, provided that the batch
    read through has not touched those rows ([m0] is what is committed). Missing: the cases refuted below. *)
Theorem C30_intersects_partial : forall (T F : Type) (tb : table T F), good_table tb -> forall ev, env_ok ev ->
  forall srt db fl ob m, reads tb db fl ob m -> quiet ev -> forall m0, consistent tb db fl m0 ->
  forall q, sorts srt ->
  (forall x, In x (q :: q_inter q) -> In (q_index x) (primary_index :: t_indexes tb) /\ exact_selector tb (q_index x) m (q_sel x)) ->
  q_inter q <> [] -> (forall x, In x (q_inter q) -> plain_part x) -> (q_offset q < 2 ^ 63)%N -> (q_limit q < 2 ^ 63)%N ->
  (q_after q = None \/ q_filter q <> None \/ q_less q <> None \/ q_offset q = 0%N /\ q_limit q = 0%N) ->
  exists ls b s a, Forall2 (fun x l => selected tb (q_index x) m (q_sel x) l) (q :: q_inter q) ls /\
    intersection (schema_of tb) ls b /\
    ordered (q_less q) (keep (q_filter q) b) s /\ behind_opt (schema_of tb) (q_after q) s a /\
    ((forall r, In r b -> m0 (s_pk (schema_of tb) r) = Some r) -> forall fuel, (forall l, In l ls -> length l <= fuel) ->
     execute tb ev srt fuel db fl q ob = Ok (window (q_offset q) (q_limit q) a)).
Proof. exact @query_intersect. Qed.
Print Assumptions C30_intersects_partial.

(** A part with a filter, order, offset, limit or after is refused. *)
Theorem C30_refuses_parts : forall (T F : Type) (tb : table T F) ev srt db fl (q : query T) ob fuel x,
  In x (q_inter q) -> ~ plain_part x -> execute tb ev srt fuel db fl q ob = Err EQuery.
Proof. exact @intersect_refuses. Qed.
Print Assumptions C30_refuses_parts.

Example C30_case : run 5 both = Ok [a1; a3] /\ run 5 (q_with_limit (q_order both by_score) 1) = Ok [a3] /\
  run 5 (q_with_after (q_with_filter both (fun r => (a_score r <? 9)%N)) a1) = Ok [a3] /\
  run 5 (q_intersects all_ids [q_with_limit of_kind 1]) = Err EQuery.
Proof. repeat split; vm_compute; reflexivity. Qed.

Theorem C30_reverse_ignored_refuted : reads accts abc_db tt NoBatch abc_m /\ forall fuel, 5 <= fuel ->
  run fuel both = Ok [a1; a3] /\ run fuel (q_reverse both) = Ok [a1; a3].
Proof. split; [exact abc_reads|]. intros fuel H. split; [exact (both_rows fuel H)|exact (both_reverse fuel H)]. Qed.
Print Assumptions C30_reverse_ignored_refuted.

Theorem C30_after_drops_offset_refuted : reads accts abc_db tt NoBatch abc_m /\ forall fuel, 5 <= fuel ->
  run fuel (q_with_after both a1) = Ok [a3] /\ run fuel (q_with_offset (q_with_after both a1) 1) = Ok [a3].
Proof. split; [exact abc_reads|exact both_after_offset]. Qed.
Print Assumptions C30_after_drops_offset_refuted.

Theorem C30_batch_rows_lost_refuted : reads accts a_db tt (ABatch bc_batch) abc_m /\ forall fuel, 5 <= fuel ->
  execute accts env1 isort fuel a_db tt all_ids (ABatch bc_batch) = Ok [a1; a2; a3] /\
  execute accts env1 isort fuel a_db tt of_kind (ABatch bc_batch) = Ok [a1; a3] /\
  execute accts env1 isort fuel a_db tt both (ABatch bc_batch) = Err ENotFound.
Proof. split; [exact abc_batch_reads|exact both_in_batch]. Qed.
Print Assumptions C30_batch_rows_lost_refuted.

Theorem C30_nested_ignored_refuted : reads accts abc_db tt NoBatch abc_m /\ forall fuel, 5 <= fuel ->
  let none := q_with all_ids primary_index (SRange (Acct 5 0 0 false) (Acct 9 0 0 false)) in
  run fuel none = Ok [] /\ run fuel (q_intersects all_ids [q_intersects of_kind [none]]) = Ok [a1; a3].
Proof. split; [exact abc_reads|exact nested_ignored]. Qed.
Print Assumptions C30_nested_ignored_refuted.
