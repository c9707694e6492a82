(** Property C96: pages by Offset and Limit. *)

From Coq Require Import List NArith Lia Bool Arith.
From Verif.Model Require Import Bytes Go Keys Pebble Index Table Scan Query.
From Verif.Spec Require Import KeySpec StoreSpec TableSpec HistSpec ScanSpec QuerySpec OffsetSpec.
From Verif.Proofs Require Import Witness TableBugs ScanBugs QueryBugs FaultQueryBugs OffsetFacts OffsetInter.
Import ListNotations.

(** C96. A query with Filter, Reverse, Order, any selector: the pages with Offset 0, n, 2n, ... and Limit n are, one after another, the first rows of the query without
    Offset and Limit, and enough of them are all its rows, each as often and in the order as there. Missing: After without Order; a table that changes between
    the pages, false, see [C96_change_refuted]. *)
Theorem C96_offset_pages_partial : forall (T F : Type) (tb : table T F), good_table tb -> forall ev, env_ok ev ->
  forall srt db fl ob m, reads tb db fl ob m -> 0 < t_prefetch tb -> quiet ev ->
  forall q n, In (q_index q) (primary_index :: t_indexes tb) -> exact_selector tb (q_index q) m (q_sel q) -> q_inter q = [] ->
  q_less q <> None \/ q_after q = None -> (0 < n < 2 ^ 63)%N ->
  exists l, selected tb (q_index q) m (q_sel q) l /\ forall fuel, length l <= fuel ->
  exists L, execute tb ev srt fuel db fl (q_with_limit (q_with_offset q 0) 0) ob = Ok L /\
  (forall k, (N.of_nat k * n < 2 ^ 63)%N ->
    offset_pages (fun o p => execute tb ev srt fuel db fl (q_with_limit (q_with_offset q o) p) ob) n k = Ok (firstn (k * N.to_nat n) L)) /\
  (forall k, (N.of_nat k * n < 2 ^ 63)%N -> length L <= k * N.to_nat n ->
    offset_pages (fun o p => execute tb ev srt fuel db fl (q_with_limit (q_with_offset q o) p) ob) n k = Ok L).
Proof. exact @by_offset. Qed.
Print Assumptions C96_offset_pages_partial.

(** Accounts of two kinds backwards, row by row; all accounts by score in pages of two. *)
Example C96_offset_pages_case : good_table accts /\ env_ok (env1 (T:=acct)) /\ reads accts abc_db tt NoBatch abc_m /\ 0 < t_prefetch accts /\ quiet (env1 (T:=acct)) /\
  In (q_index two_kinds) (primary_index :: t_indexes accts) /\ exact_selector accts (q_index two_kinds) abc_m (q_sel two_kinds) /\ q_inter two_kinds = [] /\
  q_after two_kinds = None /\ q_less (q_order two_kinds by_score) <> None /\
  offset_pages (fun o p => run 5 (q_with_limit (q_with_offset two_kinds o) p)) 1 1 = Ok [a3] /\
  offset_pages (fun o p => run 5 (q_with_limit (q_with_offset two_kinds o) p)) 1 3 = Ok [a3; a1] /\
  offset_pages (fun o p => run 5 (q_with_limit (q_with_offset (q_order all_ids by_score) o) p)) 2 2 = Ok [a2; a3; a1].
Proof.
  split; [exact accts_good|]. split; [apply demo_env_ok; lia|]. split; [exact abc_reads|]. split; [cbn; lia|]. split; [apply demo_env_quiet|].
  split; [right; left; reflexivity|]. split; [exact (two_kinds_exact abc_m)|]. split; [reflexivity|]. split; [reflexivity|]. split; [discriminate|].
  split; [vm_compute; reflexivity|]. split; vm_compute; reflexivity.
Qed.

(** C96. The same for queries with Intersects, read without a batch or through one that has not touched the rows ([m0] is what is committed).
    Missing: After without Filter and Order; a table that changes between the pages. *)
Theorem C96_intersects_pages_partial : forall (T F : Type) (tb : table T F), good_table tb -> forall ev, env_ok ev ->
  forall srt db fl ob m, reads tb db fl ob m -> quiet ev -> forall m0, consistent tb db fl m0 ->
  forall q n, (forall x, In x (q :: q_inter q) -> In (q_index x) (primary_index :: t_indexes tb) /\ exact_selector tb (q_index x) m (q_sel x)) ->
  q_inter q <> [] -> (forall x, In x (q_inter q) -> plain_part x) -> (q_after q = None \/ q_filter q <> None \/ q_less q <> None) -> (0 < n < 2 ^ 63)%N ->
  exists ls b, Forall2 (fun x l => selected tb (q_index x) m (q_sel x) l) (q :: q_inter q) ls /\ intersection (schema_of tb) ls b /\
  ((forall r, In r b -> m0 (s_pk (schema_of tb) r) = Some r) -> forall fuel, (forall l, In l ls -> length l <= fuel) ->
  exists L, execute tb ev srt fuel db fl (q_with_limit (q_with_offset q 0) 0) ob = Ok L /\
  (forall k, (N.of_nat k * n < 2 ^ 63)%N ->
    offset_pages (fun o p => execute tb ev srt fuel db fl (q_with_limit (q_with_offset q o) p) ob) n k = Ok (firstn (k * N.to_nat n) L)) /\
  (forall k, (N.of_nat k * n < 2 ^ 63)%N -> length L <= k * N.to_nat n ->
    offset_pages (fun o p => execute tb ev srt fuel db fl (q_with_limit (q_with_offset q o) p) ob) n k = Ok L)).
Proof. exact @by_offset_inter. Qed.
Print Assumptions C96_intersects_pages_partial.

(** The accounts that are in a range of ids and of kind 10, row by row. *)
Example C96_intersects_pages_case : consistent accts abc_db tt abc_m /\
  (forall x, In x (both :: q_inter both) -> In (q_index x) (primary_index :: t_indexes accts) /\ exact_selector accts (q_index x) abc_m (q_sel x)) /\
  q_inter both <> [] /\ (forall x, In x (q_inter both) -> plain_part x) /\ q_after both = None /\
  offset_pages (fun o p => run 5 (q_with_limit (q_with_offset both o) p)) 1 1 = Ok [a1] /\
  offset_pages (fun o p => run 5 (q_with_limit (q_with_offset both o) p)) 1 3 = Ok [a1; a3].
Proof.
  split; [exact abc_stored|]. split; [exact both_exact|]. split; [exact both_some|]. split; [exact both_plain|]. split; [reflexivity|]. split; vm_compute; reflexivity.
Qed.

(** C96 is false when a row is deleted between two pages: row 2, there all the time, is on no page. *)
Theorem C96_change_refuted : reads accts abc_db tt NoBatch abc_m /\ delete accts (demo_env 2) abc_db tt None [a1] = (fst (delete accts (demo_env 2) abc_db tt None [a1]), Ok tt) /\
  page_at abc_db 0 = Ok [a1] /\ page_at without_1 1 = Ok [a3] /\ page_at without_1 2 = Ok [] /\
  get_point accts abc_db tt None a2 = Ok a2 /\ get_point accts without_1 tt None a2 = Ok a2.
Proof. exact (conj abc_reads (conj skipped_delete (proj2 skipped))). Qed.
Print Assumptions C96_change_refuted.
