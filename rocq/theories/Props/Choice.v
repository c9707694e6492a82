(** Property C98: the index a query uses. *)

From Coq Require Import List NArith Lia Bool Arith.
From Verif.Model Require Import Bytes Go Keys Pebble Index Table Scan Query.
From Verif.Spec Require Import KeySpec StoreSpec TableSpec HistSpec ScanSpec QuerySpec ChoiceSpec.
From Verif.Proofs Require Import Witness TableBugs ScanBugs QueryBugs PagingBugs FaultQueryBugs ChoiceFacts ChoiceBugs.
Import ListNotations.

(** C98. Two queries over any two indexes that ask for the same stored rows, each selected once, with the same Offset, Limit and After and the same Order that
    tells stored rows apart, give the same rows in the same order, whatever Reverse is. Missing: orders with ties, false, see [C98_ties_refuted];
    rows that two points or ranges of a query select, which it gives twice. *)
Theorem C98_any_index_partial : forall (T F : Type) (tb : table T F), good_table tb -> forall ev, env_ok ev ->
  forall srt db fl ob m, reads tb db fl ob m -> 0 < t_prefetch tb -> quiet ev -> sorts srt ->
  forall q1 q2 less, In (q_index q1) (primary_index :: t_indexes tb) -> In (q_index q2) (primary_index :: t_indexes tb) ->
  exact_selector tb (q_index q1) m (q_sel q1) -> exact_selector tb (q_index q2) m (q_sel q2) -> once tb m q1 -> once tb m q2 ->
  q_inter q1 = [] -> q_inter q2 = [] -> q_less q1 = Some less -> q_less q2 = Some less -> tells_apart (schema_of tb) m less ->
  q_offset q1 = q_offset q2 -> q_limit q1 = q_limit q2 -> q_after q1 = q_after q2 -> (q_offset q1 < 2 ^ 63)%N -> (q_limit q1 < 2 ^ 63)%N ->
  (forall r, m (s_pk (schema_of tb) r) = Some r -> asks_for tb q1 r <-> asks_for tb q2 r) ->
  exists l1 l2, selected tb (q_index q1) m (q_sel q1) l1 /\ selected tb (q_index q2) m (q_sel q2) l2 /\
  forall fuel, length l1 <= fuel -> length l2 <= fuel -> execute tb ev srt fuel db fl q1 ob = execute tb ev srt fuel db fl q2 ob.
Proof. exact @any_index. Qed.
Print Assumptions C98_any_index_partial.

(** The accounts of kind 10 that are on, from all accounts with a filter and by the index on kinds. *)
Example C98_any_index_case : good_table accts /\ env_ok (env1 (T:=acct)) /\ reads accts abc_db tt NoBatch abc_m /\ 0 < t_prefetch accts /\ quiet (env1 (T:=acct)) /\
  In (q_index by_filter) (primary_index :: t_indexes accts) /\ In (q_index by_kind) (primary_index :: t_indexes accts) /\ q_index by_filter <> q_index by_kind /\
  exact_selector accts (q_index by_filter) abc_m (q_sel by_filter) /\ exact_selector accts (q_index by_kind) abc_m (q_sel by_kind) /\
  once accts abc_m by_filter /\ once accts abc_m by_kind /\ tells_apart asc abc_m by_score /\
  (forall r, abc_m (s_pk asc r) = Some r -> asks_for accts by_filter r <-> asks_for accts by_kind r) /\
  run 5 by_filter = Ok [a3; a1] /\ run 5 by_kind = Ok [a3; a1].
Proof.
  split; [exact accts_good|]. split; [apply demo_env_ok; lia|]. split; [exact abc_reads|]. split; [cbn; lia|]. split; [apply demo_env_quiet|].
  split; [left; reflexivity|]. split; [right; left; reflexivity|]. split; [intros E; apply (f_equal ix_id) in E; vm_compute in E; discriminate|].
  split; [exact (all_ids_exact abc_m)|]. split; [exact (proj2 (both_exact of_kind (or_intror (or_introl eq_refl))))|]. split; [repeat constructor|]. split; [repeat constructor|].
  split; [exact scores_differ|]. split; [exact same_asked|]. split; vm_compute; reflexivity.
Qed.

(** C98. The same for a query with Intersects against a query over one index that asks for the rows all its parts ask for, read without a batch or through one that
    has not touched the rows ([m0] is what is committed). Missing: orders with ties; rows the one query selects twice. *)
Theorem C98_intersects_partial : forall (T F : Type) (tb : table T F), good_table tb -> forall ev, env_ok ev ->
  forall srt db fl ob m, reads tb db fl ob m -> 0 < t_prefetch tb -> quiet ev -> sorts srt -> forall m0 q q2 less, consistent tb db fl m0 ->
  (forall x, In x (q :: q_inter q) -> In (q_index x) (primary_index :: t_indexes tb) /\ exact_selector tb (q_index x) m (q_sel x)) ->
  q_inter q <> [] -> (forall x, In x (q_inter q) -> plain_part x) ->
  In (q_index q2) (primary_index :: t_indexes tb) -> exact_selector tb (q_index q2) m (q_sel q2) -> once tb m q2 -> q_inter q2 = [] ->
  q_less q = Some less -> q_less q2 = Some less -> tells_apart (schema_of tb) m less ->
  q_offset q = q_offset q2 -> q_limit q = q_limit q2 -> q_after q = q_after q2 -> (q_offset q < 2 ^ 63)%N -> (q_limit q < 2 ^ 63)%N ->
  (forall r, m (s_pk (schema_of tb) r) = Some r -> (forall x, In x (q :: q_inter q) -> asks_for tb x r) <-> asks_for tb q2 r) ->
  exists ls l2, Forall2 (fun x l => selected tb (q_index x) m (q_sel x) l) (q :: q_inter q) ls /\ selected tb (q_index q2) m (q_sel q2) l2 /\
  ((forall r, m (s_pk (schema_of tb) r) = Some r -> (forall x, In x (q_inter q) -> asks_for tb x r) -> m0 (s_pk (schema_of tb) r) = Some r) ->
   forall fuel, (forall l, In l ls -> length l <= fuel) -> length l2 <= fuel -> execute tb ev srt fuel db fl q ob = execute tb ev srt fuel db fl q2 ob).
Proof. exact @intersect_as_one. Qed.
Print Assumptions C98_intersects_partial.

(** The same accounts, as those in a range of ids and of kind 10, and with a filter. *)
Example C98_intersects_case : consistent accts abc_db tt abc_m /\
  (forall x, In x (by_both :: q_inter by_both) -> In (q_index x) (primary_index :: t_indexes accts) /\ exact_selector accts (q_index x) abc_m (q_sel x)) /\
  q_inter by_both <> [] /\ (forall x, In x (q_inter by_both) -> plain_part x) /\
  (forall r, abc_m (s_pk asc r) = Some r -> (forall x, In x (by_both :: q_inter by_both) -> asks_for accts x r) <-> asks_for accts by_filter r) /\
  run 5 by_both = Ok [a3; a1] /\ run 5 by_filter = Ok [a3; a1].
Proof.
  split; [exact abc_stored|]. split; [intros x [<-|H]; [exact (both_exact both (or_introl eq_refl))|exact (both_exact x (or_intror H))]|].
  split; [exact both_some|]. split; [exact both_plain|]. split; [exact both_asked|]. split; vm_compute; reflexivity.
Qed.

(** C98 is false for an order with ties: the first of all accounts is another by another index. *)
Theorem C98_ties_refuted : reads accts abc_db tt NoBatch abc_m /\ strict_weak no_order /\
  exact_selector accts (q_index all_ids) abc_m (q_sel all_ids) /\ exact_selector accts acct_by_score abc_m (q_sel all_scores) /\
  (forall r, abc_m (s_pk asc r) = Some r -> asks_for accts (q_order all_ids no_order) r <-> asks_for accts (q_order all_scores no_order) r) /\
  forall fuel, 5 <= fuel -> run fuel (q_with_limit (q_order all_ids no_order) 1) = Ok [a1] /\ run fuel (q_with_limit (q_order all_scores no_order) 1) = Ok [a2].
Proof. exact (conj abc_reads (conj no_order_weak (conj (all_ids_exact abc_m) (conj all_scores_exact (conj all_scored ties))))). Qed.
Print Assumptions C98_ties_refuted.
