(** Property C99: filtering in a query and filtering its result. *)

From Coq Require Import List NArith Lia Bool Arith.
From Verif.Model Require Import Bytes Go Keys Pebble Index Table Scan Query.
From Verif.Spec Require Import KeySpec StoreSpec TableSpec HistSpec ScanSpec QuerySpec ChoiceSpec PushSpec.
From Verif.Proofs Require Import Witness TableBugs ScanBugs QueryBugs PagingBugs FaultQueryBugs OffsetFacts ChoiceBugs PushFacts PushBugs.
Import ListNotations.

(** C99. A filter in the query gives the rows that filtering the result of the query without it gives, in the same order, and Offset and Limit count the rows the
    filter accepts. For any selector and Reverse, without Order. Missing: After; a filter behind Limit, false, see [C99_limit_refuted]. *)
Theorem C99_filter_partial : forall (T F : Type) (tb : table T F), good_table tb -> forall ev, env_ok ev ->
  forall srt db fl ob m, reads tb db fl ob m -> 0 < t_prefetch tb -> quiet ev ->
  forall q g, In (q_index q) (primary_index :: t_indexes tb) -> exact_selector tb (q_index q) m (q_sel q) -> q_inter q = [] -> q_less q = None -> q_after q = None ->
  exists l, selected tb (q_index q) m (q_sel q) l /\ forall fuel, length l <= fuel ->
  exists L, execute tb ev srt fuel db fl (q_with_limit (q_with_offset q 0) 0) ob = Ok L /\
  forall o n, (o < 2 ^ 63)%N -> (n < 2 ^ 63)%N ->
    execute tb ev srt fuel db fl (q_with_limit (q_with_offset (q_with_filter q (also (q_filter q) g)) o) n) ob = Ok (window o n (filter g L)).
Proof. exact @pushed. Qed.
Print Assumptions C99_filter_partial.

(** Accounts of two kinds backwards; those with a score below 6 and the second of all that are on. *)
Example C99_filter_case : good_table accts /\ env_ok (env1 (T:=acct)) /\ reads accts abc_db tt NoBatch abc_m /\ 0 < t_prefetch accts /\ quiet (env1 (T:=acct)) /\
  In (q_index two_kinds) (primary_index :: t_indexes accts) /\ exact_selector accts (q_index two_kinds) abc_m (q_sel two_kinds) /\
  run 5 two_kinds = Ok [a3; a1] /\ run 5 (q_with_filter two_kinds (also (q_filter two_kinds) low)) = Ok [a3] /\
  run 5 all_ids = Ok [a1; a2; a3] /\ run 5 (q_with_offset (q_with_filter all_ids (also (q_filter all_ids) a_on)) 1) = Ok [a3].
Proof.
  split; [exact accts_good|]. split; [apply demo_env_ok; lia|]. split; [exact abc_reads|]. split; [cbn; lia|]. split; [apply demo_env_quiet|].
  split; [right; left; reflexivity|]. split; [exact (two_kinds_exact abc_m)|]. repeat split; vm_compute; reflexivity.
Qed.

(** C99. The same with an Order that tells stored rows apart. Missing: After; orders with ties, which the sort may break otherwise; rows selected twice. *)
Theorem C99_filter_order_partial : forall (T F : Type) (tb : table T F), good_table tb -> forall ev, env_ok ev ->
  forall srt db fl ob m, reads tb db fl ob m -> 0 < t_prefetch tb -> quiet ev ->
  forall q g less, sorts srt -> In (q_index q) (primary_index :: t_indexes tb) -> exact_selector tb (q_index q) m (q_sel q) -> once tb m q -> q_inter q = [] ->
  q_less q = Some less -> tells_apart (schema_of tb) m less -> q_after q = None ->
  exists l, selected tb (q_index q) m (q_sel q) l /\ forall fuel, length l <= fuel ->
  exists L, execute tb ev srt fuel db fl (q_with_limit (q_with_offset q 0) 0) ob = Ok L /\
  forall o n, (o < 2 ^ 63)%N -> (n < 2 ^ 63)%N ->
    execute tb ev srt fuel db fl (q_with_limit (q_with_offset (q_with_filter q (also (q_filter q) g)) o) n) ob = Ok (window o n (filter g L)).
Proof. exact @pushed_order. Qed.
Print Assumptions C99_filter_order_partial.

(** All accounts by score, and those that are on. *)
Example C99_filter_order_case : sorts (@isort acct) /\ In (q_index all_ids) (primary_index :: t_indexes accts) /\
  exact_selector accts (q_index all_ids) abc_m (q_sel all_ids) /\ once accts abc_m (q_order all_ids by_score) /\ tells_apart asc abc_m by_score /\
  run 5 (q_order all_ids by_score) = Ok [a2; a3; a1] /\ run 5 (q_with_filter (q_order all_ids by_score) (also None a_on)) = Ok [a3; a1] /\
  run 5 (q_with_limit (q_with_filter (q_order all_ids by_score) (also None a_on)) 1) = Ok [a3].
Proof.
  split; [exact isort_sorts|]. split; [left; reflexivity|]. split; [exact (all_ids_exact abc_m)|]. split; [repeat constructor|]. split; [exact scores_differ|].
  repeat split; vm_compute; reflexivity.
Qed.

(** C99. The same for a query with Intersects, read without a batch or through one that has not touched the rows ([m0] is what is committed). Missing: After. *)
Theorem C99_filter_intersects_partial : forall (T F : Type) (tb : table T F), good_table tb -> forall ev, env_ok ev ->
  forall srt db fl ob m, reads tb db fl ob m -> quiet ev -> forall m0 q g, sorts srt -> consistent tb db fl m0 ->
  (forall x, In x (q :: q_inter q) -> In (q_index x) (primary_index :: t_indexes tb) /\ exact_selector tb (q_index x) m (q_sel x)) ->
  q_inter q <> [] -> (forall x, In x (q_inter q) -> plain_part x) -> q_less q = None -> q_after q = None ->
  exists ls b, Forall2 (fun x l => selected tb (q_index x) m (q_sel x) l) (q :: q_inter q) ls /\ intersection (schema_of tb) ls b /\
  ((forall r, In r b -> m0 (s_pk (schema_of tb) r) = Some r) -> forall fuel, (forall l, In l ls -> length l <= fuel) ->
   exists L, execute tb ev srt fuel db fl (q_with_limit (q_with_offset q 0) 0) ob = Ok L /\
   forall o n, (o < 2 ^ 63)%N -> (n < 2 ^ 63)%N ->
     execute tb ev srt fuel db fl (q_with_limit (q_with_offset (q_with_filter q (also (q_filter q) g)) o) n) ob = Ok (window o n (filter g L))).
Proof. exact @pushed_inter. Qed.
Print Assumptions C99_filter_intersects_partial.

(** The accounts that are in a range of ids and of kind 10, and those of them with a score below 6. *)
Example C99_filter_intersects_case : consistent accts abc_db tt abc_m /\
  (forall x, In x (both :: q_inter both) -> In (q_index x) (primary_index :: t_indexes accts) /\ exact_selector accts (q_index x) abc_m (q_sel x)) /\
  q_inter both <> [] /\ (forall x, In x (q_inter both) -> plain_part x) /\
  run 5 both = Ok [a1; a3] /\ run 5 (q_with_filter both (also (q_filter both) low)) = Ok [a3].
Proof. split; [exact abc_stored|]. split; [exact both_exact|]. split; [exact both_some|]. split; [exact both_plain|]. split; vm_compute; reflexivity. Qed.

(** C99. The same for a query with Intersects and an Order that tells stored rows apart. Missing: After; orders with ties. *)
Theorem C99_filter_intersects_order_partial : forall (T F : Type) (tb : table T F), good_table tb -> forall ev, env_ok ev ->
  forall srt db fl ob m, reads tb db fl ob m -> quiet ev -> forall m0 q g less, sorts srt -> consistent tb db fl m0 ->
  (forall x, In x (q :: q_inter q) -> In (q_index x) (primary_index :: t_indexes tb) /\ exact_selector tb (q_index x) m (q_sel x)) ->
  q_inter q <> [] -> (forall x, In x (q_inter q) -> plain_part x) -> q_less q = Some less -> tells_apart (schema_of tb) m less -> q_after q = None ->
  exists ls b, Forall2 (fun x l => selected tb (q_index x) m (q_sel x) l) (q :: q_inter q) ls /\ intersection (schema_of tb) ls b /\
  ((forall r, In r b -> m0 (s_pk (schema_of tb) r) = Some r) -> forall fuel, (forall l, In l ls -> length l <= fuel) ->
   exists L, execute tb ev srt fuel db fl (q_with_limit (q_with_offset q 0) 0) ob = Ok L /\
   forall o n, (o < 2 ^ 63)%N -> (n < 2 ^ 63)%N ->
     execute tb ev srt fuel db fl (q_with_limit (q_with_offset (q_with_filter q (also (q_filter q) g)) o) n) ob = Ok (window o n (filter g L))).
Proof. exact @pushed_inter_order. Qed.
Print Assumptions C99_filter_intersects_order_partial.

(** The same accounts by score. *)
Example C99_filter_intersects_order_case : (forall x, In x (by_both :: q_inter by_both) -> In (q_index x) (primary_index :: t_indexes accts) /\ exact_selector accts (q_index x) abc_m (q_sel x)) /\
  q_inter by_both <> [] /\ (forall x, In x (q_inter by_both) -> plain_part x) /\ tells_apart asc abc_m by_score /\
  run 5 by_both = Ok [a3; a1] /\ run 5 (q_with_filter by_both (also (q_filter by_both) low)) = Ok [a3].
Proof.
  split; [intros x [<-|H]; [exact (both_exact both (or_introl eq_refl))|exact (both_exact x (or_intror H))]|].
  split; [exact both_some|]. split; [exact both_plain|]. split; [exact scores_differ|]. split; vm_compute; reflexivity.
Qed.

(** C99 is false of a result that Limit has cut: filtering the first two accounts is not asking for the first two the filter accepts. *)
Theorem C99_limit_refuted : reads accts abc_db tt NoBatch abc_m /\ exact_selector accts (q_index all_ids) abc_m (q_sel all_ids) /\
  forall fuel, 5 <= fuel -> run fuel (q_with_limit all_ids 2) = Ok [a1; a2] /\ filter a_on [a1; a2] = [a1] /\
    run fuel (q_with_filter (q_with_limit all_ids 2) (also (q_filter all_ids) a_on)) = Ok [a1; a3].
Proof. exact (conj abc_reads (conj (all_ids_exact abc_m) cut_first)). Qed.
Print Assumptions C99_limit_refuted.

(** And false of calling Filter twice: the second filter replaces the first, so an account that is not on is in the result. *)
Theorem C99_twice_refuted : reads accts abc_db tt NoBatch abc_m /\ exact_selector accts (q_index all_ids) abc_m (q_sel all_ids) /\
  forall fuel, 5 <= fuel -> run fuel (q_with_filter all_ids a_on) = Ok [a1; a3] /\ filter low [a1; a3] = [a3] /\
    run fuel (q_with_filter (q_with_filter all_ids a_on) low) = Ok [a2; a3].
Proof. exact (conj abc_reads (conj (all_ids_exact abc_m) replaced)). Qed.
Print Assumptions C99_twice_refuted.
