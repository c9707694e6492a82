(** Property C88: queries when reads fail. *)

From Coq Require Import String List NArith Lia Bool Arith Sorting.Sorted.
From Verif.Model Require Import Bytes Go Keys Pebble Index Table Scan Query LiveScan Faults FaultQuery.
From Verif.Spec Require Import KeySpec StoreSpec TableSpec ScanSpec QuerySpec FaultSpec.
From Verif.Proofs Require Import PebbleFacts Witness TableBugs ScanBugs QueryBugs LiveBugs PagingBugs FaultBugs FaultQueryFacts FaultQueryBugs.
Import ListNotations.

(** C88. If any reads of the storage fail, a query over one point or range, without
    Intersects, returns what it would return if none failed, or an error. *)
Theorem C88_one_selection_partial : forall (T F : Type) (tb : table T F), good_table tb -> forall ev, env_ok ev -> quiet ev ->
  forall srt db fl ob m, kv_ok db -> readable ob -> consistent tb (view db ob) fl m ->
  forall io, (forall n, ft_open io n = false) ->
  forall q, In (q_index q) (primary_index :: t_indexes tb) -> 0 < t_prefetch tb -> exact_selector tb (q_index q) m (q_sel q) -> one_selection (q_sel q) ->
  q_inter q = [] ->
  match q_after q, q_less q with Some a, None => after_fits (schema_of tb) (sindex_of (q_index q)) (Byte.eqb (ix_id (q_index q)) x00) a (q_sel q) | _, _ => True end ->
  forall l, selected tb (q_index q) m (q_sel q) l -> forall fuel, length l <= fuel ->
    fexecute io tb ev srt fuel db fl q ob = execute tb ev srt fuel db fl q (match ob with Some b => ABatch b | None => NoBatch end) \/
    exists e, fexecute io tb ev srt fuel db fl q ob = Err e.
Proof. exact @query_same. Qed.
Print Assumptions C88_one_selection_partial.

Example C88_one_case : reads accts abc_db tt NoBatch abc_m /\ exact_selector accts (q_index of_kind) abc_m (q_sel of_kind) /\ one_selection (q_sel of_kind) /\ q_inter of_kind = [] /\
  (forall n, ft_open (bad [2]) n = false) /\
  frun (bad [2]) of_kind = Err EOther /\ frun (bad [5]) of_kind = Err ENotFound /\ frun (bad []) of_kind = Ok [a1; a3] /\
  frun (bad [4]) (q_with_limit all_ids 1) = Ok [a1] /\ frun (bad [2]) (q_with_after all_ids a1) = Err EOther /\ frun (bad []) (q_with_after all_ids a1) = Ok [a2; a3].
Proof. exact (conj abc_reads (conj (kind10_exact abc_m) (conj I (conj eq_refl (conj (fun _ => eq_refl) kind_query_cut))))). Qed.

(** C88. A query over several points or ranges returns an error, or its answer for a first part
    of each of them. *)
Theorem C88_several_selections_partial : forall (T F : Type) (tb : table T F), good_table tb -> forall ev, env_ok ev -> quiet ev ->
  forall srt db fl ob m, kv_ok db -> readable ob -> consistent tb (view db ob) fl m ->
  forall io, (forall n, ft_open io n = false) ->
  forall q, In (q_index q) (primary_index :: t_indexes tb) -> 0 < t_prefetch tb -> sorts srt -> exact_selector tb (q_index q) m (q_sel q) ->
  q_inter q = [] -> (q_after q = None \/ q_less q <> None) -> (q_offset q < 2 ^ 63)%N -> (q_limit q < 2 ^ 63)%N ->
  exists ls, Forall2 (listing (schema_of tb) (sindex_of (q_index q)) m)
      (selections (schema_of tb) (sindex_of (q_index q)) (Byte.eqb (ix_id (q_index q)) x00) (q_sel q)) ls /\
  forall fuel, length (concat ls) <= fuel ->
    (exists l ok s a, in_parts (dirs (q_rev q) ls) l ok /\ ordered (q_less q) (QuerySpec.keep (q_filter q) l) s /\ behind_opt (schema_of tb) (q_after q) s a /\
       fexecute io tb ev srt fuel db fl q ob = Ok (window (q_offset q) (q_limit q) a)) \/
    exists e, fexecute io tb ev srt fuel db fl q ob = Err e.
Proof. exact @query_parts. Qed.
Print Assumptions C88_several_selections_partial.

(** C88. It is not so that a query without an error returned all rows: of three points one is
    missing, and with a limit the wrong row is first. *)
Theorem C88_several_selections_refuted : exists io, (forall n, ft_open io n = false) /\ reads accts abc_db tt NoBatch abc_m /\
  exact_selector accts (q_index id_points) abc_m (q_sel id_points) /\
  frun io id_points = Ok [a2; a3] /\ frun (bad []) id_points = Ok [a1; a2; a3] /\
  frun io (q_with_limit id_points 1) = Ok [a2] /\ frun io (q_with_limit (q_order id_points by_score) 1) = Ok [a2].
Proof. exact (ex_intro _ (bad [2]) (conj (fun _ => eq_refl) (conj abc_reads (conj (id_points_exact abc_m) id_query_lost)))). Qed.
Print Assumptions C88_several_selections_refuted.

(** C88. Intersecting queries return ErrNotFound, or their answer for some of the rows that
    every part selects: no row is returned that should not be. *)
Theorem C88_intersects_partial : forall (T F : Type) (tb : table T F), good_table tb -> forall ev, env_ok ev -> quiet ev ->
  forall srt db fl ob m, kv_ok db -> readable ob -> consistent tb (view db ob) fl m ->
  forall io, (forall n, ft_open io n = false) -> forall m0, consistent tb db fl m0 ->
  forall q, sorts srt ->
  (forall x, In x (q :: q_inter q) -> In (q_index x) (primary_index :: t_indexes tb) /\ exact_selector tb (q_index x) m (q_sel x)) ->
  q_inter q <> [] -> (forall x, In x (q_inter q) -> plain_part x) -> (q_offset q < 2 ^ 63)%N -> (q_limit q < 2 ^ 63)%N ->
  (q_after q = None \/ q_filter q <> None \/ q_less q <> None \/ q_offset q = 0%N /\ q_limit q = 0%N) ->
  exists ls, Forall2 (fun x l => selected tb (q_index x) m (q_sel x) l) (q :: q_inter q) ls /\
    ((forall r, Forall (In r) ls -> m0 (s_pk (schema_of tb) r) = Some r) -> forall fuel, (forall l, In l ls -> length l <= fuel) ->
     (exists b s a, StronglySorted (fun x y => blt (s_pk (schema_of tb) x) (s_pk (schema_of tb) y)) b /\ (forall r, In r b -> Forall (In r) ls) /\
        ordered (q_less q) (QuerySpec.keep (q_filter q) b) s /\ behind_opt (schema_of tb) (q_after q) s a /\
        fexecute io tb ev srt fuel db fl q ob = Ok (window (q_offset q) (q_limit q) a)) \/
     fexecute io tb ev srt fuel db fl q ob = Err ENotFound).
Proof. exact @inter_parts. Qed.
Print Assumptions C88_intersects_partial.

Example C88_intersects_case : reads accts abc_db tt NoBatch abc_m /\ q_inter both <> [] /\
  (forall x, In x (both :: q_inter both) -> In (q_index x) (primary_index :: t_indexes accts) /\ exact_selector accts (q_index x) abc_m (q_sel x)) /\
  (forall x, In x (q_inter both) -> plain_part x) /\ frun (bad [2]) both = Ok [a1] /\ frun (bad [10]) both = Err ENotFound.
Proof.
  exact (conj abc_reads (conj both_some (conj both_exact (conj both_plain (conj (proj1 both_lost) (proj1 (proj2 (proj2 (proj2 both_lost))))))))).
Qed.

(** C88. It is not so that intersecting queries over one range and one point return all
    rows or an error. *)
Theorem C88_intersects_refuted : exists io io', (forall n, ft_open io n = false) /\ (forall n, ft_open io' n = false) /\ reads accts abc_db tt NoBatch abc_m /\
  one_selection (q_sel both) /\ one_selection (q_sel of_kind) /\
  frun io both = Ok [a1] /\ frun io' both = Ok [] /\ frun (bad []) both = Ok [a1; a3] /\
  frun io (q_with_offset both 1) = Ok [] /\ frun (bad []) (q_with_offset both 1) = Ok [a3].
Proof.
  exact (ex_intro _ (bad [2]) (ex_intro _ (bad [6]) (conj (fun _ => eq_refl) (conj (fun _ => eq_refl) (conj abc_reads (conj I (conj I
    (conj (proj1 both_lost) (conj (proj1 (proj2 both_lost)) (conj (proj1 (proj2 (proj2 both_lost))) (proj2 (proj2 (proj2 (proj2 both_lost)))))))))))))).
Qed.
Print Assumptions C88_intersects_refuted.

(** C88. If the iterator cannot be made, a query over any point or range of any database returns
    no rows and no error. *)
Theorem C88_unmade_iterator_refuted : forall (T F : Type) io (tb : table T F) ev srt fuel db fl (q : query T) ob, sorts srt -> ft_open io 0 = true ->
  one_selection (q_sel q) -> q_inter q = [] ->
  (q_after q = None \/ q_less q <> None) -> (q_offset q < 2 ^ 63)%N -> (q_limit q < 2 ^ 63)%N ->
  (forall p, q_sel q = SPoint p -> exists o, point_bounds tb (q_index q) false p = Ok o) ->
  fexecute io tb ev srt fuel db fl q ob = Ok [].
Proof. exact @query_unmade. Qed.
Print Assumptions C88_unmade_iterator_refuted.

Example C88_unmade_case : sorts (@isort acct) /\ ft_open unmade 0 = true /\ one_selection (q_sel all_ids) /\ frun unmade all_ids = Ok [] /\ frun unmade (q_order all_ids by_score) = Ok [].
Proof. exact (conj isort_sorts (conj eq_refl (conj I unmade_query))). Qed.

(** C88. If no read fails, the queries are those of C27 to C30. *)
Theorem C88_no_failing_reads : forall io, (forall n, ft_open io n = false) -> (forall n, ft_move io n = false) ->
  forall (T F : Type) (tb : table T F) ev srt fuel db fl q ob,
  fexecute io tb ev srt fuel db fl q ob = execute tb ev srt fuel db fl q (match ob with Some b => ABatch b | None => NoBatch end).
Proof. exact @execute_fine. Qed.
Print Assumptions C88_no_failing_reads.

Example C88_no_failing_case : (forall n, ft_open (bad []) n = false) /\ (forall n, ft_move (bad []) n = false) /\
  fexecute (bad []) accts env1 (@isort acct) 9 abc_db tt (q_order (q_with (new_query accts) acct_by_kind kind10) (fun a b => (a_score a <? a_score b)%N)) None = Ok [a3; a1].
Proof. split; [intros n; reflexivity|]. split; [intros n; reflexivity|]. vm_compute. reflexivity. Qed.
