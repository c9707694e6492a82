(** Property C79: intersecting queries while rows are written. *)

From Coq Require Import List NArith Lia Bool Arith Sorting.Sorted.
From Verif.Model Require Import Bytes Go Keys Pebble Index Table Scan LiveScan Query LiveInter.
From Verif.Spec Require Import KeySpec StoreSpec TableSpec HistSpec ScanSpec QuerySpec PagingSpec LiveScanSpec LiveInterSpec.
From Verif.Proofs Require Import Witness TableBugs ScanBugs QueryBugs PagingBugs LiveFacts LiveBugs LiveInterFacts LiveInterBugs.
Import ListNotations.

(** C79. The moments of the table are [ms 0], [ms 1], …; every pebble iterator that the parts of the query make sees any one of
    them, and the rows are fetched at moment [last]. The query takes the primary keys that all parts saw, each at its moments, in
    ascending order. If a row is no longer there when it is fetched, the query fails with ErrNotFound; otherwise it returns what is
    stored under the keys at moment [last], filtered, sorted, after and within the window asked for. *)
Theorem C79_live_intersection : forall (T F : Type) (tb : table T F), good_table tb -> forall ev, env_ok ev -> quiet ev ->
  forall srt, sorts srt -> forall w (ms : nat -> tmap T), (forall k, consistent tb (lk_db (w k)) (lk_fl (w k)) (ms k)) ->
  forall sees last (q : query T),
  (forall x, In x (q :: q_inter q) -> In (q_index x) (primary_index :: t_indexes tb) /\
     forall k, exact_selector tb (q_index x) (ms k) (q_sel x)) ->
  (forall x, In x (q_inter q) -> plain_part x) -> (q_offset q < 2 ^ 63)%N -> (q_limit q < 2 ^ 63)%N ->
  (q_after q = None \/ q_filter q <> None \/ q_less q <> None \/ q_offset q = 0%N /\ q_limit q = 0%N) ->
  exists ls ks, saw tb ms (fun i k => exists n lo hi, k = sees i n lo hi) 0 (q :: q_inter q) ls /\ common (schema_of tb) ls ks /\
  let run fuel := live_execute tb ev srt w sees last fuel q in
  let wanted := if plain_rows q then window (q_offset q) (q_limit q) ks else ks in
  match rows_at (ms last) wanted with
  | None => forall fuel, (forall l, In l ls -> length l <= fuel) -> run fuel = Err ENotFound
  | Some rows => exists s a, ordered (q_less q) (keep (q_filter q) rows) s /\ behind_opt (schema_of tb) (q_after q) s a /\
      forall fuel, (forall l, In l ls -> length l <= fuel) ->
      run fuel = Ok (if plain_rows q then a else window (q_offset q) (q_limit q) a)
  end.
Proof. exact @live_inter. Qed.
Print Assumptions C79_live_intersection.

(** C79. If it succeeds, no primary key comes twice, every row it returns is stored when the rows are fetched, and, without offset,
    limit and after, a row that nobody wrote meanwhile is returned exactly if every part and the filter want it. *)
Theorem C79_untouched_rows : forall (T F : Type) (tb : table T F), good_table tb -> forall ev, env_ok ev -> quiet ev ->
  forall srt, sorts srt -> forall w (ms : nat -> tmap T), (forall k, consistent tb (lk_db (w k)) (lk_fl (w k)) (ms k)) ->
  forall sees last (q : query T) fuel out,
  (forall x, In x (q :: q_inter q) -> In (q_index x) (primary_index :: t_indexes tb) /\
     forall k, exact_selector tb (q_index x) (ms k) (q_sel x)) ->
  (forall x, In x (q_inter q) -> plain_part x) -> (q_offset q < 2 ^ 63)%N -> (q_limit q < 2 ^ 63)%N ->
  (q_after q = None \/ q_filter q <> None \/ q_less q <> None \/ q_offset q = 0%N /\ q_limit q = 0%N) ->
  (forall ls l, saw tb ms (fun i k => exists n lo hi, k = sees i n lo hi) 0 (q :: q_inter q) ls -> In l ls -> length l <= fuel) ->
  live_execute tb ev srt w sees last fuel q = Ok out ->
  NoDup (map (s_pk (schema_of tb)) out) /\ (forall r, In r out -> ms last (s_pk (schema_of tb) r) = Some r) /\
  (q_offset q = 0%N -> q_limit q = 0%N -> q_after q = None -> forall r, (forall k, ms k (s_pk (schema_of tb) r) = Some r) ->
   (In r out <-> (forall x, In x (q :: q_inter q) -> wants tb x r) /\ match q_filter q with Some f => f r = true | None => True end)).
Proof. exact @live_inter_rows. Qed.
Print Assumptions C79_untouched_rows.

(** C79. When nothing changes it is the query of C30. *)
Theorem C79_still : forall (T F : Type) (tb : table T F) ev srt lk sees last fuel (q : query T), q_inter q <> [] ->
  live_execute tb ev srt (fun _ => lk) sees last fuel q = execute tb ev srt fuel (lk_db lk) (lk_fl lk) q NoBatch.
Proof. exact @still_intersect. Qed.
Print Assumptions C79_still.

(** Row 2 is written while kinds 10 and 11 are intersected with scores 6 and 5: the query returns the rows 1 and 3. *)
Example C79_case :
  (forall k, consistent accts (lk_db (look_at (writing k))) tt (puts asc empty_map (writing k))) /\
  (forall x, In x (kinds_scores :: q_inter kinds_scores) -> In (q_index x) (primary_index :: t_indexes accts) /\
     forall k, exact_selector accts (q_index x) (puts asc empty_map (writing k)) (q_sel x)) /\
  (forall x, In x (q_inter kinds_scores) -> plain_part x) /\
  still_run (writing 1) 5 kinds_scores = Ok [a1; Acct 2 10 5 true; a3] /\
  live_run writing one_by_one 2 5 kinds_scores = Ok [a1; a3].
Proof. exact live_inter_case. Qed.

(** C79. A row can be returned that the query never matched: row 3 has kind 10 and score 5, then kind 12 and score 7; the query for
    kind 10 and score 7 has no rows before and after the change, and returns row 3 when the change falls between its parts. *)
Theorem C79_one_moment_refuted :
  (forall k, consistent accts (lk_db (look_at (moving k))) tt (puts asc empty_map (moving k))) /\
  forall fuel, 5 <= fuel ->
  still_run (moving 0) fuel (kind10_score 7) = Ok [] /\ still_run (moving 1) fuel (kind10_score 7) = Ok [] /\
  live_run moving in_turn 1 fuel (kind10_score 7) = Ok [a3m].
Proof. split; [exact moving_ok|exact never_matched]. Qed.
Print Assumptions C79_one_moment_refuted.

(** C79. A query fails when a row it matched is deleted before it is fetched, although the query before and after the delete
    succeeds. *)
Theorem C79_no_failure_refuted :
  (forall k, consistent accts (lk_db (look_at (going k))) tt (puts asc empty_map (going k))) /\
  forall fuel, 5 <= fuel ->
  still_run (going 0) fuel (kind10_score 5) = Ok [a3] /\ still_run (going 1) fuel (kind10_score 5) = Ok [] /\
  live_run going at_once 1 fuel (kind10_score 5) = Err ENotFound.
Proof. split; [exact going_ok|exact gone_fails]. Qed.
Print Assumptions C79_no_failure_refuted.
