(** Properties C38, C39: write calls running at the same time. *)

From Coq Require Import List NArith Bool Sorting.Permutation.
From Verif.Model Require Import Bytes Go Keys Pebble Index Table Concur.
From Verif.Spec Require Import KeySpec StoreSpec TableSpec HistSpec ConcurSpec.
From Verif.Proofs Require Import TableFacts Witness TableBugs ConcurFacts ConcurRows ConcurUpsert ConcurBugs.
Import ListNotations.

(** C38. Any number of calls with no primary key in common, stopped at any point of any schedule: each call that has returned
    returned what it returns when made alone; making those calls one after another, in any order, gives the same results and the same
    database; rows and index entries are those of the successful calls; other tables are as before. *)
Theorem C38_any_schedule : forall (T F : Type) (tb : table T F), good_table tb -> forall db fl (m : tmap T) h,
  consistent tb db fl m -> Forall (fun ec => env_ok (fst ec)) h ->
  Forall (admissible (schema_of tb) m) (map snd h) -> ForallOrdPairs (disjoint (schema_of tb)) (map snd h) ->
  forall sch, let y := run_sched tb sch (start tb db fl h) in
    (forall ev c r, In (ev, c, r) (finished y) -> In (ev, c) h /\ r = solo tb db fl (ev, c)) /\
    (forall o, Permutation o (finished y) -> exists fl', run_serial tb db fl (map fst o) = (y_db y, fl', map snd o)) /\
    consistent tb (y_db y) (y_flt y) (outcome (schema_of tb) m (map (fun f => (snd (fst f), ok_of (snd f))) (finished y))) /\
    same_outside (schema_of tb) db (y_db y).
Proof. exact @any_schedule_orders. Qed.
Print Assumptions C38_any_schedule.

(** C38. No call waits for another: given a step per row and two more, it has returned, whatever the others do. *)
Theorem C38_returns : forall (T F : Type) (tb : table T F) sch db fl h i ev c,
  nth_error h i = Some (ev, c) -> env_ok ev -> length (rows_of c) + 2 <= count_occ PeanoNat.Nat.eq_dec sch i ->
  exists r, In (ev, c, r) (finished (run_sched tb sch (start tb db fl h))).
Proof. exact @returns. Qed.
Print Assumptions C38_returns.

(** Four calls on different rows of a table holding one row, taking turns; the last fails. *)
Example C38_case :
  consistent accts one_stored tt one_map /\ Forall (fun ec => env_ok (fst ec)) apart /\
  Forall (admissible asc one_map) (map snd apart) /\ ForallOrdPairs (disjoint asc) (map snd apart) /\
  map (fun f => ok_of (snd f)) (finished (run_sched accts [0; 1; 2; 3; 0; 2; 0; 1] (start accts one_stored tt apart))) = [true; true; true; false].
Proof.
  split; [exact one_stored_consistent|]. split; [exact apart_envs|]. split; [exact apart_admissible|]. split; [exact apart_disjoint|].
  vm_compute. reflexivity.
Qed.

(** C39 is false. Two Inserts of one key both succeed, which no order of the two explains, and an index entry of a row that is gone stays. *)
Theorem C39_inserts_refuted : exists sch y, y = run_sched accts sch (start accts [] tt two_inserts) /\
  finished y = map (fun ec => (ec, Ok tt)) two_inserts /\ ~ serializable accts [] tt y /\ (forall m', ~ Rep asc (y_db y) m').
Proof. exact inserts_race. Qed.
Print Assumptions C39_inserts_refuted.

(** C39. Two Updates of one row leave an index entry neither of them leaves alone. *)
Theorem C39_updates_refuted : exists sch y, y = run_sched accts sch (start accts one_stored tt two_updates) /\
  finished y = map (fun ec => (ec, Ok tt)) two_updates /\ ~ serializable accts one_stored tt y /\ (forall m', ~ Rep asc (y_db y) m').
Proof. exact updates_race. Qed.
Print Assumptions C39_updates_refuted.

(** C39. Two Upserts adding 1 and 2 to a score of 0 leave 2, where every order leaves 3. *)
Theorem C39_upserts_refuted : exists sch y, y = run_sched accts sch (start accts one_stored tt two_upserts) /\
  finished y = map (fun ec => (ec, Ok tt)) two_upserts /\ ~ serializable accts one_stored tt y /\
  score_of (y_db y) = Some 2%N /\
  (forall o, Permutation o two_upserts -> score_of (fst (fst (run_serial accts one_stored tt o))) = Some 3%N).
Proof. exact upserts_race. Qed.
Print Assumptions C39_upserts_refuted.

(** C39. What does hold with rows in common: for Insert, Update and Delete the rows (not the index entries) are those left by the
    successful calls in the order in which they return. Missing: Upsert (next), index entries, and that an Insert fails on a row that exists. *)
Theorem C39_rows_partial : forall (T F : Type) (tb : table T F), lawful tb -> forall db fl (m : tmap T) h sch,
  kv_ok db -> rows_are (schema_of tb) db m ->
  Forall (fun ec => env_ok (fst ec) /\ blind (snd ec) /\ once (schema_of tb) (snd ec)) h ->
  let y := run_sched tb sch (start tb db fl h) in
  let o := returned tb (start tb db fl h) sch in
  Permutation (finished y) o /\
  rows_are (schema_of tb) (y_db y) (outcome (schema_of tb) m (map (fun f => (snd (fst f), ok_of (snd f))) o)).
Proof. exact @rows_last_commit. Qed.
Print Assumptions C39_rows_partial.

(** The two updates above and a delete. *)
Example C39_rows_case :
  let h := two_updates ++ [(demo_env 10, CDelete [Acct 5 1 1 true; Acct 5 1 1 true])] in
  kv_ok one_stored /\ rows_are asc one_stored one_map /\
  Forall (fun ec => env_ok (fst ec) /\ blind (snd ec) /\ once asc (snd ec)) h /\
  map snd (returned accts (start accts one_stored tt h) [1; 0; 2; 1; 2; 0]) = [Ok tt; Ok tt; Ok tt].
Proof. exact rows_case. Qed.

(** C39. With Upserts too: each call that succeeds writes its rows at the moment it returns; those of an Upsert are merged with versions
    the rows had at the beginning or after one of the calls that returned before it, not necessarily the last. Missing: as above. *)
Theorem C39_rows_upsert_partial : forall (T F : Type) (tb : table T F), good_table tb -> forall db fl (m : tmap T) h sch,
  kv_ok db -> rows_are (schema_of tb) db m -> own_keys (schema_of tb) m -> covers tb fl db ->
  Forall (fun ec => env_ok (fst ec) /\ keeps_key (schema_of tb) (snd ec) /\ once (schema_of tb) (snd ec)) h ->
  exists m', explained (schema_of tb) [m] (map (fun f => (snd (fst f), ok_of (snd f))) (returned tb (start tb db fl h) sch)) m' /\
    own_keys (schema_of tb) m' /\ rows_are (schema_of tb) (y_db (run_sched tb sch (start tb db fl h))) m'.
Proof. exact @rows_explained. Qed.
Print Assumptions C39_rows_upsert_partial.

(** The two Upserts above and a Delete of their row; the second Upsert returns last and has read the row before it was deleted. *)
Example C39_rows_upsert_case :
  let h := two_upserts ++ [(demo_env 10, CDelete [Acct 1 10 0 true])] in
  let sch := [0; 1; 0; 2; 2; 1] in
  kv_ok one_stored /\ rows_are asc one_stored one_map /\ own_keys asc one_map /\ covers accts tt one_stored /\
  Forall (fun ec => env_ok (fst ec) /\ keeps_key asc (snd ec) /\ once asc (snd ec)) h /\
  map snd (returned accts (start accts one_stored tt h) sch) = [Ok tt; Ok tt; Ok tt] /\
  score_of (y_db (run_sched accts sch (start accts one_stored tt h))) = Some 2%N.
Proof. exact rows_upsert_case. Qed.
