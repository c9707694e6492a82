(** Property C73: a filter can be initialised in the background while the table is in use. *)

From Coq Require Import List NArith Bool Sorting.Permutation.
From Verif.Model Require Import Bytes Go Keys Pebble Table Scan AnyScan Bloom Concur LiveFilter.
From Verif.Spec Require Import KeySpec TableSpec HistSpec ConcurSpec BloomSpec.
From Verif.Proofs Require Import PebbleFacts Witness TableBugs ScanBugs BloomFacts FilterBugs ConcurBugs LiveFilterFacts LiveFilterBugs.
Import ListNotations.

(** C73. While Initialize runs, calls on different rows return what they return without a filter, and leave what they leave in any
    order; the filter is right for the table at every moment (so reads and later calls are as without one), and it is in use exactly when
    Initialize has succeeded. The store was left by any history; if it can be loaded, it vouches for the rows stored at the beginning
    (C41), and no row lies in front of the zero record (C42). *)
Theorem C73_background_partial : forall (S : Type) (st : storer S) cd hs c, storer_ok st c -> codec_ok cd -> hashes_ok hs -> 0 < c_n c ->
  forall (T A : Type) (tb : table T (initializable (bloom c))) db m h (evi : env T) (inj : T -> A) s0 os s1 bs1 rs scs load clear fl,
  t_filter tb = Some (iz_filt (bloom_filt hs c)) -> good_table tb -> kv_ok db -> Rep (schema_of tb) db m ->
  Forall (fun ec => env_ok (fst ec)) h -> Forall (admissible (schema_of tb) m) (map snd h) -> ForallOrdPairs (disjoint (schema_of tb)) (map snd h) ->
  bloom_run st cd hs c s0 (new_bloom c) os = (s1, bs1, rs) ->
  (forall b, (bl_bs (fst (load b)), snd (load b)) = bloom_load st cd c s1 (bl_bs b)) -> clear = snd (bloom_clear st c s1) ->
  (snd (bloom_load st cd c s1 (new_bloom c)) = Ok tt -> forall p r, m p = Some r -> snd (promises no_promise os rs) (row_key (schema_of tb) p)) ->
  In (own_scanner tb evi inj) scs ->
  (forall p r, m p = Some r -> bcmp (s_pk (schema_of tb) (t_empty tb)) p <> Gt) ->
  (forall ec r, In ec h -> In r (rows_of (snd ec)) -> bcmp (s_pk (schema_of tb) (t_empty tb)) (s_pk (schema_of tb) r) <> Gt) ->
  forall sch, let y := run_live tb (bloom_filt hs c) load clear sch (live_start tb db fl h scs) in
    (forall ev c r, In (ev, c, r) (finished (lv_sys y)) -> In (ev, c) h /\ r = solo (no_filter tb) db (Initz fl false) (ev, c)) /\
    (forall o, Permutation o (map fst (finished (lv_sys y))) ->
       exists fl', run_serial tb db (Initz fl false) o = (y_db (lv_sys y), fl', map (solo (no_filter tb) db (Initz fl false)) o)) /\
    consistent tb (y_db (lv_sys y)) (y_flt (lv_sys y)) (outcome (schema_of tb) m (map (fun f => (snd (fst f), ok_of (snd f))) (finished (lv_sys y)))) /\
    (iz_on (y_flt (lv_sys y)) = true <-> lv_init y = PEnd (Ok tt)).
Proof. exact bloom_live. Qed.
Print Assumptions C73_background_partial.

(** C73. Initialize comes to an end, whatever has happened. *)
Theorem C73_ends : forall (T FI : Type) (tb : table T (initializable FI)) f load clear (y : lsys (T:=T) (FI:=FI)),
  exists n r, lv_init (run_live tb f load clear (repeat Init n) y) = PEnd r.
Proof. exact @init_ends. Qed.
Print Assumptions C73_ends.

(** Four calls on different rows, one row stored: rows are written before, during and after the scan; the filter is in use in the end, all rows are
    seen, and the filter rules out row 5. *)
Example C73_case :
  t_filter iz_accts = Some (iz_filt dfilt) /\ good_table iz_accts /\ kv_ok one_stored /\ Rep (schema_of iz_accts) one_stored one_map /\
  Forall (fun ec => env_ok (fst ec)) apart /\ Forall (admissible asc one_map) (map snd apart) /\ ForallOrdPairs (disjoint asc) (map snd apart) /\
  bloom_run db_storer demo_codec demo_hashes demo_config [] (new_bloom demo_config) [] = ([], new_bloom demo_config, []) /\
  (forall b, (bl_bs (fst (load_from [] b)), snd (load_from [] b)) = bloom_load db_storer demo_codec demo_config [] (bl_bs b)) /\
  snd (bloom_clear db_storer demo_config []) = Ok tt /\ snd (bloom_load db_storer demo_codec demo_config [] (new_bloom demo_config)) <> Ok tt /\
  (forall p r, one_map p = Some r -> bcmp (s_pk asc (t_empty iz_accts)) p <> Gt) /\
  (forall ec r, In ec apart -> In r (rows_of (snd ec)) -> bcmp (s_pk asc (t_empty iz_accts)) (s_pk asc r) <> Gt) /\
  let y := live_run apart mixed in
  map (fun f => ok_of (snd f)) (finished (lv_sys y)) = [true; true; true; false] /\ lv_init y = PEnd (Ok tt) /\
  map (seen y) [1; 2; 3; 4; 9; 5]%N = [Ok (Acct 1 11 7 true); Ok (Acct 2 20 0 true); Ok (Acct 3 20 5 true); Ok (Acct 4 10 1 false); Ok (Acct 9 1 1 true); Err ENotFound].
Proof. exact live_case. Qed.

(** C73 is false for calls on the same row: an Update reads its row, a Delete removes it, Initialize scans and switches the filter on, and the Update
    commits. Both calls and Initialize succeed and the row is stored, but it cannot be seen. *)
Theorem C73_same_row_refuted : exists h sch y, h = changed_deleted /\ y = live_run h sch /\
  map snd (finished (lv_sys y)) = [Ok tt; Ok tt] /\ lv_init y = PEnd (Ok tt) /\
  get_point (no_filter iz_accts) (y_db (lv_sys y)) (y_flt (lv_sys y)) None (Acct 1 0 0 false) = Ok (Acct 1 11 0 true) /\ seen y 1 = Err ENotFound.
Proof. exact updated_unseen. Qed.
Print Assumptions C73_same_row_refuted.
