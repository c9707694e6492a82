(** Property C84: what reads return after any calls, whatever the indexes hold. *)

From Coq Require Import List NArith Lia Bool Arith Sorting.Sorted.
From Verif.Model Require Import Bytes Go Keys Pebble Index Table Scan Query.
From Verif.Spec Require Import KeySpec StoreSpec TableSpec HistSpec RowsSpec ScanSpec QuerySpec SoundSpec.
From Verif.Proofs Require Import Witness TableBugs ScanBugs QueryBugs SoundQuery RowsOnly SoundBugs.
Import ListNotations.

(** C84. A callback that keeps something when given rows of the table keeps it in every
    scan: on any index, with any selector, cancelled, failing or stopped, whatever the
    indexes hold. So a callback never sees anything but rows of the table. *)
Theorem C84_callbacks_see_rows : forall (T F : Type) (tb : table T F), good_table tb -> forall ev, env_ok ev ->
  forall db ob m, kv_ok db -> readable (batch_of ob) -> RowsAre (schema_of tb) (view db (batch_of ob)) m ->
  forall W (f : W -> bytes -> prog (T:=T) W) (P : W -> Prop), (forall s k, P s -> keeps (held m) P (f s k)) ->
  forall idx sel, In idx (primary_index :: t_indexes tb) -> Forall (parts_short (sindex_of idx)) (sel_records sel) ->
  forall rv fuel fl s, P s -> P (fst (scan_index_for_each tb ev fuel db fl idx sel f rv ob s)).
Proof. exact @scans_sound. Qed.
Print Assumptions C84_callbacks_see_rows.

(** C84. ScanIndex adds rows of the table only, also when it fails. *)
Theorem C84_scans_return_rows : forall (T F : Type) (tb : table T F), good_table tb -> forall ev, env_ok ev ->
  forall db ob m, kv_ok db -> readable (batch_of ob) -> RowsAre (schema_of tb) (view db (batch_of ob)) m ->
  forall idx sel, In idx (primary_index :: t_indexes tb) -> Forall (parts_short (sindex_of idx)) (sel_records sel) ->
  forall rv fuel fl acc, exists l, fst (scan_index tb ev fuel db fl idx sel acc rv ob) = acc ++ l /\ Forall (held m) l.
Proof. exact @scan_index_sound. Qed.
Print Assumptions C84_scans_return_rows.

(** C84. A query returns rows of the table that its filter accepts: with any order, After,
    offset, limit, Reverse and Intersects (which read committed rows). *)
Theorem C84_queries_return_rows : forall (T F : Type) (tb : table T F), good_table tb -> forall ev, env_ok ev -> forall srt, sorts srt ->
  forall db ob m, kv_ok db -> readable (batch_of ob) ->
  forall q, RowsAre (schema_of tb) (match q_inter q with [] => view db (batch_of ob) | _ => db end) m ->
  on_table tb q -> Forall (on_table tb) (q_inter q) ->
  forall fuel fl l, execute tb ev srt fuel db fl q ob = Ok l ->
  forall r, In r l -> held m r /\ forall f, q_filter q = Some f -> f r = true.
Proof. exact @queries_sound. Qed.
Print Assumptions C84_queries_return_rows.

(** C84. So after any history of calls, whatever they were given. *)
Theorem C84_queries_after_any_history : forall (T F : Type) (tb : table T F), good_table tb ->
  forall h fl0 db' fl' oks, Forall (fun ec => env_ok (fst ec)) h -> run_hist tb [] fl0 h = (db', fl', oks) ->
  exists m', hist_rows (schema_of tb) (map (fun ec => e_chunk (fst ec)) h) oks empty_map m' /\
    forall ev, env_ok ev -> forall srt, sorts srt -> forall q, on_table tb q -> Forall (on_table tb) (q_inter q) ->
    forall fuel l, execute tb ev srt fuel db' fl' q NoBatch = Ok l ->
    forall r, In r l -> held m' r /\ forall f, q_filter q = Some f -> f r = true.
Proof. exact @any_history_queries. Qed.
Print Assumptions C84_queries_after_any_history.

(** the indexes do hold wrong entries here *)
Example C84_history_case : Forall (fun ec => env_ok (fst ec)) rough /\
  (exists oks, run_hist accts [] tt rough = (rough_db, tt, oks) /\ map snd oks = [true; true; true; false; true]) /\
  let q := q_with_filter (q_with (new_query accts) acct_by_kind (SPoint (Acct 0 10 (2 ^ 64 - 1) true))) (fun r => (1 <? a_score r)%N) in
  on_table accts q /\ execute accts env1 (@isort acct) 9 rough_db tt q NoBatch = Ok [Acct 1 7 7 true].
Proof.
  split; [exact rough_env|]. split; [exact rough_run|]. split; [|vm_compute; reflexivity].
  split; [right; left; reflexivity|]. repeat constructor; vm_compute; reflexivity.
Qed.

(** C84 is false as stated for secondary indexes: rows that do not match are returned, and scans fail. *)
Theorem C84_index_mismatch_refuted : exists h db oks, Forall (fun ec => env_ok (fst ec)) h /\ run_hist accts [] tt h = (db, tt, oks) /\
  forall fuel, 9 <= fuel ->
  scan_index accts env1 fuel db tt acct_by_kind (SPoint (Acct 0 10 (2 ^ 64 - 1) true)) [] false NoBatch
    = ([Acct 1 7 7 true; Acct 4 10 1 true], Ok tt) /\
  scan_index accts env1 fuel db tt acct_by_score (SRange (Acct 0 0 0 true) (Acct 9 0 9 true)) [] false NoBatch = ([], Err ENotFound).
Proof. destruct rough_run as (oks & R & _). exists rough, rough_db, oks. exact (conj rough_env (conj R rough_index)). Qed.
Print Assumptions C84_index_mismatch_refuted.

(** C84. Reads on the primary index are exact whatever the secondary indexes hold. *)
Theorem C84_primary_scan_partial : forall (T F : Type) (tb : table T F), good_table tb -> forall ev, env_ok ev ->
  forall db fl ob m, row_reads tb db fl ob m -> 0 < t_prefetch tb -> quiet ev ->
  let sc := schema_of tb in
  exists l, StronglySorted (fun a b => bcmp (s_pk sc a) (s_pk sc b) = Lt) l /\
    (forall r, In r l <-> m (s_pk sc r) = Some r /\ bcmp (s_pk sc (t_empty tb)) (s_pk sc r) <> Gt) /\
    forall rv fuel acc, length l <= fuel -> scan tb ev fuel db fl acc rv ob = (acc ++ dir rv l, Ok tt).
Proof. exact @only_scan. Qed.
Print Assumptions C84_primary_scan_partial.

Theorem C84_primary_range_partial : forall (T F : Type) (tb : table T F), good_table tb -> forall ev, env_ok ev ->
  forall db fl ob m, row_reads tb db fl ob m -> forall lo hi, 0 < t_prefetch tb -> quiet ev ->
  let sc := schema_of tb in exact_end sc sprimary m hi ->
  exists l, StronglySorted (fun a b => bcmp (s_pk sc a) (s_pk sc b) = Lt) l /\
    (forall r, In r l <-> m (s_pk sc r) = Some r /\ bcmp (s_pk sc lo) (s_pk sc r) <> Gt /\ bcmp (s_pk sc r) (s_pk sc hi) <> Gt) /\
    forall fuel, length l <= fuel -> get_sel tb ev fuel db fl ob (SRange lo hi) = Ok l.
Proof. exact @only_get_range. Qed.
Print Assumptions C84_primary_range_partial.

Theorem C84_primary_multi_partial : forall (T F : Type) (tb : table T F), good_table tb -> forall ev, env_ok ev ->
  forall db fl ob m, row_reads tb db fl ob m -> forall sel, 0 < t_prefetch tb -> quiet ev -> exact_selector tb primary_index m sel ->
  exists l, selected tb primary_index m sel l /\ (forall l', selected tb primary_index m sel l' -> l' = l) /\
    forall rv fuel acc, length l <= fuel -> scan_index tb ev fuel db fl primary_index sel acc rv ob = (acc ++ dir rv l, Ok tt).
Proof. exact @only_multi. Qed.
Print Assumptions C84_primary_multi_partial.

Theorem C84_primary_callbacks_partial : forall (T F : Type) (tb : table T F), good_table tb -> forall ev,
  forall db fl ob m, row_reads tb db fl ob m -> forall sel, exact_selector tb primary_index m sel ->
  exists l, selected tb primary_index m sel l /\
  forall rv W (f : W -> bytes -> prog W) fuel s, within f (keyed (schema_of tb) sprimary (dir rv l)) s fuel ->
    visited ev f (keyed (schema_of tb) sprimary (dir rv l)) s (scan_index_for_each tb ev fuel db fl primary_index sel f rv ob s).
Proof. exact @only_each. Qed.
Print Assumptions C84_primary_callbacks_partial.

Theorem C84_points_partial : forall (T F : Type) (tb : table T F), good_table tb -> forall ev, env_ok ev ->
  forall db fl ob m pts, row_reads tb db fl ob m -> (forall p x, m p = Some x -> s_val (schema_of tb) x <> Some []) ->
  get_points tb ev db fl (batch_of ob) pts = Ok (map (fun p => match m (s_pk (schema_of tb) p) with Some x => x | None => t_nil tb end) pts).
Proof. exact @only_points. Qed.
Print Assumptions C84_points_partial.

Theorem C84_primary_query_partial : forall (T F : Type) (tb : table T F), good_table tb -> forall ev, env_ok ev ->
  forall srt db fl ob m, row_reads tb db fl ob m -> 0 < t_prefetch tb -> quiet ev ->
  forall q, q_index q = primary_index -> exact_selector tb primary_index m (q_sel q) ->
  q_inter q = [] -> q_less q = None -> q_after q = None -> (q_offset q < 2 ^ 63)%N -> (q_limit q < 2 ^ 63)%N ->
  exists l, selected tb primary_index m (q_sel q) l /\
  forall fuel, enough q (dir (q_rev q) l) fuel ->
    execute tb ev srt fuel db fl q ob = Ok (window (q_offset q) (q_limit q) (keep (q_filter q) (dir (q_rev q) l))).
Proof. exact @only_query. Qed.
Print Assumptions C84_primary_query_partial.

Theorem C84_primary_order_partial : forall (T F : Type) (tb : table T F), good_table tb -> forall ev, env_ok ev ->
  forall srt db fl ob m, row_reads tb db fl ob m -> 0 < t_prefetch tb -> quiet ev ->
  forall q less, sorts srt -> q_index q = primary_index -> exact_selector tb primary_index m (q_sel q) ->
  q_inter q = [] -> q_less q = Some less -> (q_offset q < 2 ^ 63)%N -> (q_limit q < 2 ^ 63)%N ->
  exists l s a, selected tb primary_index m (q_sel q) l /\
    ordered (Some less) (keep (q_filter q) (dir (q_rev q) l)) s /\ behind_opt (schema_of tb) (q_after q) s a /\
  forall fuel, length l <= fuel -> execute tb ev srt fuel db fl q ob = Ok (window (q_offset q) (q_limit q) a).
Proof. exact @only_query_order. Qed.
Print Assumptions C84_primary_order_partial.

(** C84. Any history whose onConflicts keep keys leaves a table for which the above holds. *)
Theorem C84_rows_after_any_history : forall (T F : Type) (tb : table T F), good_table tb ->
  forall h fl0 db' fl' oks, Forall (fun ec => env_ok (fst ec)) h -> run_hist tb [] fl0 h = (db', fl', oks) ->
  exists m', hist_rows (schema_of tb) (map (fun ec => e_chunk (fst ec)) h) oks empty_map m' /\ kv_ok db' /\ RowsAre (schema_of tb) db' m' /\
    (Forall (fun ec => keeps_key (schema_of tb) (snd ec)) h -> row_reads tb db' fl' NoBatch m').
Proof. exact @any_history_rows. Qed.
Print Assumptions C84_rows_after_any_history.

Theorem C84_scan_after_any_history_partial : forall (T F : Type) (tb : table T F), good_table tb ->
  forall h fl0 db' fl' oks, Forall (fun ec => env_ok (fst ec)) h -> Forall (fun ec => keeps_key (schema_of tb) (snd ec)) h ->
  run_hist tb [] fl0 h = (db', fl', oks) -> 0 < t_prefetch tb ->
  let sc := schema_of tb in
  exists m', hist_rows sc (map (fun ec => e_chunk (fst ec)) h) oks empty_map m' /\
    forall ev, env_ok ev -> quiet ev -> exists l,
    StronglySorted (fun a b => bcmp (s_pk sc a) (s_pk sc b) = Lt) l /\
    (forall r, In r l <-> m' (s_pk sc r) = Some r /\ bcmp (s_pk sc (t_empty tb)) (s_pk sc r) <> Gt) /\
    forall rv fuel acc, length l <= fuel -> scan tb ev fuel db' fl' acc rv NoBatch = (acc ++ dir rv l, Ok tt).
Proof. exact @any_history_scan. Qed.
Print Assumptions C84_scan_after_any_history_partial.

Example C84_primary_case : Forall (fun ec => keeps_key (schema_of accts) (snd ec)) rough /\
  scan accts env1 2 rough_db tt [] true NoBatch = ([Acct 4 10 1 true; Acct 1 7 7 true], Ok tt) /\
  get_sel accts env1 2 rough_db tt NoBatch (SRange (Acct 1 0 0 true) (Acct 3 0 0 true)) = Ok [Acct 1 7 7 true] /\
  get_points accts env1 rough_db tt None [Acct 4 0 0 true; Acct 2 0 0 true] = Ok [Acct 4 10 1 true; acct_zero] /\
  execute accts env1 (@isort acct) 5 rough_db tt (q_order (new_query accts) (fun a b => (a_score a <? a_score b)%N)) NoBatch = Ok [Acct 4 10 1 true; Acct 1 7 7 true].
Proof. split; [exact rough_keys|]. repeat split; vm_compute; reflexivity. Qed.

(** Without that a row can be scanned, but not be found by its key. *)
Theorem C84_moved_row_refuted : exists h db oks, Forall (fun ec => env_ok (fst ec)) h /\ run_hist accts [] tt h = (db, tt, oks) /\ map snd oks = [true; true] /\
  (forall fuel, 2 <= fuel -> scan accts env1 fuel db tt [] false NoBatch = ([Acct 9 10 4 true], Ok tt)) /\
  get_point accts db tt None (Acct 9 10 4 true) = Err ENotFound /\ get_point accts db tt None (Acct 1 0 0 true) = Ok (Acct 9 10 4 true).
Proof. destruct moved_row as (db & oks & R). exists moved, db, oks. exact (conj moved_env R). Qed.
Print Assumptions C84_moved_row_refuted.
