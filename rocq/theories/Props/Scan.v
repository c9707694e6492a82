(** Properties C22-C26, C33: scans. *)

From Coq Require Import List NArith Lia Bool Arith Sorting.Sorted.
From Verif.Model Require Import Bytes Go Keys Pebble Index Table Scan.
From Verif.Spec Require Import KeySpec StoreSpec TableSpec HistSpec ScanSpec.
From Verif.Proofs Require Import Witness TableBugs ScanTop ScanBugs.
Import ListNotations.

(** C22. Scan returns, from the key of the zero record on, every row once in key
    order; reversed with reverse. Missing: rows below the zero record (refuted below). *)
Theorem C22_scan_rows_partial : forall (T F : Type) (tb : table T F), good_table tb -> forall ev, env_ok ev ->
  forall db fl ob m, reads tb db fl ob m -> 0 < t_prefetch tb -> quiet ev ->
  let sc := schema_of tb in
  exists l, StronglySorted (fun a b => bcmp (s_pk sc a) (s_pk sc b) = Lt) l /\
    (forall r, In r l <-> m (s_pk sc r) = Some r /\ bcmp (s_pk sc (t_empty tb)) (s_pk sc r) <> Gt) /\
    forall rv fuel acc, length l <= fuel -> scan tb ev fuel db fl acc rv ob = (acc ++ dir rv l, Ok tt).
Proof. exact @t_full_scan. Qed.
Print Assumptions C22_scan_rows_partial.

(** C22. ... hence all rows, if none has a key below that of the zero record. *)
Theorem C22_scan_all_rows_partial : forall (T F : Type) (tb : table T F), good_table tb -> forall ev, env_ok ev ->
  forall db fl ob m, reads tb db fl ob m -> 0 < t_prefetch tb -> quiet ev ->
  let sc := schema_of tb in
  (forall r, m (s_pk sc r) = Some r -> bcmp (s_pk sc (t_empty tb)) (s_pk sc r) <> Gt) ->
  exists l, StronglySorted (fun a b => bcmp (s_pk sc a) (s_pk sc b) = Lt) l /\
    (forall r, In r l <-> m (s_pk sc r) = Some r) /\
    forall rv fuel acc, length l <= fuel -> scan tb ev fuel db fl acc rv ob = (acc ++ dir rv l, Ok tt).
Proof. exact @t_full_scan_all. Qed.
Print Assumptions C22_scan_all_rows_partial.

Example C22_case : reads accts abc_db tt NoBatch abc_m /\ reads accts a_db tt (ABatch bc_batch) abc_m /\
  b_ops bc_batch <> [] /\
  scan accts env1 3 abc_db tt [] true NoBatch = ([Acct 3 10 5 true; Acct 2 11 0 false; Acct 1 10 6 true], Ok tt) /\
  scan accts env1 3 a_db tt [] false (ABatch bc_batch) = ([Acct 1 10 6 true; Acct 2 11 0 false; Acct 3 10 5 true], Ok tt).
Proof.
  split; [exact abc_reads|]. split; [exact abc_batch_reads|]. split; [vm_compute; discriminate|].
  split; vm_compute; reflexivity.
Qed.

(** C22. A point selector on the primary index returns the rows from that key on. *)
Theorem C22_primary_point : forall (T F : Type) (tb : table T F), good_table tb -> forall ev, env_ok ev ->
  forall db fl ob m, reads tb db fl ob m -> forall p, 0 < t_prefetch tb -> quiet ev ->
  let sc := schema_of tb in
  exists l, StronglySorted (fun a b => bcmp (s_pk sc a) (s_pk sc b) = Lt) l /\
    (forall r, In r l <-> m (s_pk sc r) = Some r /\ bcmp (s_pk sc p) (s_pk sc r) <> Gt) /\
    forall rv fuel acc, length l <= fuel ->
      scan_index tb ev fuel db fl primary_index (SPoint p) acc rv ob = (acc ++ dir rv l, Ok tt).
Proof. exact @t_primary_point. Qed.
Print Assumptions C22_primary_point.

Example C22_point_case :
  scan_index accts env1 3 abc_db tt primary_index (SPoint (Acct 2 0 0 true)) [] false NoBatch = ([Acct 2 11 0 false; Acct 3 10 5 true], Ok tt).
Proof. vm_compute. reflexivity. Qed.

(** C22 is false as stated: rows with keys below the zero record are never scanned. *)
Theorem C22_scan_omits_rows_refuted : exists db m r, consistent nums db tt m /\ m (s_pk (schema_of nums) r) = Some r /\
  forall fuel rv, ~ In r (fst (scan nums env1 fuel db tt [] rv NoBatch)).
Proof. exact scan_omits. Qed.
Print Assumptions C22_scan_omits_rows_refuted.

(** C23. A point selector on a secondary index, for index keys not ending in 0xFF. *)
Theorem C23_point_rows_partial : forall (T F : Type) (tb : table T F), good_table tb -> forall ev, env_ok ev ->
  forall db fl ob m, reads tb db fl ob m -> forall idx p, In idx (t_indexes tb) -> 0 < t_prefetch tb -> quiet ev ->
  exact_point (sindex_of idx) p ->
  exists l, listing (schema_of tb) (sindex_of idx) m (from_point (schema_of tb) (sindex_of idx) p) l /\
    forall rv fuel acc, length l <= fuel -> scan_index tb ev fuel db fl idx (SPoint p) acc rv ob = (acc ++ dir rv l, Ok tt).
Proof. exact @t_point. Qed.
Print Assumptions C23_point_rows_partial.

Example C23_case : exact_point (sindex_of acct_by_kind) (Acct 0 10 (2 ^ 64 - 1) true) /\
  scan_index accts env1 3 abc_db tt acct_by_kind (SPoint (Acct 0 10 (2 ^ 64 - 1) true)) [] false NoBatch = ([Acct 1 10 6 true; Acct 3 10 5 true], Ok tt) /\
  scan_index accts env1 3 abc_db tt acct_by_kind (SPoint (Acct 2 10 6 true)) [] false NoBatch = ([Acct 3 10 5 true], Ok tt).
Proof.
  split; [split; [split; vm_compute; reflexivity|vm_compute; discriminate]|]. split; vm_compute; reflexivity.
Qed.

(** C23-C25. Whatever its bytes, a selector never misses a selected row, and what it
    returns besides is stored and accepted by the index. *)
Theorem C23_scans_never_miss : forall (T F : Type) (tb : table T F), good_table tb -> forall ev, env_ok ev ->
  forall db fl ob m, reads tb db fl ob m -> forall idx sel, In idx (primary_index :: t_indexes tb) -> 0 < t_prefetch tb -> quiet ev ->
  short_sel (sindex_of idx) sel ->
  let sc := schema_of tb in
  exists l, (forall rv fuel acc, length l <= fuel -> scan_index tb ev fuel db fl idx sel acc rv ob = (acc ++ dir rv l, Ok tt)) /\
    (forall r, In r l -> m (s_pk sc r) = Some r /\ si_filter (sindex_of idx) r = true) /\
    (forall P r, In P (selections sc (sindex_of idx) (Byte.eqb (ix_id idx) x00) sel) -> m (s_pk sc r) = Some r ->
       si_filter (sindex_of idx) r = true -> P r -> In r l).
Proof. exact @t_never_misses. Qed.
Print Assumptions C23_scans_never_miss.

Example C23_never_miss_case : short_sel (sindex_of acct_by_kind) (SPoint (Acct 255 255 1 true)) /\
  fst (scan_index accts env1 4 (stored accts tt ff_rows) tt acct_by_kind (SPoint (Acct 255 255 1 true)) [] false NoBatch) =
    [Acct 255 255 1 true; Acct 256 256 1 true; Acct 510 300 1 true].
Proof. split; [split; vm_compute; reflexivity|vm_compute; reflexivity]. Qed.

(** C23 is false as stated: the point with index key 255 also returns rows with 256. *)
Theorem C23_point_too_much_refuted : exists db m p r, consistent accts db tt m /\ parts_fit (sindex_of acct_by_kind) p /\
  ~ from_point (schema_of accts) (sindex_of acct_by_kind) p r /\
  forall fuel, 4 <= fuel -> exists l, scan_index accts env1 fuel db tt acct_by_kind (SPoint p) [] false NoBatch = (l, Ok tt) /\ In r l.
Proof. exact point_too_much. Qed.
Print Assumptions C23_point_too_much_refuted.

(** C24. A range, for upper ends whose entry does not end in 0xFF and is not extended. *)
Theorem C24_range_rows_partial : forall (T F : Type) (tb : table T F), good_table tb -> forall ev, env_ok ev ->
  forall db fl ob m, reads tb db fl ob m -> forall idx lo hi, In idx (primary_index :: t_indexes tb) -> 0 < t_prefetch tb -> quiet ev ->
  parts_fit (sindex_of idx) lo -> exact_end (schema_of tb) (sindex_of idx) m hi ->
  exists l, listing (schema_of tb) (sindex_of idx) m (in_between (schema_of tb) (sindex_of idx) lo hi) l /\
    forall rv fuel acc, length l <= fuel -> scan_index tb ev fuel db fl idx (SRange lo hi) acc rv ob = (acc ++ dir rv l, Ok tt).
Proof. exact @t_range. Qed.
Print Assumptions C24_range_rows_partial.

Example C24_case : exact_end (schema_of accts) (sindex_of acct_by_score) abc_m (Acct 3 0 5 true) /\
  scan_index accts env1 3 abc_db tt acct_by_score (SRange (Acct 0 0 5 true) (Acct 1 0 6 true)) [] true NoBatch = ([Acct 1 10 6 true; Acct 3 10 5 true], Ok tt) /\
  scan_index accts env1 3 abc_db tt acct_by_score (SRange (Acct 0 0 5 true) (Acct 3 0 5 true)) [] true NoBatch = ([Acct 3 10 5 true], Ok tt).
Proof.
  split; [apply acct_end; [split; vm_compute; reflexivity|vm_compute; discriminate]|]. split; vm_compute; reflexivity.
Qed.

(** C24. Get with a range. *)
Theorem C24_get_range_partial : forall (T F : Type) (tb : table T F), good_table tb -> forall ev, env_ok ev ->
  forall db fl ob m, reads tb db fl ob m -> forall lo hi, 0 < t_prefetch tb -> quiet ev ->
  let sc := schema_of tb in exact_end sc sprimary m hi ->
  exists l, StronglySorted (fun a b => bcmp (s_pk sc a) (s_pk sc b) = Lt) l /\
    (forall r, In r l <-> m (s_pk sc r) = Some r /\ bcmp (s_pk sc lo) (s_pk sc r) <> Gt /\ bcmp (s_pk sc r) (s_pk sc hi) <> Gt) /\
    forall fuel, length l <= fuel -> get_sel tb ev fuel db fl ob (SRange lo hi) = Ok l.
Proof. exact @t_get_range. Qed.
Print Assumptions C24_get_range_partial.

Example C24_get_case : get_sel accts env1 3 a_db tt (ABatch bc_batch) (SRange (Acct 1 0 0 true) (Acct 2 9 9 true)) = Ok [Acct 1 10 6 true; Acct 2 11 0 false].
Proof. vm_compute. reflexivity. Qed.

(** C24 is false as stated: the range 1..255 also returns the row 510; and, for keys of
    any length, the range a..a also returns the row ab. *)
Theorem C24_range_too_much_refuted : exists db m lo hi r, consistent accts db tt m /\ ~ in_between (schema_of accts) sprimary lo hi r /\
  forall fuel, 4 <= fuel -> exists l, get_sel accts env1 fuel db tt NoBatch (SRange lo hi) = Ok l /\ In r l.
Proof. exact range_too_much. Qed.
Print Assumptions C24_range_too_much_refuted.

Theorem C24_range_extends_refuted : exists db m r x, consistent words db tt m /\ r <> x /\
  forall fuel, 3 <= fuel -> get_sel words env1 fuel db tt NoBatch (SRange r r) = Ok [r; x].
Proof. exact range_extends. Qed.
Print Assumptions C24_range_extends_refuted.

(** C25. Multi selectors: the selections of the elements one after another, reverse mirrored;
    the list is determined by the selector. *)
Theorem C25_multi_rows_partial : forall (T F : Type) (tb : table T F), good_table tb -> forall ev, env_ok ev ->
  forall db fl ob m, reads tb db fl ob m -> forall idx sel, In idx (primary_index :: t_indexes tb) -> 0 < t_prefetch tb -> quiet ev ->
  exact_selector tb idx m sel ->
  exists l, selected tb idx m sel l /\ (forall l', selected tb idx m sel l' -> l' = l) /\
    forall rv fuel acc, length l <= fuel -> scan_index tb ev fuel db fl idx sel acc rv ob = (acc ++ dir rv l, Ok tt).
Proof. exact @t_multi. Qed.
Print Assumptions C25_multi_rows_partial.

Theorem C25_get_ranges_partial : forall (T F : Type) (tb : table T F), good_table tb -> forall ev, env_ok ev ->
  forall db fl ob m, reads tb db fl ob m -> forall rs, 0 < t_prefetch tb -> quiet ev ->
  exact_selector tb primary_index m (SRanges rs) ->
  exists l, selected tb primary_index m (SRanges rs) l /\
    forall fuel, length l <= fuel -> get_sel tb ev fuel db fl ob (SRanges rs) = Ok l.
Proof. exact @t_get_ranges. Qed.
Print Assumptions C25_get_ranges_partial.

Example C25_case :
  exact_selector accts primary_index abc_m (SPoints [Acct 3 0 0 true; Acct 9 0 0 true; Acct 1 0 0 true; Acct 3 0 0 true]) /\
  scan_index accts env1 3 abc_db tt primary_index (SPoints [Acct 3 0 0 true; Acct 9 0 0 true; Acct 1 0 0 true; Acct 3 0 0 true]) [] false NoBatch
    = ([Acct 3 10 5 true; Acct 1 10 6 true; Acct 3 10 5 true], Ok tt) /\
  scan_index accts env1 4 abc_db tt acct_by_score (SRanges [[Acct 0 0 6 true; Acct 9 0 6 true]; [Acct 0 0 7 true; Acct 9 0 9 true]; [Acct 0 0 0 true; Acct 9 0 5 true]]) [] true NoBatch
    = ([Acct 3 10 5 true; Acct 2 11 0 false; Acct 1 10 6 true], Ok tt).
Proof.
  split; [|split; vm_compute; reflexivity].
  split; [discriminate|]. intros p [<-|[<-|[<-|[<-|[]]]]]; (apply acct_end; [split; vm_compute; reflexivity|vm_compute; discriminate]).
Qed.

(** C25. Any walk (First or Last, then any moves) of a selection's iterator shows what a
    cursor walking the selected rows would. *)
Theorem C25_walk : forall (T F : Type) (tb : table T F), good_table tb ->
  forall db fl ob m, reads tb db fl ob m -> forall idx sel, In idx (primary_index :: t_indexes tb) -> exact_selector tb idx m sel ->
  exists b l, index_iter tb db ob idx sel = Ok b /\ selected tb idx m sel l /\
  forall mv0 mvs, mv0 = MFirst \/ mv0 = MLast ->
    let b' := fold_left (fun b mv => bstep (db_iter db (batch_of ob)) mv b) (mv0 :: mvs) b in
    match cursor_at l (fold_left (cursor_step (length l)) (mv0 :: mvs) 0) with
    | Some r => bi_valid b' = true /\ bi_key b' = entry_key (schema_of tb) (sindex_of idx) r /\
                (if Byte.eqb (ix_id idx) x00 then s_val (schema_of tb) r = Some (bi_value b') else bi_value b' = [])
    | None => bi_valid b' = false
    end.
Proof. exact @t_walk. Qed.
Print Assumptions C25_walk.

(** C25 is false as stated for selectors without elements: they panic. *)
Theorem C25_empty_selector_refuted : forall (T F : Type) (tb : table T F) ev fuel db fl idx rv acc ob,
  scan_index tb ev fuel db fl idx (SPoints []) acc rv ob = (acc, Panic) /\
  scan_index tb ev fuel db fl idx (SRanges []) acc rv ob = (acc, Panic).
Proof. exact @empty_points_panic. Qed.
Print Assumptions C25_empty_selector_refuted.

(** C26. Callbacks on the primary index, of any kind: once per row, in order, Get returning
    the row, until stopped, after which no row is read any more; a cancelled context may end the scan earlier with its error. *)
Theorem C26_scan_primary : forall (T F : Type) (tb : table T F), good_table tb -> forall ev,
  forall db fl ob m, reads tb db fl ob m -> forall sel, exact_selector tb primary_index m sel ->
  exists l, selected tb primary_index m sel l /\
  forall rv W (f : W -> bytes -> prog W) fuel s, within f (keyed (schema_of tb) sprimary (dir rv l)) s fuel ->
    visited ev f (keyed (schema_of tb) sprimary (dir rv l)) s (scan_index_for_each tb ev fuel db fl primary_index sel f rv ob s).
Proof. exact @t_each_primary. Qed.
Print Assumptions C26_scan_primary.

(** C26. Callbacks on secondary indexes that, once they have loaded a row, load every later
    one exactly once. Missing: other callbacks (refuted below). *)
Theorem C26_scan_secondary_partial : forall (T F : Type) (tb : table T F), good_table tb -> forall ev, env_ok ev ->
  forall db fl ob m, reads tb db fl ob m -> forall idx sel, In idx (t_indexes tb) -> 0 < t_prefetch tb -> exact_selector tb idx m sel ->
  exists l, selected tb idx m sel l /\
  forall rv W (f : W -> bytes -> prog W) fuel s, loads_steadily f -> within f (keyed (schema_of tb) (sindex_of idx) (dir rv l)) s fuel ->
    visited ev f (keyed (schema_of tb) (sindex_of idx) (dir rv l)) s (scan_index_for_each tb ev fuel db fl idx sel f rv ob s).
Proof. exact @t_each_secondary. Qed.
Print Assumptions C26_scan_secondary_partial.

Example C26_case : loads_steadily late /\
  scan_index_for_each accts env1 3 abc_db tt acct_by_score (SRange (Acct 0 0 0 true) (Acct 1 0 9 true)) late false NoBatch (0, [])
    = ((2, [Acct 1 10 6 true]), Ok tt).
Proof. split; [exact late_steady|vm_compute; reflexivity]. Qed.

(** C26. Callbacks on secondary indexes that load at most one row per call, whichever rows they load: every Get returns the row of the call's
    key. A row that has been read ahead is offered until it is loaded. Both directions: what such offering ends in is what the scan returns, and
    the scan ends only so. Missing: callbacks that call Get twice (refuted below). *)
Theorem C26_at_most_once_partial : forall (T F : Type) (tb : table T F), good_table tb -> forall ev, env_ok ev ->
  forall db fl ob m, reads tb db fl ob m -> forall idx sel, In idx (t_indexes tb) -> 0 < t_prefetch tb -> exact_selector tb idx m sel ->
  exists l, selected tb idx m sel l /\
  forall rv W (f : W -> bytes -> prog W) s, loads_at_most_once f ->
    (forall out, offered ev f (t_prefetch tb) 0 0 (keyed (schema_of tb) (sindex_of idx) (dir rv l)) s out ->
       exists n, forall fuel, n <= fuel -> scan_index_for_each tb ev fuel db fl idx sel f rv ob s = out) /\
    (forall fuel, snd (scan_index_for_each tb ev fuel db fl idx sel f rv ob s) <> Diverge ->
       offered ev f (t_prefetch tb) 0 0 (keyed (schema_of tb) (sindex_of idx) (dir rv l)) s (scan_index_for_each tb ev fuel db fl idx sel f rv ob s)).
Proof. exact @t_each_offered. Qed.
Print Assumptions C26_at_most_once_partial.

(** The second and the third row are passed over once, and are offered again. *)
Example C26_at_most_once_case : loads_at_most_once every_other /\
  scan_index_for_each accts env1 9 abc_db tt acct_by_score (SRange (Acct 0 0 0 true) (Acct 9 0 9 true)) every_other false NoBatch []
    = ([Some (Acct 2 11 0 false); None; Some (Acct 3 10 5 true); None; Some (Acct 1 10 6 true)], Ok tt).
Proof. split; [exact every_other_once|vm_compute; reflexivity]. Qed.

(** C26. In every table: loading the first row of a selection and always passing over the second never ends. *)
Theorem C26_pass_over_never_ends : forall (T F : Type) (tb : table T F), good_table tb -> forall ev, env_ok ev ->
  forall db fl ob m, reads tb db fl ob m -> forall idx sel rv r1 r2 l', In idx (t_indexes tb) -> 2 <= t_prefetch tb -> exact_selector tb idx m sel -> quiet ev ->
  (exists l, selected tb idx m sel l /\ dir rv l = r1 :: r2 :: l') ->
  forall W (f : W -> bytes -> prog W) s g s1, loads_at_most_once f ->
    f s (entry_key (schema_of tb) (sindex_of idx) r1) = PGet g -> g (Ok r1) = PRet s1 true None ->
    (forall s, exists s', f s (entry_key (schema_of tb) (sindex_of idx) r2) = PRet s' true None) ->
    forall fuel, snd (scan_index_for_each tb ev fuel db fl idx sel f rv ob s) = Diverge.
Proof. exact @t_each_stuck. Qed.
Print Assumptions C26_pass_over_never_ends.

Example C26_pass_over_case : let k2 := entry_key asc (sindex_of acct_by_score) (Acct 3 10 5 true) in
  loads_at_most_once (not_that k2) /\
  scan_index_for_each accts env1 50 abc_db tt acct_by_score (SRange (Acct 0 0 0 true) (Acct 9 0 9 true)) (not_that k2) false NoBatch 0 = (50, Diverge).
Proof. split; [apply not_that_once|vm_compute; reflexivity]. Qed.

(** C26 is false as stated: a callback that loads one row and skips the next is called
    forever; one that loads each row twice panics, or gets the following row. *)
Theorem C26_skipping_diverges_refuted : exists db m, consistent accts db tt m /\
  forall fuel, snd (scan_index_for_each accts env1 fuel db tt acct_by_score (SPoint (Acct 0 0 1 true)) first_only false NoBatch 0) = Diverge.
Proof. exact first_only_diverges. Qed.
Print Assumptions C26_skipping_diverges_refuted.

Theorem C26_double_get_panics_refuted : exists db m, consistent accts db tt m /\
  forall fuel, 1 <= fuel -> snd (scan_index_for_each accts env1 fuel db tt acct_by_score (SPoint (Acct 0 0 1 true)) twice false NoBatch []) = Panic.
Proof. exact twice_panics. Qed.
Print Assumptions C26_double_get_panics_refuted.

Theorem C26_double_get_shifts_refuted : exists db m, consistent accts db tt m /\
  forall fuel, 3 <= fuel -> scan_index_for_each accts env1 fuel db tt acct_by_score (SPoint (Acct 0 0 1 true)) twice false NoBatch [] =
    ([Acct 256 9 1 true], Ok tt) /\
  scan_index accts env1 fuel db tt acct_by_score (SPoint (Acct 0 0 1 true)) [] false NoBatch = ([Acct 255 9 1 true; Acct 256 9 1 true], Ok tt).
Proof. exact twice_shifts. Qed.
Print Assumptions C26_double_get_shifts_refuted.

(** C18/C26. After deleting with a stale record the index cannot be scanned any more. *)
Theorem C18_stale_entry_breaks_scans_refuted : exists m r w, consistent accts one_stored tt m /\ m (s_pk (schema_of accts) r) <> None /\
  delete accts env1 one_stored tt None [r] = (w, Ok tt) /\
  forall fuel, 1 <= fuel -> snd (scan_index accts env1 fuel (r_db w) tt acct_by_kind (SRange (Acct 0 0 0 true) (Acct 1 99 9 true)) [] false NoBatch) = Err ENotFound.
Proof. exact stale_scan. Qed.
Print Assumptions C18_stale_entry_breaks_scans_refuted.

(** C18/C23. Refuted: when the primary key is used again the entry left behind leads to
    the new row, so that a scan returns it outside its range, and returns it twice. *)
Theorem C18_reused_key_wrong_scan_refuted : exists h db oks, Forall (fun ec => env_ok (fst ec) /\ quiet (fst ec)) h /\
  run_hist accts [] tt h = (db, tt, oks) /\ Forall (fun co => snd co = true) oks /\
  (forall fuel, 2 <= fuel ->
    scan_index accts env1 fuel db tt acct_by_kind (SRange (Acct 0 10 99 true) (Acct 9 10 0 true)) [] false NoBatch = ([Acct 1 11 0 true], Ok tt)) /\
  (forall fuel, 3 <= fuel ->
    scan_index accts env1 fuel db tt acct_by_kind (SRange (Acct 0 0 99 true) (Acct 9 99 0 true)) [] false NoBatch =
      ([Acct 1 11 0 true; Acct 1 11 0 true], Ok tt)).
Proof. exact reused_scan. Qed.
Print Assumptions C18_reused_key_wrong_scan_refuted.

(** C33 is false as stated: through a write-only batch everything reads as absent. *)
Theorem C33_write_only_silent_refuted : forall (T F : Type) (tb : table T F) ev fuel db fl idx (lo hi p : T) rv acc b, b_rw b = false ->
  scan_index tb ev fuel db fl idx (SRange lo hi) acc rv (ABatch b) = (acc, Ok tt) /\
  get_sel tb ev fuel db fl (ABatch b) (SRange lo hi) = Ok [] /\
  exist tb db fl (Some b) p = false /\
  (exists e, get_sel tb ev fuel db fl (ABatch b) (SPoint p) = Err e).
Proof. exact @write_only_silent. Qed.
Print Assumptions C33_write_only_silent_refuted.

(** C33. Through a read-write batch every row that exists (in the batch over the
    database) is returned. *)
Theorem C33_read_write_batch_partial : forall (T F : Type) (tb : table T F), good_table tb -> forall ev, env_ok ev ->
  forall db fl b m, reads tb db fl (ABatch b) m -> forall p, 0 < t_prefetch tb -> quiet ev ->
  let sc := schema_of tb in
  exists l, StronglySorted (fun a b => bcmp (s_pk sc a) (s_pk sc b) = Lt) l /\
    (forall r, In r l <-> m (s_pk sc r) = Some r /\ bcmp (s_pk sc p) (s_pk sc r) <> Gt) /\
    forall rv fuel acc, length l <= fuel ->
      scan_index tb ev fuel db fl primary_index (SPoint p) acc rv (ABatch b) = (acc ++ dir rv l, Ok tt).
Proof. exact (fun T F tb G ev EV db fl b m R => @t_primary_point T F tb G ev EV db fl (ABatch b) m R). Qed.
Print Assumptions C33_read_write_batch_partial.

(** Row 3 is in the database, rows 1 and 2 in the batch. *)
Example C33_batch_case : reads accts a_db tt (ABatch bc_batch) abc_m /\
  scan_index accts env1 3 a_db tt primary_index (SPoint acct_zero) [] true (ABatch bc_batch) = ([Acct 3 10 5 true; Acct 2 11 0 false; Acct 1 10 6 true], Ok tt) /\
  scan_index accts env1 3 a_db tt primary_index (SPoint acct_zero) [] false NoBatch = ([Acct 3 10 5 true], Ok tt) /\
  scan_index accts env1 3 a_db tt primary_index (SPoint acct_zero) [] false NilBatch = ([], Panic).
Proof. split; [exact abc_batch_reads|]. repeat split; vm_compute; reflexivity. Qed.

(** A nil batch panics; a selector of another type selects nothing, without an error. *)
Theorem C33_nil_batch_panics : forall (T F : Type) (tb : table T F) ev fuel db fl idx lo hi rv acc,
  scan_index tb ev fuel db fl idx (SRange lo hi) acc rv NilBatch = (acc, Panic) /\
  get_sel tb ev fuel db fl NilBatch (SRange lo hi) = Panic.
Proof. exact @nil_batch_panics. Qed.
Print Assumptions C33_nil_batch_panics.

Theorem C33_foreign_selector_silent_refuted : forall (T F : Type) (tb : table T F) ev fuel db fl idx acc rv ob,
  scan_index tb ev fuel db fl idx SOther acc rv ob = (acc, Ok tt).
Proof. exact @foreign_selector_silent. Qed.
Print Assumptions C33_foreign_selector_silent_refuted.
