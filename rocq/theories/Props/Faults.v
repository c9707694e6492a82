(** Property C87: reads that fail. *)

From Coq Require Import String List NArith Lia Bool Arith.
From Verif.Model Require Import Bytes Go Keys Pebble Index Table Scan Query ReIndex Backup LiveScan Faults.
From Verif.Spec Require Import KeySpec StoreSpec TableSpec HistSpec ScanSpec QuerySpec FaultSpec.
From Verif.Proofs Require Import PebbleFacts Witness TableBugs ScanBugs QueryBugs LiveBugs PagingBugs ReIndexFacts ReIndexBugs FaultScan FaultWrite FaultNone FaultTop FaultBugs.
Import ListNotations.

(** C87. If any reads of the storage fail, a scan of one point or range still
    calls its callback for exactly the selected rows and returns what it should, or it
    returns an error after a first part of them. *)
Theorem C87_one_selection_partial : forall (T F : Type) (tb : table T F), good_table tb -> forall ev, env_ok ev -> (forall n, e_ctx ev n = false) ->
  forall db fl ob m, kv_ok db -> readable ob -> consistent tb (view db ob) fl m ->
  forall io, (forall n, ft_open io n = false) ->
  forall (idx : index T) sel, In idx (primary_index :: t_indexes tb) -> 0 < t_prefetch tb -> exact_selector tb idx m sel -> one_selection sel ->
  exists l, selected tb idx m sel l /\
  forall rv W (f : W -> bytes -> prog W) fuel s, loads_steadily f -> gives_up f -> length l <= fuel ->
    fscan_index_for_each io tb ev fuel db fl idx sel f rv ob s = visit f (keyed (schema_of tb) (sindex_of idx) (dir rv l)) s \/
    exists l1 l2 s1 s2 e, dir rv l = l1 ++ l2 /\ visit_go f (keyed (schema_of tb) (sindex_of idx) l1) s = inr s1 /\ left_in f s1 s2 /\
      fscan_index_for_each io tb ev fuel db fl idx sel f rv ob s = (s2, Err e).
Proof. exact @scan_one. Qed.
Print Assumptions C87_one_selection_partial.

(** C87. For ScanIndex: all selected rows, or an error. *)
Theorem C87_rows_of_one_selection_partial : forall (T F : Type) (tb : table T F), good_table tb -> forall ev, env_ok ev -> (forall n, e_ctx ev n = false) ->
  forall db fl ob m, kv_ok db -> readable ob -> consistent tb (view db ob) fl m ->
  forall io, (forall n, ft_open io n = false) ->
  forall (idx : index T) sel, In idx (primary_index :: t_indexes tb) -> 0 < t_prefetch tb -> exact_selector tb idx m sel -> one_selection sel ->
  exists l, selected tb idx m sel l /\
  forall rv fuel acc, length l <= fuel ->
    fscan_index io tb ev fuel db fl idx sel acc rv ob = (acc ++ dir rv l, Ok tt) \/
    exists l1 l2 e, dir rv l = l1 ++ l2 /\ fscan_index io tb ev fuel db fl idx sel acc rv ob = (acc ++ l1, Err e).
Proof. exact @scan_index_one. Qed.
Print Assumptions C87_rows_of_one_selection_partial.

Example C87_one_case : reads accts abc_db tt NoBatch abc_m /\ exact_selector accts primary_index abc_m (q_sel all_ids) /\ exact_selector accts acct_by_kind abc_m kind10 /\
  one_selection (q_sel all_ids) /\ (forall n, ft_open (bad [2]) n = false) /\ gives_up (@append_cb acct) /\
  (fscan_index (bad [2]) accts env1 5 abc_db tt primary_index (q_sel all_ids) [] false None = ([a1], Err EOther) /\
   fscan_index (bad []) accts env1 5 abc_db tt primary_index (q_sel all_ids) [] false None = ([a1; a2; a3], Ok tt) /\
   fscan_index (bad [2]) accts env1 5 abc_db tt primary_index (q_sel all_ids) [] true None = ([a3], Err EOther)) /\
  fscan_index (bad [5]) accts env1 5 abc_db tt acct_by_kind kind10 [] false None = ([], Err ENotFound).
Proof.
  exact (conj abc_reads (conj (all_ids_exact _) (conj (kind10_exact _) (conj I (conj (fun _ => eq_refl) (conj append_gives_up (conj ids_cut (proj1 kind_cut)))))))).
Qed.

(** C87. A scan of several points or ranges returns a first part of each of them; if it
    returns no error, the last one it scanned is complete. *)
Theorem C87_several_selections_partial : forall (T F : Type) (tb : table T F), good_table tb -> forall ev, env_ok ev -> (forall n, e_ctx ev n = false) ->
  forall db fl ob m, kv_ok db -> readable ob -> consistent tb (view db ob) fl m ->
  forall io, (forall n, ft_open io n = false) ->
  forall (idx : index T) sel, In idx (primary_index :: t_indexes tb) -> 0 < t_prefetch tb -> exact_selector tb idx m sel ->
  exists ls, Forall2 (listing (schema_of tb) (sindex_of idx) m) (selections (schema_of tb) (sindex_of idx) (Byte.eqb (ix_id idx) x00) sel) ls /\
  forall rv fuel acc, length (concat ls) <= fuel ->
    exists l ok, in_parts (dirs rv ls) l ok /\ fst (fscan_index io tb ev fuel db fl idx sel acc rv ob) = acc ++ l /\
      (if ok then snd (fscan_index io tb ev fuel db fl idx sel acc rv ob) = Ok tt else exists e, snd (fscan_index io tb ev fuel db fl idx sel acc rv ob) = Err e).
Proof. exact @scan_index_all. Qed.
Print Assumptions C87_several_selections_partial.

(** C87. It is not so that a scan without an error returned all rows: of three points one
    is missing. *)
Theorem C87_several_selections_refuted : exists io, (forall n, ft_open io n = false) /\ reads accts abc_db tt NoBatch abc_m /\
  exact_selector accts primary_index abc_m (SPoints [a1; a2; a3]) /\
  fscan_index io accts env1 9 abc_db tt primary_index (SPoints [a1; a2; a3]) [] false None = ([a2; a3], Ok tt) /\
  fscan_index (bad []) accts env1 9 abc_db tt primary_index (SPoints [a1; a2; a3]) [] false None = ([a1; a2; a3], Ok tt).
Proof. exact (ex_intro _ (bad [2]) (conj (fun _ => eq_refl) (conj abc_reads (conj (id_points_exact _) points_lost)))). Qed.
Print Assumptions C87_several_selections_refuted.

(** C87. If the iterator cannot be made, a scan of any point or range of any database finds
    nothing and returns no error. *)
Theorem C87_unmade_iterator_refuted : forall (T F : Type) io (tb : table T F) ev fuel db fl idx sel W (f : W -> bytes -> prog W) rv ob s, ft_open io 0 = true -> one_selection sel ->
  (forall p, sel = SPoint p -> exists o, point_bounds tb idx false p = Ok o) ->
  fscan_index_for_each io tb ev fuel db fl idx sel f rv ob s = (s, Ok tt).
Proof. exact @blind_scan. Qed.
Print Assumptions C87_unmade_iterator_refuted.

Example C87_unmade_case : ft_open unmade 0 = true /\ fscan_index unmade accts env1 5 abc_db tt primary_index (q_sel all_ids) [] false None = ([], Ok tt).
Proof. exact (conj eq_refl unmade_scan). Qed.

(** C87. Get of points whose reads all fail returns nil records and no error; Get of one and Exist do not find a stored row. *)
Theorem C87_get_of_points_refuted : forall (T F : Type) io (tb : table T F) ev db fl ob pts, env_ok ev -> readable ob ->
  (forall n, ft_open io n = false) -> (forall n, ft_move io n = true) ->
  fget_points io tb ev db fl ob pts = Ok (map (fun _ => t_nil tb) pts).
Proof. exact @blind_points. Qed.
Print Assumptions C87_get_of_points_refuted.

Theorem C87_get_refuted : exists io, fget_one io accts abc_db tt None a2 = Err ENotFound /\ fexist io accts abc_db tt None a2 = false /\
  fget_one (bad []) accts abc_db tt None a2 = Ok a2 /\ fexist (bad []) accts abc_db tt None a2 = true.
Proof. exact (ex_intro _ blind one_lost). Qed.
Print Assumptions C87_get_refuted.

Example C87_points_case : fget_points (bad [2]) accts env1 abc_db tt None [a1; a2; a3] = Ok [a1; nobody; a3] /\
  fget_points (bad []) accts env1 abc_db tt None [a1; a2; a3] = Ok [a1; a2; a3].
Proof. exact points_nil. Qed.

(** C87. An Update whose reads fail does what it should, or it returns an error and
    changes nothing. *)
Theorem C87_update : forall (T F : Type) (tb : table T F) ev io db fl ob trs,
  fupdate io tb ev db fl ob trs = update tb ev db fl ob trs \/
  (exists e, snd (fupdate io tb ev db fl ob trs) = Err e) /\ r_db (fst (fupdate io tb ev db fl ob trs)) = db.
Proof. exact @update_safe. Qed.
Print Assumptions C87_update.

Example C87_update_case : fupdate (bad [1]) accts env1 abc_db tt None [a1; a3_12] = (WRes abc_db tt None, Err (EMissing (after_split (data_key accts a3)))) /\
  snd (fupdate (bad []) accts env1 abc_db tt None [a1; a3_12]) = Ok tt.
Proof. exact update_cut. Qed.

(** C87. Failing reads do not change an Insert that should succeed, nor an Upsert of rows
    that are not stored. *)
Theorem C87_insert_of_new_rows_partial : forall (T F : Type) (tb : table T F) ev io db fl ob trs,
  snd (insert tb ev db fl ob trs) = Ok tt -> finsert io tb ev db fl ob trs = insert tb ev db fl ob trs.
Proof. exact @insert_new. Qed.
Print Assumptions C87_insert_of_new_rows_partial.

Theorem C87_upsert_of_new_rows_partial : forall (T F : Type) (tb : table T F) ev io oc, env_ok ev -> forall db fl ob trs, kv_ok db ->
  match ob with Some b => b_rw b = false | None => True end -> (forall r, In r trs -> kv_get db (data_key tb r) = None) ->
  fupsert io tb ev oc db fl ob trs = upsert tb ev oc db fl ob trs.
Proof. exact @upsert_new. Qed.
Print Assumptions C87_upsert_of_new_rows_partial.

Example C87_new_rows_case : snd (insert accts env1 abc_db tt None fresh_rows) = Ok tt /\ snd (finsert blind accts env1 abc_db tt None fresh_rows) = Ok tt /\
  forall r, In r fresh_rows -> kv_get abc_db (data_key accts r) = None.
Proof. exact (conj (proj1 insert_blind) (conj (proj2 insert_blind) fresh_absent)). Qed.

(** C87. With a failing read Insert overwrites a stored row without an error; the index entry
    of the old row stays. *)
Theorem C87_insert_refuted : exists io, snd (finsert io accts env1 abc_db tt None [a3_12]) = Ok tt /\
  let db := r_db (fst (finsert io accts env1 abc_db tt None [a3_12])) in
  get_one accts db tt None a3 = Ok a3_12 /\
  scan_index accts env1 5 db tt acct_by_kind kind10 [] false NoBatch = ([a1; a3_12], Ok tt) /\
  snd (insert accts env1 abc_db tt None [a3_12]) = Err (EExists (after_split (data_key accts a3))).
Proof. exact (ex_intro _ (bad [0]) insert_over). Qed.
Print Assumptions C87_insert_refuted.

(** C87. Upsert does not ask onConflict and overwrites. *)
Theorem C87_upsert_refuted : exists io, let w := fupsert io accts env1 keep abc_db tt None [a3_12] in
  snd w = Ok tt /\ get_one accts (r_db (fst w)) tt None a3 = Ok a3_12 /\
  get_one accts (r_db (fst (upsert accts env1 keep abc_db tt None [a3_12]))) tt None a3 = Ok a3 /\
  scan_index accts env1 5 (r_db (fst w)) tt acct_by_kind kind10 [] false NoBatch = ([a1; a3_12], Ok tt).
Proof. exact (ex_intro _ (bad [0]) upsert_over). Qed.
Print Assumptions C87_upsert_refuted.

(** C87. ReIndex with failing reads and working writes always succeeds; its indexes hold exactly the entries of some of the
    rows, of none if the first read fails, of all if no read fails. *)
Theorem C87_reindex_partial : forall (T F : Type) (tb : table T F) idxs, lawful (with_indexes tb idxs) ->
  forall io ev db (m : tmap T), kv_ok db -> ser_fresh tb -> Rep (schema0 tb) db m -> (forall n, r_write ev n = true) ->
  (forall ix, In ix idxs -> ix_id ix <> xff) ->
  exists db' kept left, fre_index io ev tb db idxs = (db', Ok tt) /\
  (forall r, In r (kept ++ left) <-> m (s_pk (schema_of (with_indexes tb idxs)) r) = Some r) /\
  (ft_move io 0 = true -> kept = []) /\ ((forall n, ft_move io n = false) -> left = []) /\
  forall ix rest v, In ix idxs ->
    kv_get db' (t_id tb :: ix_id ix :: rest) = Some v <->
    v = [] /\ exists r, In r kept /\ ix_filter ix r = true /\ t_id tb :: ix_id ix :: rest = entry_key (schema_of (with_indexes tb idxs)) (sindex_of ix) r.
Proof. exact @rebuild_kept. Qed.
Print Assumptions C87_reindex_partial.

(** C87. So it can leave out rows without an error. *)
Theorem C87_reindex_refuted : exists io, lawful (with_indexes accts [by_flag]) /\ ser_fresh accts /\ Rep (schema0 accts) abc_db abc_m /\
  snd (fre_index io re_quiet accts abc_db [by_flag]) = Ok tt /\
  fst (scan_index flagged env1 5 (fst (fre_index io re_quiet accts abc_db [by_flag])) tt by_flag on_rows [] false NoBatch) = [a2; a1] /\
  fst (scan_index flagged env1 5 (fst (fre_index (bad []) re_quiet accts abc_db [by_flag])) tt by_flag on_rows [] false NoBatch) = [a2; a1; a3].
Proof. exact (ex_intro _ (bad [2]) (conj (flag_lawful x05 ltac:(discriminate)) (conj accts_fresh (conj abc_rows reindex_lost)))). Qed.
Print Assumptions C87_reindex_refuted.

(** The read behind row 2 fails: the entries of rows 1 and 2 are built, that of row 3 is left out. *)
Example C87_reindex_case : lawful (with_indexes accts [by_flag]) /\ kv_ok abc_db /\ ser_fresh accts /\ Rep (schema0 accts) abc_db abc_m /\
  (forall n, r_write re_quiet n = true) /\ ix_id by_flag <> xff /\
  snd (fre_index (bad [2]) re_quiet accts abc_db [by_flag]) = Ok tt /\
  map (fun r => kv_get cut_db (entry_key asc (sindex_of by_flag) r)) [a1; a2; a3] = [Some []; Some []; None].
Proof.
  destruct C87_reindex_refuted as (io & L & SF & R & _). split; [exact L|]. split; [exact (cons_ok _ _ _ _ abc_stored)|]. split; [exact SF|]. split; [exact R|].
  split; [intros n; reflexivity|]. split; [discriminate|]. split; vm_compute; reflexivity.
Qed.

(** C87. A Dump can leave out rows without an error: here it is the dump of a database that has only the first row. *)
Theorem C87_dump_refuted : exists io, snd (fdump io (fun _ => false) abc_db false [x07]) = Ok tt /\
  fst (fdump io (fun _ => false) abc_db false [x07]) = fst (fdump (fun _ => bad []) (fun _ => false) (firstn 1 abc_db) false [x07]) /\
  fst (fdump io (fun _ => false) abc_db false [x07]) <> fst (fdump (fun _ => bad []) (fun _ => false) abc_db false [x07]).
Proof. exact (ex_intro _ (fun _ => bad [1]) dump_lost). Qed.
Print Assumptions C87_dump_refuted.

(** C87. If no read fails these are the calls of the other claims. *)
Theorem C87_no_failing_reads : forall io, (forall n, ft_open io n = false) -> (forall n, ft_move io n = false) ->
  forall (T F : Type) (tb : table T F) ev,
  (forall W (f : W -> bytes -> prog W) fuel db fl idx sel rv ob s, fscan_index_for_each io tb ev fuel db fl idx sel f rv ob s =
     scan_index_for_each tb ev fuel db fl idx sel f rv (match ob with Some b => ABatch b | None => NoBatch end) s) /\
  (forall db fl ob trs, finsert io tb ev db fl ob trs = insert tb ev db fl ob trs) /\
  (forall db fl ob trs, fupdate io tb ev db fl ob trs = update tb ev db fl ob trs) /\
  (forall oc db fl ob trs, fupsert io tb ev oc db fl ob trs = upsert tb ev oc db fl ob trs) /\
  (forall rv db idxs, fre_index io rv tb db idxs = re_index rv tb db idxs).
Proof.
  exact (fun io O M T F tb ev => conj (fun W => @scan_fine io O M T F tb ev W) (conj (insert_fine io M tb ev) (conj (update_fine io M tb ev)
    (conj (upsert_fine io M tb ev) (fun rv => re_index_fine io M rv tb))))).
Qed.
Print Assumptions C87_no_failing_reads.

Example C87_no_failing_case : (forall n, ft_open (bad []) n = false) /\ (forall n, ft_move (bad []) n = false) /\
  finsert (bad []) accts env1 abc_db tt None [a3_12] = (WRes abc_db tt None, Err (EExists (after_split (data_key accts a3)))) /\
  fupsert (bad []) accts env1 keep abc_db tt None [a3_12] = (WRes abc_db tt None, Ok tt).
Proof. split; [intros n; reflexivity|]. split; [intros n; reflexivity|]. split; vm_compute; reflexivity. Qed.
