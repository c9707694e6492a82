(** Properties C67 and C68: the inspector. *)

From Coq Require Import Strings.String Strings.Byte List NArith ZArith Bool Arith Sorting.Permutation Sorting.Sorted.
From Verif.Model Require Import Bytes Go Keys Pebble Index Table Scan Query Inspect.
From Verif.Spec Require Import KeySpec StoreSpec TableSpec HistSpec ScanSpec QuerySpec PagingSpec InspectSpec LooseSpec RoundSpec Base64Spec.
From Verif.Proofs Require Import Witness TableBugs ScanBugs QueryBugs PagingBugs InspectFacts InspectProps InspectRemote InspectBugs LooseFacts LooseWitness RoundFacts Base64Facts.
Import ListNotations.
Local Open Scope list_scope.

(** C67. A query by the names of a table, an index and fields, in a store that holds the rows [m]: it starts from the record the selector describes and
    shows, in the order of the index, the first rows of it that meet the filter; with After those behind the record After describes. The values of selector
    and After have to fit the fields they are for. A value of the filter has to fit its field, or be of a different sort. The selector has to be
    one that scans are exact for. *)
Theorem C67_inspect_rows_partial : forall (T F : Type) (outside : flt64 -> Z) (tb : table T F), good_table tb -> forall ev, env_ok ev ->
  forall srt db fl (m : tmap T), reads tb db fl NoBatch m -> 0 < t_prefetch tb -> quiet ev ->
  forall rf ok, reflects rf (t_empty tb) ok ->
  forall names tis name fuel, name <> [] -> named_table tis name (info_of outside tb ev srt rf name names fuel db fl) ->
  forall q ix, named_index tb names (rq_index q) ix -> selectable tb rf ix (rq_sel q) -> fair rf (t_empty tb) (rq_filter q) -> (rq_limit q < 2 ^ 63)%N ->
  (forall p, start_point tb rf ix (rq_sel q) p -> exact_selector tb ix m (SPoint p)) ->
  exists p l f, start_point tb rf ix (rq_sel q) p /\ selected tb ix m (SPoint p) l /\ decides rf ok (rq_filter q) f /\ (length l <= fuel ->
    (rq_after q = None -> inspect_query tis name q = Ok (map (rf_map rf) (window 0 (rq_limit q) (filter f l)))) /\
    (forall vs, rq_after q = Some vs -> rf_ptr rf = true -> settable (rf_map rf (t_empty tb)) vs ->
       exists a, described rf (t_empty tb) vs a /\
       (after_fits (schema_of tb) (sindex_of ix) (Byte.eqb (ix_id ix) x00) a (SPoint p) ->
        inspect_query tis name q = Ok (map (rf_map rf) (window 0 (rq_limit q) (filter f (rows_after (schema_of tb) (sindex_of ix) a l))))))).
Proof. exact @inspect_rows. Qed.
Print Assumptions C67_inspect_rows_partial.

(** C67. Asking for page after page, each after the last row shown, until a page is empty, shows every such row once. *)
Theorem C67_inspect_paging_partial : forall (T F : Type) (outside : flt64 -> Z) (tb : table T F), good_table tb -> forall ev, env_ok ev ->
  forall srt db fl (m : tmap T), reads tb db fl NoBatch m -> 0 < t_prefetch tb -> quiet ev ->
  forall rf ok, reflects rf (t_empty tb) ok -> (forall r, m (s_pk (schema_of tb) r) = Some r -> ok r) ->
  forall names tis name fuel, name <> [] -> named_table tis name (info_of outside tb ev srt rf name names fuel db fl) ->
  forall q ix n, named_index tb names (rq_index q) ix -> selectable tb rf ix (rq_sel q) -> fair rf (t_empty tb) (rq_filter q) ->
  rf_ptr rf = true -> (0 < n < 2 ^ 63)%N ->
  (forall p, start_point tb rf ix (rq_sel q) p -> exact_selector tb ix m (SPoint p)) ->
  exists p l f, start_point tb rf ix (rq_sel q) p /\ selected tb ix m (SPoint p) l /\ decides rf ok (rq_filter q) f /\ (length l <= fuel ->
    pages (fun a => inspect_query tis name (Request (rq_index q) (rq_sel q) (rq_filter q) n
             (match a with Some r => Some (map (fun nv => (fst nv, Some (snd nv))) r) | None => None end))) (S (length l)) None
      = Ok (map (rf_map rf) (filter f l))).
Proof. exact @inspect_paging. Qed.
Print Assumptions C67_inspect_paging_partial.

(** C67. A query that succeeds names an index of the table and fields of its records. *)
Theorem C67_names : forall (T F : Type) outside (tb : table T F) ev srt rf name names fuel db fl tis q rows,
  named_table tis name (info_of outside tb ev srt rf name names fuel db fl) ->
  inspect_query tis name q = Ok rows ->
  name <> [] /\ exists ix, In ix (primary_index :: t_indexes tb) /\ names (ix_id ix) = match rq_index q with [] => primary_name | _ => rq_index q end /\
    (names (ix_id ix) <> primary_name -> rf_ptr rf = true /\ forall n ov, In (n, ov) (rq_sel q) -> In n (map fst (rf_map rf (t_empty tb))) /\ ov <> None) /\
    (forall vs, rq_after q = Some vs -> rf_ptr rf = true /\ forall n ov, In (n, ov) vs -> In n (map fst (rf_map rf (t_empty tb))) /\ ov <> None).
Proof. exact @inspect_names. Qed.
Print Assumptions C67_names.

(** C67. A table that is not there: an error. *)
Theorem C67_no_table : forall tis name, (forall ti, In ti tis -> ti_name ti <> name) ->
  (forall q, inspect_query tis name q = Err EOther) /\ inspect_indexes tis name = Err EOther /\ inspect_fields tis name = Err EOther.
Proof. exact no_table. Qed.
Print Assumptions C67_no_table.

(** C67. The lists of tables, indexes and fields: the indexes in the order of their ids, the fields with their kinds. *)
Theorem C67_lists : forall (T F : Type) outside (tb : table T F) ev srt rf name names fuel db fl tis, lawful tb ->
  named_table tis name (info_of outside tb ev srt rf name names fuel db fl) ->
  In name (inspect_tables tis) /\
  (exists l, Permutation l (primary_index :: t_indexes tb) /\ StronglySorted (fun a b => (b2n (ix_id a) < b2n (ix_id b))%N) l /\
     inspect_indexes tis name = Ok (map (fun ix => names (ix_id ix)) l)) /\
  inspect_fields tis name = Ok (map (fun nv => (fst nv, gt_kind (gv_type (snd nv)))) (rf_map rf (t_empty tb))).
Proof. exact @inspect_lists. Qed.
Print Assumptions C67_lists.

(** Accounts: rows 1, 2 and 3. Those that are on, of kind 10 and of score 5, by the index by score, with numbers of other types; the two rows after
    row 1; a wrong index; a wrong field. *)
Example C67_case :
  reads accts abc_db tt NoBatch (puts asc empty_map abc) /\
  reflects plain (t_empty accts) acct_ok /\ (forall r, puts asc empty_map abc (s_pk asc r) = Some r -> acct_ok r) /\
  (forall fuel, named_table (inspector plain fuel abc_db) (txt "acct") (info_of (fun _ => 0%Z) accts env1 isort plain (txt "acct") acct_names fuel abc_db tt)) /\
  named_index accts acct_names (rq_index score5) acct_by_score /\ selectable accts plain acct_by_score (rq_sel score5) /\
  fair plain (t_empty accts) (rq_filter score5) /\
  (forall p, start_point accts plain acct_by_score (rq_sel score5) p -> exact_selector accts acct_by_score (puts asc empty_map abc) (SPoint p)) /\
  ask plain 5 score5 = Ok (show plain [a3]) /\
  ask plain 5 (Request [] [] None 2 (Some [(txt "ID", Some (int 1))])) = Ok (show plain [a2; a3]) /\
  ask plain 5 (Request (txt "by_what") [] None 0 None) = Err EOther /\
  ask plain 5 (Request [] [] None 0 (Some [(txt "Id", Some (int 1))])) = Err EOther.
Proof. split; [exact abc_reads|exact case67]. Qed.

(** C67. A filter with values of any sort: when exactly a row passes it. Integers wrap around to the width of the field, fractions are cut off, integers are taken for
    the character of that number. Only what a float64 too large for the field becomes is left open: it depends on the machine. *)
Theorem C67_filter_exact : forall outside r fs, NoDup (map fst r) ->
  (forall n v w, In (n, v) fs -> In (n, w) r -> well_typed v /\ well_typed w /\ decided v w) ->
  filter_row outside fs r = true <-> passes r fs.
Proof. exact filter_exact. Qed.
Print Assumptions C67_filter_exact.

(** C67. What a query with such a filter shows. As in C67_inspect_rows_partial, the values of selector and After have to fit. *)
Theorem C67_any_filter_partial : forall (T F : Type) (outside : flt64 -> Z) (tb : table T F), good_table tb -> forall ev, env_ok ev ->
  forall srt db fl (m : tmap T), reads tb db fl NoBatch m -> 0 < t_prefetch tb -> quiet ev ->
  forall rf ok, reflects rf (t_empty tb) ok ->
  forall names tis name fuel, name <> [] -> named_table tis name (info_of outside tb ev srt rf name names fuel db fl) ->
  forall q ix, named_index tb names (rq_index q) ix -> selectable tb rf ix (rq_sel q) -> portable rf (t_empty tb) (rq_filter q) -> (rq_limit q < 2 ^ 63)%N ->
  (forall p, start_point tb rf ix (rq_sel q) p -> exact_selector tb ix m (SPoint p)) ->
  exists p l f, start_point tb rf ix (rq_sel q) p /\ selected tb ix m (SPoint p) l /\ tells rf ok (rq_filter q) f /\ (length l <= fuel ->
    (rq_after q = None -> inspect_query tis name q = Ok (map (rf_map rf) (window 0 (rq_limit q) (filter f l)))) /\
    (forall vs, rq_after q = Some vs -> rf_ptr rf = true -> settable (rf_map rf (t_empty tb)) vs ->
       exists a, described rf (t_empty tb) vs a /\
       (after_fits (schema_of tb) (sindex_of ix) (Byte.eqb (ix_id ix) x00) a (SPoint p) ->
        inspect_query tis name q = Ok (map (rf_map rf) (window 0 (rq_limit q) (filter f (rows_after (schema_of tb) (sindex_of ix) a l))))))).
Proof. exact loose_rows. Qed.
Print Assumptions C67_any_filter_partial.

(** The score 6.5 and the kind 2^32+10 of the two theorems below, in one filter; 8364 is the number of the euro sign. *)
Example C67_any_filter_case : portable plain (t_empty accts) (Some odd_filter) /\
  taken_for (flt 13 (-1)) (u64 6) /\ taken_for (int (2 ^ 32 + 10)) (u32 10) /\ taken_for (int 8364) (GVal (GType 0 KString) (DBytes [xe2; x82; xac])) /\
  ~ taken_for (flt 13 (-1)) (u64 7) /\ ~ taken_for (boolean true) (u64 1) /\
  ask plain 5 (Request [] [] (Some odd_filter) 0 None) = Ok (show plain [a1]).
Proof. exact odd_case. Qed.

(** C67, refuted for numbers that do not fit the field: rows that do not meet the filter are shown. A filter on the score 6.5 shows a row of score 6, one
    on the kind 2^32+10 the rows of kind 10. *)
Theorem C67_filter_rounds_refuted : forall fuel, 5 <= fuel -> ~ meets (rf_map plain a1) [(txt "Score", flt 13 (-1))] /\
  ask plain fuel (filt_by (txt "Score") (flt 13 (-1))) = Ok (show plain [a1]).
Proof. exact half_score. Qed.
Print Assumptions C67_filter_rounds_refuted.

Theorem C67_filter_wraps_refuted : forall fuel, 5 <= fuel -> ~ meets (rf_map plain a1) [(txt "Kind", int (2 ^ 32 + 10))] /\
  ask plain fuel (filt_by (txt "Kind") (int (2 ^ 32 + 10))) = Ok (show plain [a1; a3]).
Proof. exact wrapped_kind. Qed.
Print Assumptions C67_filter_wraps_refuted.

(** C67, refuted for a selector that gives the first fields of an index with a descending one behind: nothing is shown, though rows 1 and 3 have the kind
    and are in the index. *)
Theorem C67_selector_misses_refuted : forall fuel, 5 <= fuel ->
  ask plain fuel (Request (txt "by_kind") [(txt "Kind", Some (u32 10))] None 0 None) = Ok [] /\
  ask plain fuel (filt_by (txt "Kind") (u32 10)) = Ok (show plain [a1; a3]) /\ ix_filter acct_by_kind a1 = true.
Proof. exact kind_lost. Qed.
Print Assumptions C67_selector_misses_refuted.

(** C67, refuted for the selector of the primary index: it is ignored, every row is shown. *)
Theorem C67_primary_selector_refuted : forall fuel, 5 <= fuel ->
  ask plain fuel (Request [] [(txt "ID", Some (u64 2))] None 0 None) = Ok (show plain [a1; a2; a3]).
Proof. exact id_ignored. Qed.
Print Assumptions C67_primary_selector_refuted.

(** C67, refuted for a field of a type of its own: a value of its kind never meets the filter, one of another kind does; in After it panics. *)
Theorem C67_named_types_refuted : forall fuel, 5 <= fuel ->
  ask named fuel (filt_by (txt "ID") (u64 2)) = Ok [] /\
  ask named fuel (filt_by (txt "ID") (int 2)) = Ok (show named [a2]) /\
  ask named fuel (Request [] [] None 0 (Some [(txt "ID", Some (u64 2))])) = Panic.
Proof. exact named_field. Qed.
Print Assumptions C67_named_types_refuted.

(** C67, refuted for a table of structs instead of pointers: secondary indexes and After panic. *)
Theorem C67_struct_tables_refuted : forall fuel, 5 <= fuel ->
  ask values fuel (Request (txt "by_score") [] None 0 None) = Panic /\
  ask values fuel (Request [] [] None 0 (Some [])) = Panic /\
  ask values fuel (Request [] [] None 0 None) = Ok (show values [a1; a2; a3]).
Proof. exact value_records. Qed.
Print Assumptions C67_struct_tables_refuted.

(** C67, refuted for null in After: it panics. *)
Theorem C67_null_refuted : forall fuel, 5 <= fuel -> ask plain fuel (Request [] [] None 0 (Some [(txt "ID", None)])) = Panic.
Proof. exact null_value. Qed.
Print Assumptions C67_null_refuted.

(** C68. The same through the remote inspector, whose requests and rows go through JSON: the rows shown have the same values, if JSON keeps the
    values of the request and of the rows and the fields take what JSON makes of them. *)
Theorem C68_remote_rows_partial : forall (T F : Type) (outside : flt64 -> Z) (clean : bytes -> bytes) (tb : table T F), good_table tb -> forall ev, env_ok ev ->
  forall srt db fl (m : tmap T), reads tb db fl NoBatch m -> 0 < t_prefetch tb -> quiet ev ->
  forall rf ok, reflects rf (t_empty tb) ok -> (forall n w, In (n, w) (rf_map rf (t_empty tb)) -> json_type (gv_type w)) ->
  forall names tis name fuel, name <> [] -> named_table tis name (info_of outside tb ev srt rf name names fuel db fl) ->
  forall q ix, safe_request clean q -> named_index tb names (rq_index q) ix -> selectable tb rf ix (rq_sel q) -> fair rf (t_empty tb) (rq_filter q) ->
  (rq_limit q < 2 ^ 63)%N -> (forall p, start_point tb rf ix (rq_sel q) p -> exact_selector tb ix m (SPoint p)) ->
  exists p l f, start_point tb rf ix (rq_sel q) p /\ selected tb ix m (SPoint p) l /\ decides rf ok (rq_filter q) f /\
  (length l <= fuel -> (forall r, In r l -> safe_row clean (rf_map rf r)) ->
    (rq_after q = None -> exists rows, remote_query clean tis name q = Ok rows /\ Forall2 same_fields (map (rf_map rf) (window 0 (rq_limit q) (filter f l))) rows) /\
    (forall vs, rq_after q = Some vs -> rf_ptr rf = true -> settable (rf_map rf (t_empty tb)) vs ->
       exists a, described rf (t_empty tb) vs a /\
       (after_fits (schema_of tb) (sindex_of ix) (Byte.eqb (ix_id ix) x00) a (SPoint p) ->
        exists rows, remote_query clean tis name q = Ok rows /\
          Forall2 same_fields (map (rf_map rf) (window 0 (rq_limit q) (filter f (rows_after (schema_of tb) (sindex_of ix) a l)))) rows))).
Proof. exact @remote_rows. Qed.
Print Assumptions C68_remote_rows_partial.

(** C68. So does asking for page after page, with the rows as they were received. *)
Theorem C68_remote_paging_partial : forall (T F : Type) (outside : flt64 -> Z) (clean : bytes -> bytes) (tb : table T F), good_table tb -> forall ev, env_ok ev ->
  forall srt db fl (m : tmap T), reads tb db fl NoBatch m -> 0 < t_prefetch tb -> quiet ev ->
  forall rf ok, reflects rf (t_empty tb) ok -> (forall r, m (s_pk (schema_of tb) r) = Some r -> ok r) ->
  (forall n w, In (n, w) (rf_map rf (t_empty tb)) -> json_type (gv_type w)) ->
  forall names tis name fuel, name <> [] -> named_table tis name (info_of outside tb ev srt rf name names fuel db fl) ->
  forall q ix n, safe_request clean q -> named_index tb names (rq_index q) ix -> selectable tb rf ix (rq_sel q) -> fair rf (t_empty tb) (rq_filter q) ->
  rf_ptr rf = true -> (0 < n < 2 ^ 63)%N -> (forall p, start_point tb rf ix (rq_sel q) p -> exact_selector tb ix m (SPoint p)) ->
  exists p l f, start_point tb rf ix (rq_sel q) p /\ selected tb ix m (SPoint p) l /\ decides rf ok (rq_filter q) f /\
  (length l <= fuel -> (forall r, In r l -> safe_row clean (rf_map rf r)) ->
    exists rows, pages (fun a => remote_query clean tis name (Request (rq_index q) (rq_sel q) (rq_filter q) n
             (match a with Some r => Some (map (fun nv => (fst nv, Some (snd nv))) r) | None => None end))) (S (length l)) None = Ok rows /\
      Forall2 same_fields (map (rf_map rf) (filter f l)) rows).
Proof. exact @remote_paging. Qed.
Print Assumptions C68_remote_paging_partial.

(** The request of [C67_case], and the rows of kind 10 one by one, remotely. *)
Example C68_case : safe_request id_clean score5 /\ (forall n w, In (n, w) (rf_map plain (t_empty accts)) -> json_type (gv_type w)) /\
  (forall r, In r [a1; a2; a3] -> safe_row id_clean (rf_map plain r)) /\
  remote plain 5 abc_db score5 = Ok [[(txt "ID", flt 3 0); (txt "Kind", flt 10 0); (txt "Score", flt 5 0); (txt "On", boolean true)]] /\
  pages (remote_page plain 5 abc_db (Some [(txt "Kind", flt 10 0)])) 4 None =
  Ok [[(txt "ID", flt 1 0); (txt "Kind", flt 10 0); (txt "Score", flt 6 0); (txt "On", boolean true)];
      [(txt "ID", flt 3 0); (txt "Kind", flt 10 0); (txt "Score", flt 5 0); (txt "On", boolean true)]].
Proof. exact case68. Qed.

(** C68. What the remote inspector makes of any integer, sent or shown: the nearest integer that float64 has,
    of two that are equally near the one whose last bit is 0. *)
Theorem C68_integers_rounded : forall clean v z, gv_data v = DInt z ->
  exists v' f, json_val clean v = Some v' /\ gv_data v' = DFlt (FNum f 0) /\ float_int f /\
    forall g, float_int g -> (Z.abs (z - f) <= Z.abs (z - g))%Z /\ (Z.abs (z - g) = Z.abs (z - f) -> g <> f -> even_float f)%Z.
Proof. exact json_rounds. Qed.
Print Assumptions C68_integers_rounded.

Example C68_rounded_case : map (fun z => json_val id_clean (u64 z)) [2 ^ 53 + 1; 2 ^ 53 + 3; 2 ^ 54 + 1; 2 ^ 54 + 3; 2 ^ 64 - 1]%Z =
  map (fun f => Some (flt f 0)) [2 ^ 53; 2 ^ 53 + 4; 2 ^ 54; 2 ^ 54 + 4; 2 ^ 64]%Z.
Proof. vm_compute. reflexivity. Qed.

(** C68. What the remote inspector shows for a []byte, and what it sends for one: its base64, from which the bytes can be told. *)
Theorem C68_bytes_base64 : forall clean v l, gv_data v = DBytes l -> gt_kind (gv_type v) = KBytes ->
  exists v' s, json_val clean v = Some v' /\ gv_data v' = DBytes s /\ base64 l s /\ forall l', base64 l' s -> l' = l.
Proof. exact json_bytes. Qed.
Print Assumptions C68_bytes_base64.

Example C68_base64_case : map (fun l => json_val id_clean (GVal (GType 0 KBytes) (DBytes l))) [[x00; xff; x10; x83]; txt "bond!"; []] =
  map (fun s => Some (GVal (GType 0 KString) (DBytes (txt s)))) ["AP8Qgw=="; "Ym9uZCE="; ""]%string.
Proof. vm_compute. reflexivity. Qed.

(** C68, refuted for integers of more than 53 bits: asked for the row 2^53+1, the inspector shows it and the remote inspector shows the row 2^53. *)
Theorem C68_big_integers_refuted : forall fuel, 5 <= fuel ->
  reads accts (mo_db (holding [big; bigger])) tt NoBatch (mo_rows (holding [big; bigger])) /\
  inspect_query (inspector plain fuel (mo_db (holding [big; bigger]))) (txt "acct") (filt_by (txt "ID") (u64 (2 ^ 53 + 1))) = Ok (show plain [bigger]) /\
  remote plain fuel (mo_db (holding [big; bigger])) (filt_by (txt "ID") (u64 (2 ^ 53 + 1))) = Ok [big_json] /\
  same_fields (rf_map plain big) big_json.
Proof. exact big_id. Qed.
Print Assumptions C68_big_integers_refuted.

(** C68, refuted: the pages of a table with only the row 2^53+1 never end. *)
Theorem C68_endless_pages_refuted : forall fuel, 5 <= fuel -> reads accts (mo_db (holding [bigger])) tt NoBatch (mo_rows (holding [bigger])) /\
  forall k, pages (remote_page plain fuel (mo_db (holding [bigger])) None) k None = Diverge.
Proof. exact remote_endless. Qed.
Print Assumptions C68_endless_pages_refuted.

(** C68, refuted for a field of bytes: the filter that finds the row here does not find it remotely, and the row shows base64 text. *)
Theorem C68_bytes_refuted : forall fuel, 5 <= fuel ->
  let q := filt_by (txt "ID") (GVal (GType 0 KBytes) (DBytes (be_bytes 8 2))) in
  ask byte_refl fuel q = Ok [byte_fields a2] /\ remote byte_refl fuel abc_db q = Ok [] /\
  remote byte_refl fuel abc_db (filt_by (txt "Kind") (u32 11)) = Ok [[(txt "ID", GVal (GType 0 KString) (DBytes (txt "AAAAAAAAAAI="))); (txt "Kind", flt 11 0)]].
Proof. exact bytes_lost. Qed.
Print Assumptions C68_bytes_refuted.
