(** C25-C28, C30 for every selector: not what it should select but what it does visit, rows too many included. *)

From Coq Require Import List NArith Lia Bool Arith Sorting.Sorted.
From Verif.Model Require Import Bytes Go Keys Pebble Index Table Scan Query.
From Verif.Spec Require Import KeySpec StoreSpec TableSpec ScanSpec QuerySpec.
From Verif.Proofs Require Import Witness TableBugs ScanBugs ScanAll QueryProps InterFacts QueryBugs.
Import ListNotations.

(** C25. A scan visits, element by element of the selector, the rows from the position of the lower end up to below the
    upper end's entry with its last byte that is not 0xFF incremented. Index keys are shorter than 2^32 - 1 bytes. *)
Theorem C25_every_selector : forall (T F : Type) (tb : table T F), good_table tb -> forall ev, env_ok ev ->
  forall db fl ob m, reads tb db fl ob m -> forall idx sel, In idx (primary_index :: t_indexes tb) -> 0 < t_prefetch tb -> quiet ev ->
  short_sel (sindex_of idx) sel ->
  exists l, visits tb idx m sel l /\ (forall l', visits tb idx m sel l' -> l' = l) /\
    forall rv fuel acc, length l <= fuel -> scan_index tb ev fuel db fl idx sel acc rv ob = (acc ++ dir rv l, Ok tt).
Proof. exact @a_scan. Qed.
Print Assumptions C25_every_selector.

(** the range 1..255 ends below 511 *)
Example C25_every_case : short_sel (@sprimary acct) (SRange (Acct 1 0 0 true) (Acct 255 0 0 true)) /\
  bumped (entry_key (schema_of accts) sprimary (Acct 255 0 0 true)) (entry_key (schema_of accts) sprimary (Acct 511 0 0 true)) /\
  fst (scan_index accts env1 4 (stored accts tt ff_rows) tt primary_index (SRange (Acct 1 0 0 true) (Acct 255 0 0 true)) [] false NoBatch) =
    [Acct 255 255 1 true; Acct 256 256 1 true; Acct 510 300 1 true].
Proof.
  split; [split; split; vm_compute; reflexivity|]. split; [|vm_compute; reflexivity].
  exists (firstn 17 (entry_key (schema_of accts) sprimary (Acct 255 0 0 true))), x00, x01, 1. repeat split; vm_compute; reflexivity.
Qed.

(** For selectors with exact ends these are the rows they select. *)
Theorem C25_exact_selectors : forall (T F : Type) (tb : table T F), good_table tb ->
  forall db fl ob m, reads tb db fl ob m -> forall idx sel l, In idx (primary_index :: t_indexes tb) ->
  exact_selector tb idx m sel -> short_sel (sindex_of idx) sel -> visits tb idx m sel l <-> selected tb idx m sel l.
Proof. exact @a_exact. Qed.
Print Assumptions C25_exact_selectors.

Example C25_exact_case : exact_selector accts acct_by_kind abc_m (SPoint (Acct 2 10 6 true)) /\ short_sel (sindex_of acct_by_kind) (SPoint (Acct 2 10 6 true)).
Proof. split; [split; [split; vm_compute; reflexivity|vm_compute; discriminate]|split; vm_compute; reflexivity]. Qed.

(** Get of a range or of several. *)
Theorem C25_get_every_range : forall (T F : Type) (tb : table T F), good_table tb -> forall ev, env_ok ev ->
  forall db fl ob m, reads tb db fl ob m -> forall sel, (exists lo hi, sel = SRange lo hi) \/ (exists rs, sel = SRanges rs) ->
  0 < t_prefetch tb -> quiet ev -> short_sel sprimary sel ->
  exists l, visits tb primary_index m sel l /\ forall fuel, length l <= fuel -> get_sel tb ev fuel db fl ob sel = Ok l.
Proof. exact @a_get. Qed.
Print Assumptions C25_get_every_range.

Example C25_get_every_case :
  short_sel (@sprimary acct) (SRanges [[Acct 300 0 0 true; Acct 600 0 0 true]; [Acct 1 0 0 true; Acct 255 0 0 true]]) /\
  get_sel accts env1 9 (stored accts tt ff_rows) tt NoBatch (SRanges [[Acct 300 0 0 true; Acct 600 0 0 true]; [Acct 1 0 0 true; Acct 255 0 0 true]]) =
    Ok [Acct 510 300 1 true; Acct 511 9 1 true; Acct 255 255 1 true; Acct 256 256 1 true; Acct 510 300 1 true].
Proof.
  split; [|vm_compute; reflexivity]. split; [discriminate|].
  intros r [<-|[<-|[]]]; eexists _, _; (split; [reflexivity|]); split; split; vm_compute; reflexivity.
Qed.

(** Any walk of the iterator of a selector. *)
Theorem C25_walk_every_selector : forall (T F : Type) (tb : table T F), good_table tb ->
  forall db fl ob m, reads tb db fl ob m -> forall idx sel, In idx (primary_index :: t_indexes tb) -> short_sel (sindex_of idx) sel ->
  exists b l, index_iter tb db ob idx sel = Ok b /\ visits tb idx m sel l /\
  forall mv0 mvs, mv0 = MFirst \/ mv0 = MLast ->
    let b' := fold_left (fun b mv => bstep (db_iter db (batch_of ob)) mv b) (mv0 :: mvs) b in
    match cursor_at l (fold_left (cursor_step (length l)) (mv0 :: mvs) 0) with
    | Some r => bi_valid b' = true /\ bi_key b' = entry_key (schema_of tb) (sindex_of idx) r /\
                (if Byte.eqb (ix_id idx) x00 then s_val (schema_of tb) r = Some (bi_value b') else bi_value b' = [])
    | None => bi_valid b' = false
    end.
Proof. exact @a_walk. Qed.
Print Assumptions C25_walk_every_selector.

(** C26. Callbacks on the primary index, of any kind. *)
Theorem C26_primary_every_selector : forall (T F : Type) (tb : table T F), good_table tb -> forall ev,
  forall db fl ob m, reads tb db fl ob m -> forall sel, short_sel sprimary sel ->
  exists l, visits tb primary_index m sel l /\
  forall rv W (f : W -> bytes -> prog W) fuel s, within f (keyed (schema_of tb) sprimary (dir rv l)) s fuel ->
    visited ev f (keyed (schema_of tb) sprimary (dir rv l)) s (scan_index_for_each tb ev fuel db fl primary_index sel f rv ob s).
Proof. exact @a_each_primary. Qed.
Print Assumptions C26_primary_every_selector.

(** C26. Callbacks on secondary indexes that load steadily; missing: the others. *)
Theorem C26_secondary_every_selector_partial : forall (T F : Type) (tb : table T F), good_table tb -> forall ev, env_ok ev ->
  forall db fl ob m, reads tb db fl ob m -> forall idx sel, In idx (t_indexes tb) -> 0 < t_prefetch tb -> short_sel (sindex_of idx) sel ->
  exists l, visits tb idx m sel l /\
  forall rv W (f : W -> bytes -> prog W) fuel s, loads_steadily f -> within f (keyed (schema_of tb) (sindex_of idx) (dir rv l)) s fuel ->
    visited ev f (keyed (schema_of tb) (sindex_of idx) (dir rv l)) s (scan_index_for_each tb ev fuel db fl idx sel f rv ob s).
Proof. exact @a_each_secondary. Qed.
Print Assumptions C26_secondary_every_selector_partial.

Example C26_every_case : loads_steadily late /\ short_sel (sindex_of acct_by_kind) (SPoint (Acct 255 255 1 true)) /\
  scan_index_for_each accts env1 4 (stored accts tt ff_rows) tt acct_by_kind (SPoint (Acct 255 255 1 true)) late false NoBatch (0, [])
    = ((2, [Acct 510 300 1 true]), Ok tt).
Proof. split; [exact late_steady|]. split; [split; vm_compute; reflexivity|vm_compute; reflexivity]. Qed.

(** C27. Queries without Order and After. Missing: offsets and limits from 2^63 on. *)
Theorem C27_every_selector_partial : forall (T F : Type) (tb : table T F), good_table tb -> forall ev, env_ok ev ->
  forall srt db fl ob m, reads tb db fl ob m -> 0 < t_prefetch tb -> quiet ev ->
  forall q, In (q_index q) (primary_index :: t_indexes tb) -> short_sel (sindex_of (q_index q)) (q_sel q) ->
  q_inter q = [] -> q_less q = None -> q_after q = None -> (q_offset q < 2 ^ 63)%N -> (q_limit q < 2 ^ 63)%N ->
  exists l, visits tb (q_index q) m (q_sel q) l /\
  forall fuel, enough q (dir (q_rev q) l) fuel ->
    execute tb ev srt fuel db fl q ob = Ok (window (q_offset q) (q_limit q) (keep (q_filter q) (dir (q_rev q) l))).
Proof. exact @query_plain_all. Qed.
Print Assumptions C27_every_selector_partial.

Example C27_every_case : execute accts env1 isort 9 (stored accts tt ff_rows) tt
    (q_with_limit (q_reverse (q_with all_ids primary_index (SRange (Acct 1 0 0 true) (Acct 255 0 0 true)))) 2) NoBatch =
  Ok [Acct 510 300 1 true; Acct 256 256 1 true].
Proof. vm_compute. reflexivity. Qed.

(** C28. Queries with Order. *)
Theorem C28_order_every_selector_partial : forall (T F : Type) (tb : table T F), good_table tb -> forall ev, env_ok ev ->
  forall srt db fl ob m, reads tb db fl ob m -> 0 < t_prefetch tb -> quiet ev ->
  forall q less, sorts srt -> In (q_index q) (primary_index :: t_indexes tb) -> short_sel (sindex_of (q_index q)) (q_sel q) ->
  q_inter q = [] -> q_less q = Some less -> (q_offset q < 2 ^ 63)%N -> (q_limit q < 2 ^ 63)%N ->
  exists l s a, visits tb (q_index q) m (q_sel q) l /\
    ordered (Some less) (keep (q_filter q) (dir (q_rev q) l)) s /\ behind_opt (schema_of tb) (q_after q) s a /\
  forall fuel, length l <= fuel -> execute tb ev srt fuel db fl q ob = Ok (window (q_offset q) (q_limit q) a).
Proof. exact @query_order_all. Qed.
Print Assumptions C28_order_every_selector_partial.

(** C30. Intersections, as C30_intersects_partial. *)
Theorem C30_every_selector_partial : forall (T F : Type) (tb : table T F), good_table tb -> forall ev, env_ok ev ->
  forall srt db fl ob m, reads tb db fl ob m -> quiet ev -> forall m0, consistent tb db fl m0 ->
  forall q, sorts srt ->
  (forall x, In x (q :: q_inter q) -> In (q_index x) (primary_index :: t_indexes tb) /\ short_sel (sindex_of (q_index x)) (q_sel x)) ->
  q_inter q <> [] -> (forall x, In x (q_inter q) -> plain_part x) -> (q_offset q < 2 ^ 63)%N -> (q_limit q < 2 ^ 63)%N ->
  (q_after q = None \/ q_filter q <> None \/ q_less q <> None \/ q_offset q = 0%N /\ q_limit q = 0%N) ->
  exists ls b s a, Forall2 (fun x l => visits tb (q_index x) m (q_sel x) l) (q :: q_inter q) ls /\
    intersection (schema_of tb) ls b /\
    ordered (q_less q) (keep (q_filter q) b) s /\ behind_opt (schema_of tb) (q_after q) s a /\
    ((forall r, In r b -> m0 (s_pk (schema_of tb) r) = Some r) -> forall fuel, (forall l, In l ls -> length l <= fuel) ->
     execute tb ev srt fuel db fl q ob = Ok (window (q_offset q) (q_limit q) a)).
Proof. exact @query_intersect_all. Qed.
Print Assumptions C30_every_selector_partial.

Example C30_every_case : execute accts env1 isort 9 (stored accts tt ff_rows) tt
    (q_intersects (q_with all_ids primary_index (SRange (Acct 1 0 0 true) (Acct 255 0 0 true))) [q_with all_ids acct_by_kind (SPoint (Acct 255 255 1 true))]) NoBatch =
  Ok [Acct 255 255 1 true; Acct 256 256 1 true; Acct 510 300 1 true].
Proof. vm_compute. reflexivity. Qed.
