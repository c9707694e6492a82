(** Properties C28 and C29: After without Order, for every selector, every row and both directions. *)

From Coq Require Import List NArith Lia Bool Arith Sorting.Sorted.
From Verif.Model Require Import Bytes Go Keys Pebble Index Table Scan Query.
From Verif.Spec Require Import KeySpec StoreSpec TableSpec HistSpec ScanSpec QuerySpec AfterSpec.
From Verif.Proofs Require Import Witness TableBugs ScanBugs QueryProps QueryBugs PagingBugs AfterFacts.
Import ListNotations.

(** C28. Whatever row After is given, the query visits the selection that [resumes] describes, in scan
    direction, without the first row if that is the given one; nothing left of a multi selector panics. *)
Theorem C28_after_every_row : forall (T F : Type) (tb : table T F), good_table tb -> forall ev, env_ok ev ->
  forall srt db fl ob m, reads tb db fl ob m -> 0 < t_prefetch tb -> quiet ev ->
  forall q a, In (q_index q) (primary_index :: t_indexes tb) -> short_sel (sindex_of (q_index q)) (q_sel q) ->
  parts_short (sindex_of (q_index q)) a -> q_inter q = [] -> q_less q = None -> q_after q = Some a ->
  (q_offset q < 2 ^ 63)%N -> (q_limit q < 2 ^ 63)%N ->
  exists sel, resumes (schema_of tb) (sindex_of (q_index q)) a (q_sel q) sel /\
    (nothing_left sel -> forall fuel, execute tb ev srt fuel db fl q ob = Panic) /\
    (~ nothing_left sel -> exists l l', visits tb (q_index q) m sel l /\
       less_first (schema_of tb) (sindex_of (q_index q)) a (dir (q_rev q) l) l' /\
       forall fuel, length l <= fuel -> execute tb ev srt fuel db fl q ob = Ok (window (q_offset q) (q_limit q) (keep (q_filter q) l'))).
Proof. exact @query_after_all. Qed.
Print Assumptions C28_after_every_row.

Example C28_every_row_case :
  let rs := SRanges [[Acct 3 0 0 false; Acct 4 0 0 false]; [Acct 1 0 0 false; Acct 2 0 0 false]] in
  let q := q_with_after (q_with all_ids primary_index rs) (Acct 1 0 0 false) in
  short_sel (@sprimary acct) rs /\ parts_short (@sprimary acct) (Acct 1 0 0 false) /\
  run 5 q = Ok [a3; a1; a2] /\ run 5 (q_reverse q) = Ok [a2; a1; a3] /\
  run 5 (q_with_after q (Acct 2 0 0 false)) = Ok [a3; a2] /\ run 5 (q_with_after q (Acct 5 0 0 false)) = Panic.
Proof.
  cbv zeta. split; [|split; [|repeat split; vm_compute; reflexivity]].
  - split; [discriminate|]. intros r [<-|[<-|[]]]; do 2 eexists; (split; [reflexivity|]); split; split; vm_compute; reflexivity.
  - split; vm_compute; reflexivity.
Qed.

(** C28. With Reverse, After a row of a single selection yields the rows visited up to that row, and that
    row itself unless it comes first, in place of the rows visited behind it. *)
Theorem C28_after_reverse_exact : forall (T F : Type) (tb : table T F), good_table tb -> forall ev, env_ok ev ->
  forall srt db fl ob m, reads tb db fl ob m -> 0 < t_prefetch tb -> quiet ev ->
  forall q a, In (q_index q) (primary_index :: t_indexes tb) -> exact_selector tb (q_index q) m (q_sel q) ->
  match q_sel q with SPoint _ | SRange _ _ => True | _ => False end ->
  q_inter q = [] -> q_less q = None -> q_after q = Some a -> q_rev q = true -> (q_offset q < 2 ^ 63)%N -> (q_limit q < 2 ^ 63)%N ->
  forall l1 l2, selected tb (q_index q) m (q_sel q) (rev (l1 ++ a :: l2)) -> forall fuel, length l1 < fuel ->
  execute tb ev srt fuel db fl q ob =
    Ok (window (q_offset q) (q_limit q) (keep (q_filter q) (match l1 with [] => [] | _ => l1 ++ [a] end))).
Proof. exact @query_after_reverse. Qed.
Print Assumptions C28_after_reverse_exact.

Example C28_reverse_case : exact_selector accts (q_index all_ids) abc_m (q_sel all_ids) /\
  run 5 (q_with_after (q_reverse all_ids) a1) = Ok [a3; a2; a1] /\ run 5 (q_with_after (q_reverse all_ids) a3) = Ok [].
Proof. split; [apply all_ids_exact|split; vm_compute; reflexivity]. Qed.

(** C29. So pages of two or more rows of a reversed single selection never come to an end. *)
Theorem C29_reverse_never_ends : forall (T F : Type) (tb : table T F), good_table tb -> forall ev, env_ok ev ->
  forall srt db fl ob m, reads tb db fl ob m -> 0 < t_prefetch tb -> quiet ev ->
  forall q n, In (q_index q) (primary_index :: t_indexes tb) -> exact_selector tb (q_index q) m (q_sel q) ->
  match q_sel q with SPoint _ | SRange _ _ => True | _ => False end ->
  q_inter q = [] -> q_less q = None -> q_after q = None -> q_rev q = true -> q_offset q = 0%N -> (2 <= n < 2 ^ 63)%N ->
  forall l, selected tb (q_index q) m (q_sel q) l -> 2 <= length (keep (q_filter q) l) ->
  forall fuel, length l <= fuel -> forall k,
    pages (fun a => execute tb ev srt fuel db fl (page (q_with_limit q n) a) ob) k None = Diverge.
Proof. exact @reverse_paging. Qed.
Print Assumptions C29_reverse_never_ends.

Example C29_reverse_case : exact_selector accts (q_index (q_reverse all_ids)) abc_m (q_sel (q_reverse all_ids)) /\
  run 5 (q_with_limit (q_reverse all_ids) 2) = Ok [a3; a2] /\
  run 5 (q_with_after (q_with_limit (q_reverse all_ids) 2) a2) = Ok [a3; a2].
Proof. split; [apply all_ids_exact|split; vm_compute; reflexivity]. Qed.
