(** Property C83: every call of the iterators of indexes, tables and the database. *)

From Coq Require Import List NArith Lia Bool Arith Sorting.Sorted Strings.Byte.
From Verif.Model Require Import Bytes Go Keys Pebble Index Table Scan Iter.
From Verif.Spec Require Import KeySpec StoreSpec TableSpec ScanSpec IterSpec.
From Verif.Proofs Require Import Witness TableBugs ScanBugs QueryBugs IterApi.
Import ListNotations.

(** C83. Whatever calls are made once the first has positioned it, an iterator acts as a cursor on the rows of its selector: First, Last, Next,
    Prev and the seeks say exactly whether it is on a row, it shows that row, and there is no error. Missing: seeks of selectors of several
    points or ranges (they panic, below), SeekPrefixGE (Props/SeekPrefix.v), and Next or Prev as the first call. *)
Theorem C83_iterator_partial : forall (T F : Type) (tb : table T F), good_table tb -> forall db fl ob m, reads tb db fl ob m ->
  forall idx sel, In idx (primary_index :: t_indexes tb) -> short_sel (sindex_of idx) sel ->
  exists b l, index_iter tb db ob idx sel = Ok b /\ visits tb idx m sel l /\ (forall l', visits tb idx m sel l' -> l' = l) /\
  forall x xs, positions x = true -> (existsb is_seek (x :: xs) = true -> single sel = true) ->
  let ks := map (entry_key (schema_of tb) (sindex_of idx)) l in
  exists b' rs c, run_calls (db_iter db (batch_of ob)) (x :: xs) b = Ok (b', rs) /\ walked ks 0 (x :: xs) rs c /\
    (forall rs' c', walked ks 0 (x :: xs) rs' c' -> rs' = rs /\ c' = c) /\ bi_error b' = None /\
    match cursor_at l c with
    | Some r => bi_valid b' = true /\ bi_key b' = entry_key (schema_of tb) (sindex_of idx) r /\
                (if Byte.eqb (ix_id idx) x00 then s_val (schema_of tb) r = Some (bi_value b') else bi_value b' = [])
    | None => bi_valid b' = false
    end.
Proof. exact @api_iterator. Qed.
Print Assumptions C83_iterator_partial.

(** Rows 1, 2, 3; scores 6, 0, 5, so that the index by score lists rows 2, 3, 1. *)
Definition score_sel : selector acct := SRange (Acct 0 0 0 true) (Acct 9 0 6 true).
Definition at_score (n s : N) : bytes := entry_key (schema_of accts) (sindex_of acct_by_score) (Acct n 0 s true).
Definition the_calls (xs : list icall) (sel : selector acct) : res (bool * bytes * list bool) :=
  match index_iter accts abc_db NoBatch acct_by_score sel with
  | Ok b => match run_calls (db_iter abc_db None) xs b with Ok (b', rs) => Ok (bi_valid b', bi_key b', rs) | Err e => Err e | Panic => Panic | Diverge => Diverge end
  | Err e => Err e | Panic => Panic | Diverge => Diverge
  end.

Example C83_case : reads accts abc_db tt NoBatch abc_m /\ short_sel (sindex_of acct_by_score) score_sel /\
  the_calls [ISeekGE (at_score 0 4)] score_sel = Ok (true, at_score 3 5, [true]) /\
  the_calls [ISeekLT (at_score 3 5)] score_sel = Ok (true, at_score 2 0, [true]) /\
  the_calls [ISeekLT (at_score 2 0); INext; INext; INext; INext; INext; IPrev] score_sel = Ok (true, at_score 1 6, [false; true; true; true; false; false; true]) /\
  the_calls [ISeekGE (at_score 0 7); IPrev; IPrev; IFirst; IPrev] score_sel = Ok (false, [], [false; true; true; true; false]).
Proof.
  split; [exact abc_reads|]. split; [split; split; vm_compute; reflexivity|]. repeat split; vm_compute; reflexivity.
Qed.

(** C83. The same for the iterators of DB.Iter and Batch.Iter with bounds: a cursor on the stored pairs from the lower bound to below the upper. *)
Theorem C83_db_iterator : forall db ob lo hi, kv_ok db -> readable ob ->
  exists l : kv, StronglySorted (fun a b => bcmp (fst a) (fst b) = Lt) l /\
    (forall k v, In (k, v) l <-> kv_get (view db ob) k = Some v /\ bcmp lo k <> Gt /\ bcmp k hi = Lt) /\
    forall x xs, positions x = true -> exists b' rs c, run_calls (db_iter db ob) (x :: xs) (BOne (db_iter db ob lo hi)) = Ok (b', rs) /\
      walked (map fst l) 0 (x :: xs) rs c /\ (forall rs' c', walked (map fst l) 0 (x :: xs) rs' c' -> rs' = rs /\ c' = c) /\ bi_error b' = None /\
      match cursor_at l c with Some (k, v) => bi_valid b' = true /\ bi_key b' = k /\ bi_value b' = v | None => bi_valid b' = false end.
Proof. exact api_db. Qed.
Print Assumptions C83_db_iterator.

Example C83_db_case : let db := [([x01], [xaa]); ([x03], []); ([x03; x00], [xbb]); ([x09], [])] in
  kv_ok db /\
  match run_calls (db_iter db None) [ISeekLT [x05]; IPrev; ISeekGE [x09]; ILast] (BOne (db_iter db None [x02] [x09])) with
  | Ok (b, rs) => rs = [true; true; false; true] /\ bi_key b = [x03; x00] /\ bi_value b = [xbb]
  | _ => False
  end.
Proof.
  cbv zeta. split; [|vm_compute; auto]. repeat (apply PebbleFacts.kv_ok_cons; split; [|repeat constructor]). constructor.
Qed.

(** C83 is false as stated: every seek of an iterator of several points or ranges panics, whatever was called before. *)
Theorem C83_multi_seek_refuted : forall (T F : Type) (tb : table T F) db ob idx sel b xs, index_iter tb db ob idx sel = Ok b ->
  (exists ps, sel = SPoints ps) \/ (exists rs, sel = SRanges rs) -> existsb is_seek xs = true ->
  run_calls (db_iter db (batch_of ob)) xs b = Panic.
Proof. exact @api_multi_seek. Qed.
Print Assumptions C83_multi_seek_refuted.

Example C83_multi_seek_case :
  let sel := SRanges [[Acct 0 0 0 true; Acct 9 0 4 true]; [Acct 0 0 5 true; Acct 9 0 6 true]] in
  the_calls [IFirst; INext; ISeekGE (at_score 3 5)] sel = Panic /\
  the_calls [IFirst; INext; IPrev; ILast; INext; IPrev; IPrev] sel = Ok (true, at_score 3 5, [true; true; true; true; false; true; true]).
Proof. split; vm_compute; reflexivity. Qed.

(** C83. Through a write-only batch every call says false, there is no row and the error is set, in whatever order. *)
Theorem C83_write_only : forall (T F : Type) (tb : table T F) db bt idx sel b, b_rw bt = false -> index_iter tb db (ABatch bt) idx sel = Ok b ->
  forall xs, (existsb is_seek xs = true -> single sel = true \/ sel = SOther) ->
  exists b', run_calls (db_iter db (Some bt)) xs b = Ok (b', map (fun _ => false) xs) /\ bi_valid b' = false /\
    bi_error b' = Some (match sel with SOther => ESelector | _ => ENotIndexed end) /\ bi_key b' = [] /\ bi_value b' = [].
Proof. exact @api_write_only. Qed.
Print Assumptions C83_write_only.

(** C83. So does the iterator of a selector of an unknown kind. *)
Theorem C83_unknown_selector : forall (T F : Type) (tb : table T F) db ob idx xs,
  index_iter tb db ob idx SOther = Ok (BOne (err_iter ESelector)) /\
  exists b', run_calls (db_iter db (batch_of ob)) xs (BOne (err_iter ESelector)) = Ok (b', map (fun _ => false) xs) /\ bi_valid b' = false /\
    bi_error b' = Some ESelector /\ bi_key b' = [] /\ bi_value b' = [].
Proof. exact @api_other. Qed.
Print Assumptions C83_unknown_selector.

Example C83_write_only_case : exists b b', index_iter accts abc_db (ABatch (Batch false [])) acct_by_score score_sel = Ok b /\
  run_calls (db_iter abc_db (Some (Batch false []))) [INext; ISeekGE []; ILast; IPrev] b = Ok (b', [false; false; false; false]) /\ bi_error b' = Some ENotIndexed.
Proof. eexists _, _. split; [vm_compute; reflexivity|]. split; vm_compute; reflexivity. Qed.
