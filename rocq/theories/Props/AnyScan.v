(** Property C56: type-erased scanners. *)

From Coq Require Import List NArith Lia Bool Arith Sorting.Sorted.
From Verif.Model Require Import Bytes Go Keys Pebble Index Table Scan AnyScan.
From Verif.Spec Require Import KeySpec StoreSpec TableSpec HistSpec ScanSpec.
From Verif.Proofs Require Import Witness TableBugs ScanBugs AnyFacts.
Import ListNotations.

(** C56. Scan: exactly the rows, in the order, that Scan of the wrapped table appends, also through a batch. *)
Theorem C56_scan_rows_partial : forall (T F A : Type) (tb : table T F) (inj : T -> A), good_table tb -> forall ev, env_ok ev ->
  forall db fl ob m, reads tb db fl ob m -> 0 < t_prefetch tb -> quiet ev ->
  let sc := schema_of tb in
  exists l, StronglySorted (fun a b => bcmp (s_pk sc a) (s_pk sc b) = Lt) l /\
    (forall r, In r l <-> m (s_pk sc r) = Some r /\ bcmp (s_pk sc (t_empty tb)) (s_pk sc r) <> Gt) /\
    forall rv fuel acc tacc, length l <= fuel ->
      any_scan tb ev inj fuel db fl acc rv ob = (acc ++ map inj (dir rv l), Ok tt) /\
      scan tb ev fuel db fl tacc rv ob = (tacc ++ dir rv l, Ok tt).
Proof. exact @any_scan_rows. Qed.
Print Assumptions C56_scan_rows_partial.

(** C56. ScanIndex with an index that does on records what an index of the table does, and a
    selector of records: the selected rows in order, also through a batch. *)
Theorem C56_scan_index_rows_partial : forall (T F A : Type) (tb : table T F) (inj : T -> A), good_table tb -> forall ev, env_ok ev ->
  forall db fl ob m, reads tb db fl ob m ->
  forall i idx sel, In idx (primary_index :: t_indexes tb) -> mirrors inj i idx -> 0 < t_prefetch tb -> quiet ev ->
  exact_selector tb idx m sel ->
  exists l, selected tb idx m sel l /\ forall rv fuel acc, length l <= fuel ->
    any_scan_index tb ev inj fuel db fl i (TypedSel sel) acc rv ob = (acc ++ map inj (dir rv l), Ok tt).
Proof. exact @any_index_rows. Qed.
Print Assumptions C56_scan_index_rows_partial.

Example C56_rows_case : mirrors inl any_by_score acct_by_score /\
  reads accts a_db tt (ABatch bc_batch) abc_m /\
  any_scan accts env1 (fun r => inl r) 4 a_db tt [inr 7] true (ABatch bc_batch) =
    ([inr 7; inl (Acct 3 10 5 true); inl (Acct 2 11 0 false); inl (Acct 1 10 6 true)], Ok tt) /\
  any_scan_index accts env1 inl 4 a_db tt any_by_score (TypedSel (SRange (Acct 0 0 5 true) (Acct 9 0 6 true))) [inr 7] false (ABatch bc_batch) =
    ([inr 7; inl (Acct 3 10 5 true); inl (Acct 1 10 6 true)], Ok tt).
Proof.
  split; [exact any_by_score_mirrors|]. split; [exact abc_batch_reads|]. split; vm_compute; reflexivity.
Qed.

(** C56. ScanIndexForEach without a batch: the callback sees each selected row once in order, until it stops, or until
    the context is cancelled. *)
Theorem C56_for_each_secondary_partial : forall (T F A : Type) (tb : table T F) (inj : T -> A), good_table tb -> forall ev, env_ok ev ->
  forall db fl m, reads tb db fl NoBatch m ->
  forall i idx sel, In idx (t_indexes tb) -> mirrors inj i idx -> 0 < t_prefetch tb -> exact_selector tb idx m sel ->
  exists l, selected tb idx m sel l /\
  forall rv W (f : W -> bytes -> prog (T:=A) W) fuel s,
    loads_steadily f -> within f (injected inj (keyed (schema_of tb) (sindex_of idx) (dir rv l))) s fuel ->
    any_visited ev f (injected inj (keyed (schema_of tb) (sindex_of idx) (dir rv l))) s
      (any_scan_index_for_each tb ev inj fuel db fl i (TypedSel sel) f rv NoBatch s).
Proof. exact @any_each_secondary. Qed.
Print Assumptions C56_for_each_secondary_partial.

Theorem C56_for_each_primary_partial : forall (T F A : Type) (tb : table T F) (inj : T -> A), good_table tb -> forall ev,
  forall db fl m, reads tb db fl NoBatch m ->
  forall i sel, mirrors inj i primary_index -> exact_selector tb primary_index m sel ->
  exists l, selected tb primary_index m sel l /\
  forall rv W (f : W -> bytes -> prog (T:=A) W) fuel s,
    within f (injected inj (keyed (schema_of tb) sprimary (dir rv l))) s fuel ->
    any_visited ev f (injected inj (keyed (schema_of tb) sprimary (dir rv l))) s
      (any_scan_index_for_each tb ev inj fuel db fl i (TypedSel sel) f rv NoBatch s).
Proof. exact @any_each_primary. Qed.
Print Assumptions C56_for_each_primary_partial.

Example C56_for_each_case :
  any_scan_index_for_each accts env1 inl 5 abc_db tt any_by_score (TypedSel (SRange (Acct 0 0 0 true) (Acct 9 0 6 true)))
    (fun (s : list (acct + nat)) _ => PGet (fun v => match v with Ok x => PRet (s ++ [x]) (Nat.ltb (length s) 1) None | _ => PRet s false (Some EOther) end))
    false NoBatch [] = ([inl (Acct 2 11 0 false); inl (Acct 3 10 5 true)], Ok tt).
Proof. vm_compute. reflexivity. Qed.

(** C56. Whatever the database holds, also rows that cannot be decoded, dangling index entries or keys that are none, and whatever the callback, which may get
    the record several times or never: ForEach does what the table's ForEach without a batch does with a callback that acts alike on the records and on the
    errors of Get. *)
Theorem C56_for_each_same : forall (T F A W : Type) (tb : table T F) (inj : T -> A) ev (f : W -> bytes -> prog (T:=A) W) (g : W -> bytes -> prog (T:=T) W),
  (forall w k, acts_alike inj (f w k) (g w k)) -> forall fuel db fl i idx sel rv ob s, mirrors inj i idx ->
  any_scan_for_each tb ev inj fuel db fl f rv ob s = scan_for_each tb ev fuel db fl g rv NoBatch s /\
  any_scan_index_for_each tb ev inj fuel db fl i (TypedSel sel) f rv ob s = scan_index_for_each tb ev fuel db fl idx sel g rv NoBatch s.
Proof. exact @any_each_same. Qed.
Print Assumptions C56_for_each_same.

(** C56. Scan and ScanIndex, with and without a batch: the rows of the table's own scan behind those given, or its error and only the rows given. *)
Theorem C56_collect_same : forall (T F A : Type) (tb : table T F) (inj : T -> A) ev fuel db fl i idx sel rv ob acc, mirrors inj i idx ->
  let out (x : list T * res unit) := match snd x with Ok _ => (acc ++ map inj (fst x), Ok tt) | r => (acc, r) end in
  any_scan tb ev inj fuel db fl acc rv ob = out (scan tb ev fuel db fl [] rv ob) /\
  any_scan_index tb ev inj fuel db fl i (TypedSel sel) acc rv ob = out (scan_index tb ev fuel db fl idx sel [] rv ob).
Proof. exact @any_collect_same. Qed.
Print Assumptions C56_collect_same.

(** A row whose bytes are cut: the callback gets the error and goes on, to find the row behind; the collecting scans fail. *)
Example C56_same_case :
  let bad := kv_set abc_db (data_key accts (Acct 2 0 0 true)) [x01] in
  let f := fun (s : list (acct + nat)) (_ : bytes) => PGet (fun v => match v with Ok x => PRet (s ++ [x]) true None | _ => PRet (s ++ [inr 9]) true None end) in
  let g := fun (s : list (acct + nat)) (_ : bytes) => PGet (fun v => match v with Ok x => PRet (s ++ [inl x]) true None | _ => PRet (s ++ [inr 9]) true None end) in
  (forall w k, acts_alike inl (f w k) (g w k)) /\
  any_scan_for_each accts env1 inl 5 bad tt f false NoBatch [] = ([inl (Acct 1 10 6 true); inr 9; inl (Acct 3 10 5 true)], Ok tt) /\
  any_scan accts env1 (fun r => inl r) 4 bad tt [inr 7] false NoBatch = ([inr 7], Err EDeserialize).
Proof.
  split; [|split; vm_compute; reflexivity]. intros w k. apply aa_get; intros; apply aa_ret.
Qed.

(** C56 is false as stated: the ForEach variants ignore the batch; the others lose the rows read before
    an error; a selector built for the scanner's own record type panics. *)
Theorem C56_for_each_drops_batch_refuted : exists db b m, reads accts db tt (ABatch b) m /\
  let f := fun (s : list acct) (_ : bytes) => PGet (T:=acct) (fun v => match v with Ok r => PRet (s ++ [r]) true None | _ => PRet s false (Some EOther) end) in
  forall fuel, 4 <= fuel ->
    any_scan_for_each accts env1 (fun r => r) fuel db tt f false (ABatch b) [] = ([Acct 3 10 5 true], Ok tt) /\
    scan_for_each accts env1 fuel db tt f false (ABatch b) [] = ([Acct 1 10 6 true; Acct 2 11 0 false; Acct 3 10 5 true], Ok tt).
Proof. exact any_each_drops_batch. Qed.
Print Assumptions C56_for_each_drops_batch_refuted.

Theorem C56_error_loses_rows_refuted : exists db m, reads accts db tt NoBatch m /\
  forall fuel, 4 <= fuel ->
    any_scan accts cancelled_late (fun r => r) fuel db tt [] false NoBatch = ([], Err ECtx) /\
    scan accts cancelled_late fuel db tt [] false NoBatch = ([Acct 1 10 6 true], Err ECtx).
Proof. exact any_error_loses. Qed.
Print Assumptions C56_error_loses_rows_refuted.

Theorem C56_any_selector_panics_refuted : forall (T F A : Type) (tb : table T F) ev (inj : T -> A) fuel db fl i (lo hi p : A) acc rv ob,
  any_scan_index tb ev inj fuel db fl i (AnySel (SPoint p)) acc rv ob = (acc, Panic) /\
  any_scan_index tb ev inj fuel db fl i (AnySel (SRange lo hi)) acc rv ob = (acc, Panic).
Proof. exact @any_selector_panics. Qed.
Print Assumptions C56_any_selector_panics_refuted.
