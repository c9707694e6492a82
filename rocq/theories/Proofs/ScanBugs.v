(** Concrete stores on which unguarded claims about scans fail, and material for examples. *)

From Coq Require Import List NArith ZArith Lia Bool Sorting.Sorted Sorting.Permutation Arith.
From Verif.Model Require Import Bytes Go Keys Pebble Index Table Scan.
From Verif.Spec Require Import KeySpec StoreSpec TableSpec HistSpec ScanSpec.
From Verif.Proofs Require Import BytesFacts KeysFacts PebbleFacts TableFacts WriteFacts UpdateFacts UpsertFacts CallFacts
  ReadFacts HistFacts Witness TableProps TableBugs IterFacts ScanFacts ScanRows ScanProps.
Import ListNotations.

Definition env1 {T} : env T := demo_env 10.

(** a store made by one insert *)
Definition stored {T F} (tb : table T F) (fl : F) (rows : list T) : kv := r_db (fst (insert tb env1 [] fl None rows)).

Lemma stored_consistent {T} (tb : table T unit) rows : good_table tb -> t_filter tb = None ->
  Forall (row_ok (schema_of tb)) rows -> NoDup (map (s_pk (schema_of tb)) rows) ->
  (forall r, In r rows -> s_val (schema_of tb) r <> None) ->
  consistent tb (stored tb tt rows) tt (puts (schema_of tb) empty_map rows).
Proof.
  intros G NF RO ND SV. destruct (insert_ok tb G env1 (demo_env_ok 10 ltac:(lia)) [] tt empty_map rows) as [w [E [C _]]].
  - apply demo_env_quiet.
  - constructor; [apply kv_ok_nil|apply Rep_empty|apply covers_empty].
  - auto.
  - auto.
  - intros r Hr. split; auto.
  - unfold stored. rewrite E. cbn [fst]. destruct w as [d [] ob]. exact C.
Qed.

Lemma accts_stored rows : Forall (fun r => (a_id r < 256 ^ 8)%N) rows -> NoDup (map a_id rows) ->
  (forall r, In r rows -> s_val asc r <> None) -> consistent accts (stored accts tt rows) tt (puts asc empty_map rows).
Proof.
  intros A B C. apply stored_consistent; [apply accts_good|reflexivity|apply acct_rows_ok|apply ids_nodup; auto|auto].
Qed.

(** ** Scan starts at the key of the zero record *)

Definition num_ser (z : Z) : option bytes :=
  if ((- 2 ^ 63 <=? z) && (z <? 2 ^ 63))%Z then Some (be_bytes 8 (Z.to_N (z + 2 ^ 63))) else None.
Definition num_deser (v : bytes) (_ : Z) : option Z := Some (Z.of_N (be_val v) - 2 ^ 63)%Z.
(** records that are just an int64 id *)
Definition nums : table Z unit := MkTable x05 (fun b z => kb_buff (add_int64 b z)) [] num_ser num_deser 0%Z 0%Z 3 None.

Lemma nums_good : good_table nums.
Proof.
  constructor.
  - constructor; try easy; [|constructor]. intros b r. cbn [t_pk nums]. unfold add_int64, kb_append, put_field_id. cbn [kb_buff new_kb kb_fid].
    rewrite <- !app_assoc. reflexivity.
  - intros z v prior. cbn [t_ser nums t_deser]. unfold num_ser. destruct (_ && _)%bool eqn:E; [|easy].
    intro HV. assert (EV : v = be_bytes 8 (Z.to_N (z + 2 ^ 63))) by congruence. subst v. unfold num_deser.
    apply andb_true_iff in E as [E1 E2]. apply Z.leb_le in E1. apply Z.ltb_lt in E2.
    rewrite be_val_bytes_small.
    + rewrite Z2N.id by lia. f_equal. lia.
    + change (256 ^ N.of_nat 8)%N with (Z.to_N (2 ^ 64)). apply Z2N.inj_lt; lia.
  - apply filter_ok_none. reflexivity.
Qed.

Lemma scan_omits : exists db m r, consistent nums db tt m /\ m (s_pk (schema_of nums) r) = Some r /\
  forall fuel rv, ~ In r (fst (scan nums env1 fuel db tt [] rv NoBatch)).
Proof.
  exists (stored nums tt [7; -1]%Z), (puts (schema_of nums) empty_map [7; -1]%Z), (-1)%Z.
  split; [|split].
  - apply stored_consistent; auto using nums_good.
    + apply Forall_forall. intros r _. intros ix [].
    + cbn [map]. repeat constructor; cbn; intuition discriminate.
    + intros r [<-|[<-|[]]]; vm_compute; discriminate.
  - vm_compute. reflexivity.
  - intros fuel rv. destruct fuel as [|[|[|fuel]]], rv; vm_compute; intuition discriminate.
Qed.

(** ** Selectors whose bytes end in 0xFF select too much *)

Definition ff_rows : list acct := [Acct 255 255 1 true; Acct 256 256 1 true; Acct 510 300 1 true; Acct 511 9 1 true].

Lemma ff_stored : consistent accts (stored accts tt ff_rows) tt (puts asc empty_map ff_rows).
Proof.
  apply accts_stored.
  - repeat constructor.
  - repeat constructor; cbn; intuition discriminate.
  - intros r [<-|[<-|[<-|[<-|[]]]]]; vm_compute; discriminate.
Qed.

Lemma point_too_much : exists db m p r, consistent accts db tt m /\ parts_fit (sindex_of acct_by_kind) p /\
  ~ from_point asc (sindex_of acct_by_kind) p r /\
  forall fuel, 4 <= fuel -> exists l, scan_index accts env1 fuel db tt acct_by_kind (SPoint p) [] false NoBatch = (l, Ok tt) /\ In r l.
Proof.
  exists (stored accts tt ff_rows), (puts asc empty_map ff_rows), (Acct 255 255 1 true), (Acct 256 256 1 true).
  split; [apply ff_stored|]. split; [split; vm_compute; reflexivity|]. split.
  - intros [H _]. vm_compute in H. discriminate.
  - intros fuel H. destruct fuel as [|[|[|[|fuel]]]]; try lia.
    eexists. split; [vm_compute; reflexivity|]. cbn; auto.
Qed.

Lemma range_too_much : exists db m lo hi r, consistent accts db tt m /\ ~ in_between asc sprimary lo hi r /\
  forall fuel, 4 <= fuel -> exists l, get_sel accts env1 fuel db tt NoBatch (SRange lo hi) = Ok l /\ In r l.
Proof.
  exists (stored accts tt ff_rows), (puts asc empty_map ff_rows), (Acct 1 0 0 true), (Acct 255 0 0 true), (Acct 510 300 1 true).
  split; [apply ff_stored|]. split.
  - intros [_ H]. apply H. vm_compute. reflexivity.
  - intros fuel H. destruct fuel as [|[|[|[|fuel]]]]; try lia.
    eexists. split; [vm_compute; reflexivity|]. cbn; auto.
Qed.

(** records that are just a string key *)
Definition words : table bytes unit := MkTable x06 (fun b w => kb_buff (add_bytes b w)) [] (fun w => Some w) (fun v _ => Some v) [] [] 3 None.

Lemma words_good : good_table words.
Proof.
  constructor.
  - constructor; try easy; [|constructor]. intros b r. cbn [t_pk words]. unfold add_bytes, kb_append, put_field_id. cbn [kb_buff new_kb kb_fid].
    rewrite <- !app_assoc. reflexivity.
  - intros z v prior. cbn. congruence.
  - apply filter_ok_none. reflexivity.
Qed.

(** the range a..a also selects ab *)
Lemma range_extends : exists db m r x, consistent words db tt m /\ r <> x /\
  forall fuel, 3 <= fuel -> get_sel words env1 fuel db tt NoBatch (SRange r r) = Ok [r; x].
Proof.
  exists (stored words tt [[x61]; [x61; x62]; [x62]]), (puts (schema_of words) empty_map [[x61]; [x61; x62]; [x62]]), [x61], [x61; x62].
  split; [|split; [discriminate|]].
  - apply stored_consistent; auto using words_good.
    + apply Forall_forall. intros r _. intros ix [].
    + cbn [map]. repeat constructor; cbn; intuition discriminate.
    + intros r _. cbn. discriminate.
  - intros fuel H. destruct fuel as [|[|[|fuel]]]; try lia; vm_compute; reflexivity.
Qed.

(** ** Selectors without elements, nil batches *)

Lemma empty_points_panic {T F} (tb : table T F) ev fuel db fl idx rv acc ob :
  scan_index tb ev fuel db fl idx (SPoints []) acc rv ob = (acc, Panic) /\
  scan_index tb ev fuel db fl idx (SRanges []) acc rv ob = (acc, Panic).
Proof. unfold scan_index, scan_index_for_each. cbn. destruct ob; split; reflexivity. Qed.

Lemma nil_batch_panics {T F} (tb : table T F) ev fuel db fl idx lo hi rv acc :
  scan_index tb ev fuel db fl idx (SRange lo hi) acc rv NilBatch = (acc, Panic) /\
  get_sel tb ev fuel db fl NilBatch (SRange lo hi) = Panic.
Proof. unfold scan_index, scan_index_for_each. cbn. split; reflexivity. Qed.

(** ** Write-only batches and foreign selectors: nothing, and no error *)

Lemma write_only_silent {T F} (tb : table T F) ev fuel db fl idx (lo hi p : T) rv acc b : b_rw b = false ->
  scan_index tb ev fuel db fl idx (SRange lo hi) acc rv (ABatch b) = (acc, Ok tt) /\
  get_sel tb ev fuel db fl (ABatch b) (SRange lo hi) = Ok [] /\
  exist tb db fl (Some b) p = false /\
  (exists e, get_sel tb ev fuel db fl (ABatch b) (SPoint p) = Err e).
Proof.
  intro WO. assert (S : forall idx acc rv, scan_index tb ev fuel db fl idx (SRange lo hi) acc rv (ABatch b) = (acc, Ok tt)).
  { intros i a r. unfold scan_index, scan_index_for_each. cbn. rewrite WO.
    destruct (Byte.eqb (ix_id i) primary_index_id), fuel, r; reflexivity. }
  split; auto. split; [|split].
  - cbn [get_sel]. rewrite S. reflexivity.
  - unfold exist, db_get. rewrite WO. apply andb_false_r.
  - cbn [get_sel batch_of]. unfold get_one, db_get. rewrite WO. destruct (flt_may tb fl (data_key tb p)); eexists; reflexivity.
Qed.

Lemma foreign_selector_silent {T F} (tb : table T F) ev fuel db fl idx acc rv ob :
  scan_index tb ev fuel db fl idx SOther acc rv ob = (acc, Ok tt).
Proof.
  unfold scan_index, scan_index_for_each. cbn. destruct (Byte.eqb (ix_id idx) primary_index_id), fuel, rv; reflexivity.
Qed.

(** ** Callbacks that load some rows only *)

(** loads the first row it sees, then only counts *)
Definition first_only (s : nat) (_ : bytes) : prog (T:=acct) nat :=
  match s with O => PGet (fun _ => PRet 1 true None) | S _ => PRet (S s) true None end.

Lemma first_only_stuck {F} (tb : table acct F) fuel : forall s st, 0 < s -> ss_vi st < length (ss_vals st) -> ss_vi st < length (ss_ikeys st) ->
  prefetched_loop tb first_only fuel st s = inl (fuel + s, Diverge).
Proof.
  induction fuel as [|fuel IH]; intros s st HS H1 H2; cbn [prefetched_loop];
    rewrite (proj2 (Nat.ltb_lt _ _) H1); [reflexivity|].
  destruct (nth_error (ss_ikeys st) (ss_vi st)) as [k|] eqn:E; [|apply nth_error_None in E; lia].
  destruct s as [|s]; [lia|]. cbn [first_only run_prog]. rewrite IH by (cbn; lia). f_equal. f_equal. cbn. lia.
Qed.

Definition ff_open := db_iter (stored accts tt ff_rows) None.
Definition ff_it : biter :=
  match index_iter accts (stored accts tt ff_rows) NoBatch acct_by_score (SPoint (Acct 0 0 1 true)) with Ok b => b | _ => BOne (err_iter EOther) end.
Definition ff_start : biter := scan_first ff_open false ff_it.
Definition ff_got := run_prog (prefetch_and_get accts env1 ff_open false (stored accts tt ff_rows) tt None)
  (first_only 0 (bi_key ff_start)) (Sst ff_start [] [] [] 0).

Lemma first_only_diverges : exists db m, consistent accts db tt m /\
  forall fuel, snd (scan_index_for_each accts env1 fuel db tt acct_by_score (SPoint (Acct 0 0 1 true)) first_only false NoBatch 0) = Diverge.
Proof.
  exists (stored accts tt ff_rows), (puts asc empty_map ff_rows). split; [apply ff_stored|].
  intro fuel. destruct fuel as [|fuel]; [vm_compute; reflexivity|].
  unfold scan_index_for_each.
  assert (E1 : index_iter accts (stored accts tt ff_rows) NoBatch acct_by_score (SPoint (Acct 0 0 1 true)) = Ok ff_it) by (vm_compute; reflexivity).
  rewrite E1. change (Byte.eqb (ix_id acct_by_score) primary_index_id) with false. cbv iota. cbn [batch_of]. fold ff_open. fold ff_start.
  assert (E2 : bi_valid ff_start = true) by (vm_compute; reflexivity).
  assert (E3 : snd ff_got = Ok (1, true, None)) by (vm_compute; reflexivity).
  assert (E4 : Nat.ltb (ss_vi (fst ff_got)) (length (ss_vals (fst ff_got))) = true) by (vm_compute; reflexivity).
  assert (E5 : Nat.ltb (ss_vi (fst ff_got)) (length (ss_ikeys (fst ff_got))) = true) by (vm_compute; reflexivity).
  apply Nat.ltb_lt in E4, E5.
  cbn [secondary_loop]. rewrite E2. change (e_ctx env1 0) with false. cbv iota. fold ff_got.
  destruct ff_got as [st r]. cbn [fst snd] in *. subst r. rewrite first_only_stuck by (auto; lia). reflexivity.
Qed.

(** loads every row twice, keeping what the second load returned *)
Definition twice (s : list acct) (_ : bytes) : prog (T:=acct) (list acct) :=
  PGet (fun _ => PGet (fun v => match v with Ok r => PRet (s ++ [r]) true None | Err e => PRet s false (Some e) | _ => PRet s false (Some EOther) end)).

Lemma twice_panics : exists db m, consistent accts db tt m /\
  forall fuel, 1 <= fuel -> snd (scan_index_for_each accts env1 fuel db tt acct_by_score (SPoint (Acct 0 0 1 true)) twice false NoBatch []) = Panic.
Proof.
  exists (stored accts tt ff_rows), (puts asc empty_map ff_rows). split; [apply ff_stored|].
  intros [|fuel] H; [lia|]. vm_compute. reflexivity.
Qed.

(** two rows only: the second load returns the second row for the first *)
Lemma twice_shifts : exists db m, consistent accts db tt m /\
  forall fuel, 3 <= fuel -> scan_index_for_each accts env1 fuel db tt acct_by_score (SPoint (Acct 0 0 1 true)) twice false NoBatch [] =
    ([Acct 256 9 1 true], Ok tt) /\
  scan_index accts env1 fuel db tt acct_by_score (SPoint (Acct 0 0 1 true)) [] false NoBatch = ([Acct 255 9 1 true; Acct 256 9 1 true], Ok tt).
Proof.
  exists (stored accts tt [Acct 255 9 1 true; Acct 256 9 1 true]), (puts asc empty_map [Acct 255 9 1 true; Acct 256 9 1 true]). split.
  - apply accts_stored.
    + repeat constructor.
    + repeat constructor; cbn; intuition discriminate.
    + intros r [<-|[<-|[]]]; vm_compute; discriminate.
  - intros [|[|[|fuel]]] H; try lia; split; vm_compute; reflexivity.
Qed.

(** ** An index with a stale entry cannot be scanned any more *)

Lemma stale_scan : exists m r w, consistent accts one_stored tt m /\ m (s_pk asc r) <> None /\
  delete accts env1 one_stored tt None [r] = (w, Ok tt) /\
  forall fuel, 1 <= fuel -> snd (scan_index accts env1 fuel (r_db w) tt acct_by_kind (SRange (Acct 0 0 0 true) (Acct 1 99 9 true)) [] false NoBatch) = Err ENotFound.
Proof.
  exists (put asc empty_map (Acct 1 10 0 true)), (Acct 1 11 0 true).
  eexists. split; [exact one_stored_consistent|]. split; [vm_compute; discriminate|].
  split; [vm_compute; reflexivity|]. intros [|fuel] H; [lia|]. vm_compute. reflexivity.
Qed.

(** the primary key is used again: the old entry leads to the new row *)
Lemma reused_scan : exists h db oks, Forall (fun ec => env_ok (fst ec) /\ quiet (fst ec)) h /\
  run_hist accts [] tt h = (db, tt, oks) /\ Forall (fun co => snd co = true) oks /\
  (forall fuel, 2 <= fuel ->
    scan_index accts env1 fuel db tt acct_by_kind (SRange (Acct 0 10 99 true) (Acct 9 10 0 true)) [] false NoBatch = ([Acct 1 11 0 true], Ok tt)) /\
  (forall fuel, 3 <= fuel ->
    scan_index accts env1 fuel db tt acct_by_kind (SRange (Acct 0 0 99 true) (Acct 9 99 0 true)) [] false NoBatch =
      ([Acct 1 11 0 true; Acct 1 11 0 true], Ok tt)).
Proof.
  exists [(env1, CInsert [Acct 1 10 0 true]); (env1, CDelete [Acct 1 12 0 true]); (env1, CInsert [Acct 1 11 0 true])].
  eexists _, _. split; [repeat (constructor; [split; [exact (demo_env_ok 10 ltac:(lia))|split; [intro; reflexivity|reflexivity]]|]); constructor|].
  split; [vm_compute; reflexivity|]. split; [repeat constructor|].
  split; [intros [|[|fuel]] H; try lia|intros [|[|[|fuel]]] H; try lia]; vm_compute; reflexivity.
Qed.

(** ** Material for the examples *)

Notation abc_m := (puts asc empty_map abc).

Lemma abc_reads : reads accts abc_db tt NoBatch abc_m.
Proof. constructor; [apply (cons_ok _ _ _ _ abc_stored)|discriminate|exact I|exact abc_stored]. Qed.

(** the same rows, the last two inserted through a read-write batch *)
Definition a_db : kv := stored accts tt [Acct 3 10 5 true].
Definition bc_batch : batch :=
  match r_batch (fst (insert accts env1 a_db tt (Some (Batch true [])) [Acct 1 10 6 true; Acct 2 11 0 false])) with Some b => b | None => Batch true [] end.

Lemma abc_batch_reads : reads accts a_db tt (ABatch bc_batch) abc_m.
Proof.
  assert (A : consistent accts a_db tt (puts asc empty_map [Acct 3 10 5 true])).
  { apply accts_stored.
    - repeat constructor.
    - repeat constructor. intros [].
    - intros r [<-|[]]. vm_compute. discriminate. }
  constructor; [apply (cons_ok _ _ _ _ A)|discriminate|vm_compute; reflexivity|].
  replace (view a_db (batch_of (ABatch bc_batch))) with abc_db by (vm_compute; reflexivity). exact abc_stored.
Qed.

(** a callback that skips rows until it has seen two, then loads all *)
Definition late (s : nat * list acct) (_ : bytes) : prog (T:=acct) (nat * list acct) :=
  if Nat.ltb (fst s) 2 then PRet (S (fst s), snd s) true None
  else PGet (fun v => match v with Ok r => PRet (fst s, snd s ++ [r]) true None | _ => PRet s false (Some EOther) end).

Lemma late_steady : loads_steadily late.
Proof.
  exists (fun s => 2 <= fst s). assert (ONE : forall s k, 2 <= fst s -> one_get (late s k) (fun s => 2 <= fst s)).
  { intros s k H. unfold late. rewrite (proj2 (Nat.ltb_ge _ _) H). eexists. split; [reflexivity|].
    intro r. exists (fst s, snd s ++ [r]), true, None. auto. }
  split; auto. intros s k. destruct (Nat.ltb_spec (fst s) 2) as [L|L]; [left|right; auto].
  exists (S (fst s), snd s), true, None. unfold late. rewrite (proj2 (Nat.ltb_lt _ _) L). reflexivity.
Qed.

(** loads a row in every second call only, noting what it got *)
Definition every_other (s : list (option acct)) (_ : bytes) : prog (T:=acct) (list (option acct)) :=
  if Nat.even (length s) then PGet (fun v => match v with Ok r => PRet (s ++ [Some r]) true None | _ => PRet s false (Some EOther) end)
  else PRet (s ++ [None]) true None.

Lemma every_other_once : loads_at_most_once every_other.
Proof.
  intros s k. unfold every_other. destruct (Nat.even (length s)); [right|left; unfold no_get; eauto].
  eexists. split; [reflexivity|]. intro r. exists (s ++ [Some r]), true, None. auto.
Qed.

(** passes over the second of two rows *)
Definition not_that (k2 : bytes) (s : nat) (k : bytes) : prog (T:=acct) nat :=
  if beqb k k2 then PRet (S s) true None else PGet (fun _ => PRet (S s) true None).

Lemma not_that_once k2 : loads_at_most_once (not_that k2).
Proof.
  intros s k. unfold not_that. destruct (beqb k k2); [left; unfold no_get; eauto|right].
  eexists. split; [reflexivity|]. intro r. exists (S s), true, None. auto.
Qed.

(** no primary key extends another one *)
Lemma acct_pk_len r : length (s_pk asc r) = 9.
Proof. reflexivity. Qed.

Lemma acct_end ix m hi : parts_fit ix hi -> last (entry_key asc ix hi) x00 <> xff -> exact_end asc ix m hi.
Proof.
  intros A B. split; auto. split; auto. intros r x _ _ _ E. apply (f_equal (@length _)) in E.
  rewrite app_length, !acct_pk_len in E. destruct x; auto. cbn [length] in E. lia.
Qed.
