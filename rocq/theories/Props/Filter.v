(** Properties C40-C45, C59: filters and their stores. *)

From Coq Require Import List NArith ZArith Bool Arith Lia.
From Verif.Model Require Import Bytes Go Keys Pebble Table Scan Bloom FSStore BloomRace.
From Verif.Spec Require Import KeySpec StoreSpec TableSpec BloomSpec.
From Verif.Proofs Require Import PebbleFacts Witness TableBugs ScanBugs BloomFacts FilterFacts FSFacts RaceFacts TwoFilters FilterBugs.
Import ListNotations.

(** C40. Whatever was done with a filter and whatever its store answers, a key added to it is reported until the filter is
    replaced by a new one. *)
Theorem C40_no_false_negatives : forall (S : Type) (st : storer S) cd h c, hashes_ok h -> 0 < c_n c ->
  forall os s s' bs' rs k, bloom_run st cd h c s (new_bloom c) os = (s', bs', rs) -> added os k ->
  bloom_may h c bs' k = true.
Proof. intros S st cd h c HH CN os s s' bs' rs k E A. eapply (run_may h c HH CN st cd); eauto. apply new_length. Qed.
Print Assumptions C40_no_false_negatives.

(** C40. The other way round a filter with nothing in it reports nothing. *)
Theorem C40_new_reports_nothing : forall h c, hashes_ok h -> 0 < c_n c -> forall k, 0 < c_k c -> bloom_may h c (new_bloom c) k = false.
Proof. exact may_new. Qed.
Print Assumptions C40_new_reports_nothing.

Example C40_case : hashes_ok demo_hashes /\ 0 < c_n demo_config /\
  let os := [FAdd [x41]; FSave (Some (1, 2)); FClear; FLoad; FAdd [x07]] in
  let '(_, bs, rs) := bloom_run fs_storer demo_codec demo_hashes demo_config [] (new_bloom demo_config) os in
  added os [x41] /\ rs = [Ok tt; Err EOther; Ok tt; Err EOther; Ok tt] /\ bloom_may demo_hashes demo_config bs [x41] = true /\
  bloom_may demo_hashes demo_config bs [x42] = false.
Proof.
  split; [exact demo_hashes_ok|]. split; [cbn; lia|]. vm_compute. split; [|repeat split; reflexivity].
  exists [], [FSave (Some (1, 2)); FClear; FLoad; FAdd [x07]]. split; auto.
  intros [H|[H|[H|[H|[]]]]]; discriminate.
Qed.

(** C41. A key added, saved and loaded again is reported: whatever happened before, and whatever but a Save happens between
    the Save and the Load, if that Load succeeds. *)
Theorem C41_saved_and_loaded : forall (S : Type) (st : storer S) cd h c, storer_ok st c -> codec_ok cd -> hashes_ok h -> 0 < c_n c ->
  forall s pre k mid post s' bs' rs, ~ In FNew mid -> Forall not_save post ->
  bloom_run st cd h c s (new_bloom c) (pre ++ (FAdd k :: mid) ++ [FSave None] ++ post ++ [FLoad]) = (s', bs', rs ++ [Ok tt]) ->
  bloom_may h c bs' k = true.
Proof. exact @saved_loaded. Qed.
Print Assumptions C41_saved_and_loaded.

(** C41. The same for histories with more processes and with interrupted Saves: after any history the filter reports all that
    the history promises ([promises]: a completed Save passes the filter's promises on to the store, an interrupted one
    keeps those that both had). *)
Theorem C41_promises_kept : forall (S : Type) (st : storer S) cd h c, storer_ok st c -> codec_ok cd -> hashes_ok h -> 0 < c_n c ->
  forall s os s' bs' rs k, bloom_run st cd h c s (new_bloom c) os = (s', bs', rs) ->
  fst (promises no_promise os rs) k -> bloom_may h c bs' k = true.
Proof. exact @kept_promises. Qed.
Print Assumptions C41_promises_kept.

(** C41. A Save after a history without Clear and interrupted Saves completes, and loads. *)
Theorem C41_save_loads_partial : forall (S : Type) (st : storer S) cd h c, storer_ok st c -> codec_ok cd -> hashes_ok h -> 0 < c_n c ->
  forall s os s1 bs1 rs s2 bs2 r, (N.of_nat (c_n c) < 2 ^ 64)%N -> Forall undisturbed os ->
  bloom_run st cd h c s (new_bloom c) os = (s1, bs1, rs) -> bloom_save st cd c None s1 bs1 = (s2, bs2, r) ->
  r = Ok tt /\ snd (bloom_load st cd c s2 (new_bloom c)) = Ok tt.
Proof. intros S st cd h c SO CO HH CN. exact (undisturbed_loads st cd h c SO CO CN). Qed.
Print Assumptions C41_save_loads_partial.

(** C41. Load succeeds only if the stored number of buckets is the filter's, and every bucket is there
    and of the filter's shape. *)
Theorem C41_load_checks : forall (S : Type) (st : storer S) cd c s bs bs',
  bloom_load st cd c s bs = (bs', Ok tt) ->
  (exists v, st_get st s (count_key c) = Some v /\ 8 <= length v /\ be_val (firstn 8 v) = N.of_nat (c_n c)) /\
  forall i, i < length bs -> exists bits data, st_get st s (bucket_key c i) = Some data /\ unpack cd data = Some (c_m c, c_k c, bits).
Proof. exact @load_needs. Qed.
Print Assumptions C41_load_checks.

(** Both stores keep the keys of a filter apart, for every configuration. *)
Theorem C41_stores : forall c, storer_ok db_storer c /\ storer_ok fs_storer c.
Proof. intros c. exact (conj (db_storer_ok c) (fs_storer_ok c)). Qed.
Print Assumptions C41_stores.

Example C41_case : storer_ok db_storer demo_config /\ codec_ok demo_codec /\
  let '(_, bs, rs) := bloom_run db_storer demo_codec demo_hashes demo_config [] (new_bloom demo_config)
    [FAdd [x41]; FSave None; FAdd [x42]; FSave (Some (1, 0)); FNew; FLoad] in
  rs = [Ok tt; Ok tt; Ok tt; Err EOther; Ok tt; Ok tt] /\ bloom_may demo_hashes demo_config bs [x41] = true /\
  bloom_may demo_hashes demo_config bs [x42] = false.
Proof. split; [apply db_storer_ok|]. split; [exact demo_codec_ok|]. vm_compute. auto. Qed.

(** C41 is false as stated when the number of buckets changes: with a prefix that ends in 0xFF FilterInitialize cannot remove the old
    buckets, and an interrupted Save mixes them with the new count; the Load succeeds and the key is lost. *)
Theorem C41_changed_count_refuted : snd ff_init = Ok tt /\ bloom_may demo_hashes (ff_config 1) (snd (fst ff_init)) ff_key = true /\
  snd (bloom_load db_storer demo_codec (ff_config 1) ff_s2 (new_bloom (ff_config 1))) = Ok tt /\
  bloom_may demo_hashes (ff_config 1) (fst (bloom_load db_storer demo_codec (ff_config 1) ff_s2 (new_bloom (ff_config 1)))) ff_key = false.
Proof. exact count_changed. Qed.
Print Assumptions C41_changed_count_refuted.

(** C41. After Clear a Save of the same filter completes but writes no bucket, and cannot be loaded. *)
Theorem C41_clear_then_save_refuted : exists os s' bs', os = [FAdd [x41]; FSave None; FClear; FSave None; FNew; FLoad] /\
  bloom_run db_storer demo_codec demo_hashes demo_config [] (new_bloom demo_config) os =
    (s', bs', [Ok tt; Ok tt; Ok tt; Ok tt; Ok tt; Err ENotFound]).
Proof. exact clear_then_save. Qed.
Print Assumptions C41_clear_then_save_refuted.

(** C42 is false as stated: rows committed after the last Save are not in the filter that the next process loads. A
    stored row becomes invisible and can be inserted again. *)
Theorem C42_stale_filter_refuted : exists bs2 (L : length bs2 = c_n demo_config) v,
  snd p1_saved = Ok tt /\ snd p1_second = Ok tt /\
  (forall fuel, p2_init fuel = (fst (fst p1_saved), bs2, Ok tt)) /\
  kv_get (r_db (fst p1_second)) (row_key asc (s_pk asc (Acct 2 0 0 true))) = Some v /\
  get_point bl_accts (r_db (fst p1_second)) (Bloom bs2 L) None (Acct 2 0 0 true) = Err ENotFound /\
  snd (insert bl_accts env1 (r_db (fst p1_second)) (Bloom bs2 L) None [Acct 2 55 55 true]) = Ok tt.
Proof. exact stale_filter. Qed.
Print Assumptions C42_stale_filter_refuted.

(** C42. The rescan starts at the key of the zero record, so rows in front of it are lost as well. *)
Theorem C42_rescan_omits_refuted : exists m bs2 (L : length bs2 = c_n demo_config),
  consistent nums nums_db tt m /\ m (s_pk (schema_of nums) (-1)%Z) = Some (-1)%Z /\
  (forall fuel, 2 <= fuel -> snd (nums_init fuel) = Ok tt /\ snd (fst (nums_init fuel)) = bs2) /\
  get_point bl_nums nums_db (Bloom bs2 L) None (-1)%Z = Err ENotFound /\
  get_point bl_nums nums_db (Bloom bs2 L) None 7%Z = Ok 7%Z.
Proof. exact rescan_omits. Qed.
Print Assumptions C42_rescan_omits_refuted.

(** C42. A Save into files that is interrupted in its first write makes FilterInitialize panic from then on. *)
Theorem C42_torn_count_refuted : exists s scs, s = fst (fst (bloom_save fs_storer demo_codec demo_config (Some (0, 3)) [] (new_bloom demo_config))) /\
  snd (bloom_load fs_storer demo_codec demo_config s (new_bloom demo_config)) = Panic /\
  snd (filter_init fs_storer demo_codec demo_config s scs (new_bloom demo_config)) = Panic.
Proof. exact torn_count. Qed.
Print Assumptions C42_torn_count_refuted.

(** C42. A filter that FilterInitialize returns is right for the table, whatever was done with the store before and wherever it stopped,
    if no row lies in front of the zero record and, in case the stored filter can be loaded, every row was added before the last
    Save that the store vouches for. So a table is safe when nothing is stored (or it cannot be loaded). *)
Theorem C42_initialized_filter_partial : forall (S : Type) (st : storer S) cd h c, storer_ok st c -> codec_ok cd -> hashes_ok h -> 0 < c_n c ->
  forall (T A : Type) (tb : table T (bloom c)) db m (inj : T -> A) ev fl s0 os s1 bs1 rs,
  t_filter tb = Some (bloom_filt h c) -> good_table tb -> kv_ok db -> Rep (schema_of tb) db m ->
  bloom_run st cd h c s0 (new_bloom c) os = (s1, bs1, rs) ->
  (forall r, m (s_pk (schema_of tb) r) = Some r -> bcmp (s_pk (schema_of tb) (t_empty tb)) (s_pk (schema_of tb) r) <> Gt) ->
  exists n, forall fuel scs s2 bs2, n <= fuel -> Forall only_adds scs -> In (table_scanner h c tb ev inj fuel db fl) scs ->
    filter_init st cd c s1 scs (new_bloom c) = (s2, bs2, Ok tt) ->
    (snd (bloom_load st cd c s1 (new_bloom c)) = Ok tt ->
     forall pk r, m pk = Some r -> snd (promises no_promise os rs) (row_key (schema_of tb) pk)) ->
    exists L : length bs2 = c_n c, consistent tb db (Bloom bs2 L) m.
Proof. exact @init_consistent. Qed.
Print Assumptions C42_initialized_filter_partial.

(** Nothing stored: the rescan finds the two rows (the key of account 9 is not among them). *)
Example C42_case :
  let db := r_db (fst p1_second) in
  let '(_, bs, r) := filter_init db_storer demo_codec demo_config [] 
    [table_scanner demo_hashes demo_config bl_accts env1 (fun r => r) 9 db new_demo] (new_bloom demo_config) in
  good_table bl_accts /\ r = Ok tt /\ bloom_may demo_hashes demo_config bs (row_key asc (s_pk asc (Acct 1 0 0 true))) = true /\
  bloom_may demo_hashes demo_config bs (row_key asc (s_pk asc (Acct 2 0 0 true))) = true /\
  bloom_may demo_hashes demo_config bs (row_key asc (s_pk asc (Acct 9 0 0 true))) = false.
Proof.
  set (db := r_db (fst p1_second)). cbv zeta.
  destruct (filter_init db_storer demo_codec demo_config []
    [table_scanner demo_hashes demo_config bl_accts env1 (fun r => r) 9 db new_demo] (new_bloom demo_config)) as [[s bs] r] eqn:E.
  split; [exact bl_accts_good|]. vm_compute in E. injection E as <- <- <-. vm_compute. auto.
Qed.

(** C43 is false as stated: two goroutines that add keys of the same bucket can lose a bit. *)
Theorem C43_lost_bit_refuted : exists sched bs' pcs, race_run demo_hashes race_config [[x01]; [x02]] (new_bloom race_config) sched = (bs', pcs) /\
  all_done pcs /\ bloom_may demo_hashes race_config bs' [x02] = false.
Proof. exact lost_bit. Qed.
Print Assumptions C43_lost_bit_refuted.

(** C43. They can also lose the mark that the bucket has changed; the next Save completes without the key. *)
Theorem C43_lost_mark_refuted : exists sched bs' pcs s2 r2, race_run demo_hashes race_config [[x01]; [x02]] (snd (fst lf_saved)) sched = (bs', pcs) /\
  all_done pcs /\ bloom_may demo_hashes race_config bs' [x02] = true /\
  (s2, r2) = (fst (fst (bloom_save db_storer demo_codec race_config None (fst (fst lf_saved)) bs')), snd (bloom_save db_storer demo_codec race_config None (fst (fst lf_saved)) bs')) /\
  r2 = Ok tt /\ snd (bloom_load db_storer demo_codec race_config s2 (new_bloom race_config)) = Ok tt /\
  bloom_may demo_hashes race_config (fst (bloom_load db_storer demo_codec race_config s2 (new_bloom race_config))) [x02] = false.
Proof. exact lost_flag. Qed.
Print Assumptions C43_lost_mark_refuted.

(** C43. Any number of goroutines that add keys of different buckets, under every schedule: the filter ends as if they had added
    them one after another, flags included, and reports all of them. *)
Theorem C43_separate_buckets_partial : forall h c keys bs sched bs' pcs, hashes_ok h -> 0 < c_n c -> length bs = c_n c ->
  NoDup (map (fun k => h_bucket h k (c_n c)) keys) -> race_run h c keys bs sched = (bs', pcs) -> all_done pcs ->
  same_filter (fold_left (bloom_add h c) keys bs) bs' /\ forall k, In k keys -> bloom_may h c bs' k = true.
Proof. exact apart_adds. Qed.
Print Assumptions C43_separate_buckets_partial.

Example C43_case : exists bs' pcs,
  race_run demo_hashes demo_config [[x40]; [x41]] (new_demo.(bl_bs)) [0; 1; 1; 0; 0; 1; 1; 0; 0; 1; 1; 0; 0; 1; 1; 0; 0; 1; 1; 0; 0; 1] = (bs', pcs) /\
  all_done pcs /\ NoDup (map (fun k => h_bucket demo_hashes k (c_n demo_config)) [[x40]; [x41]]) /\
  bloom_may demo_hashes demo_config bs' [x40] = true /\ bloom_may demo_hashes demo_config bs' [x41] = true.
Proof.
  eexists _, _. split; [vm_compute; reflexivity|]. split; [intros pc [<-|[<-|[]]]; reflexivity|].
  split; [|vm_compute; auto]. vm_compute. repeat constructor; cbn; intuition discriminate.
Qed.

(** C44. The bloom filter, and a FilterInitializable around any filter without false negatives, are such filters. *)
Theorem C44_bloom_filter : forall h c, hashes_ok h -> 0 < c_n c -> filt_ok (bloom_filt h c) /\ filt_ok (iz_filt (bloom_filt h c)).
Proof. intros h c HH CN. pose proof (bloom_filt_ok h c HH CN) as B. exact (conj B (iz_filt_ok _ B)). Qed.
Print Assumptions C44_bloom_filter.

(** C44. Before it is initialized a FilterInitializable reports everything. *)
Theorem C44_uninitialized : forall (F : Type) (f : filt F) fl k, f_may (iz_filt f) (Initz fl false) k = true.
Proof. exact @iz_off. Qed.
Print Assumptions C44_uninitialized.

(** C45 is false as stated: DeleteRange of files ignores the end of the range. *)
Theorem C45_end_ignored_refuted : exists d lo hi k v, blt [x2e] (file_name lo) /\ plain lo /\ plain hi /\ plain k /\ ble hi k /\
  fs_get d k = Some v /\ fs_get (fst (fs_del_range d lo hi)) k = None.
Proof. exact fs_range_end_ignored. Qed.
Print Assumptions C45_end_ignored_refuted.

(** C45. Different keys share a file. *)
Theorem C45_keys_collide_refuted : exists d k k' v v', k <> k' /\ fs_get d k = Some v /\ snd (fs_set d k' v') = true /\ v <> v' /\
  fs_get (fst (fs_set d k' v')) k = Some v'.
Proof. exact fs_keys_collide. Qed.
Print Assumptions C45_keys_collide_refuted.

(** C45. A start whose file name is empty makes DeleteRange fail. *)
Theorem C45_delete_fails_refuted : exists d lo hi k, file_name lo = [] /\ fs_del_range d lo hi = (d, false) /\ fs_get d k <> None /\ in_range lo hi k = true.
Proof. exact fs_clear_fails. Qed.
Print Assumptions C45_delete_fails_refuted.

(** C45. What does hold: Set then Get, no effect on keys with another file name, and DeleteRange removes exactly the
    files whose name is not below that of the start. *)
Theorem C45_files_partial :
  (forall d k v, dir_name (file_name k) = false -> snd (fs_set d k v) = true /\ fs_get (fst (fs_set d k v)) k = Some v) /\
  (forall d k v k', file_name k <> file_name k' -> fs_get (fst (fs_set d k v)) k' = fs_get d k') /\
  (forall d lo hi k, blt [x2e] (file_name lo) -> snd (fs_del_range d lo hi) = true /\
     fs_get (fst (fs_del_range d lo hi)) k = if bltb (file_name k) (file_name lo) then fs_get d k else None).
Proof. exact (conj fs_set_get (conj fs_set_other fs_del_spec)). Qed.
Print Assumptions C45_files_partial.

Example C45_case : let d := fst (fs_set (fst (fs_set [] [x61; x31] [x01])) [x63] [x02]) in
  fs_get d [x61; x31] = Some [x01] /\ fs_get d [x63] = Some [x02] /\
  fs_get (fst (fs_del_range d [x62] [x64])) [x61; x31] = Some [x01] /\ fs_get (fst (fs_del_range d [x62] [x64])) [x63] = None.
Proof. vm_compute. auto. Qed.

(** C59 is false as stated: filters get the same default prefix and overwrite each other; a key saved by the first is lost. *)
Theorem C59_default_prefix_refuted : exists ka kb s1 s2 a b a',
  a = bloom_add demo_hashes demo_config (new_bloom demo_config) ka /\ b = bloom_add demo_hashes demo_config (new_bloom demo_config) kb /\
  bloom_save db_storer demo_codec demo_config None [] a = (s1, snd (fst (bloom_save db_storer demo_codec demo_config None [] a)), Ok tt) /\
  bloom_save db_storer demo_codec demo_config None s1 b = (s2, snd (fst (bloom_save db_storer demo_codec demo_config None s1 b)), Ok tt) /\
  bloom_load db_storer demo_codec demo_config s2 (new_bloom demo_config) = (a', Ok tt) /\
  bloom_may demo_hashes demo_config a' ka = false.
Proof. exact shared_prefix. Qed.
Print Assumptions C59_default_prefix_refuted.

(** C59. Filters stored in the database under prefixes of which neither starts with the other: each ends with the buckets and the results
    it would have had alone, for every interleaving of their operations. *)
Theorem C59_separate_prefixes_partial : forall cd h c1 c2, prefixes_apart (c_prefix c1) (c_prefix c2) -> forall os s,
  let '(_, x1, x2) := two_run db_storer cd h c1 c2 s (new_bloom c1) (new_bloom c2) os in
  let '(_, y1, z1) := bloom_run db_storer cd h c1 s (new_bloom c1) (of_one true os) in
  let '(_, y2, z2) := bloom_run db_storer cd h c2 s (new_bloom c2) (of_one false os) in
  x1 = (y1, z1) /\ x2 = (y2, z2).
Proof.
  intros cd h c1 c2 P os s. exact (two_apart cd h c1 c2 P os s s s _ _ (new_length c1) (new_length c2) (fun _ _ => eq_refl) (fun _ _ => eq_refl)).
Qed.
Print Assumptions C59_separate_prefixes_partial.

(** C59. No operation of a filter with the default prefix changes a row or an index entry. *)
Theorem C59_tables_untouched : forall cd h c s bs o t rest, c_prefix c = bloom_prefix -> t <> x00 ->
  kv_get (fst (fst (bloom_step db_storer cd h c s bs o))) (t :: rest) = kv_get s (t :: rest).
Proof. exact tables_untouched. Qed.
Print Assumptions C59_tables_untouched.

Example C59_case : let c1 := Config 64 2 2 [x61] in let c2 := Config 64 2 2 [x62] in prefixes_apart (c_prefix c1) (c_prefix c2) /\
  let '(_, (b1, r1), (b2, r2)) := two_run db_storer demo_codec demo_hashes c1 c2 [] (new_bloom c1) (new_bloom c2)
    [(true, FAdd [x41]); (false, FAdd [x43]); (true, FSave None); (false, FSave None); (false, FClear); (true, FNew); (true, FLoad)] in
  r1 = [Ok tt; Ok tt; Ok tt; Ok tt] /\ r2 = [Ok tt; Ok tt; Ok tt] /\ bloom_may demo_hashes c1 b1 [x41] = true /\ bloom_may demo_hashes c1 b1 [x43] = false.
Proof. split; [split; intros x E; discriminate|]. vm_compute. auto. Qed.
