(** Properties C48, C61, C62: version records, and what Open leaves alone. *)

From Coq Require Import List NArith ZArith Strings.String Strings.Byte.
From Verif.Model Require Import Bytes Go Keys Pebble Table Backup Version.
From Verif.Spec Require Import KeySpec StoreSpec TableSpec HistSpec VersionSpec.
From Verif.Proofs Require Import Witness VersionFacts.
Import ListNotations.
Local Open Scope list_scope.

(** C48. Open with format version [v] succeeds exactly if the directory records [v] or nothing, pebble opens it, and its data version
    is the supported one or not set. *)
Theorem C48_open_accepts : forall peb d v, (v <= max_u64)%N -> snd (open_db peb d v) = Ok tt <->
  (d_file d = None \/ recorded d v) /\ peb (d_fmv d) v <> None /\ (version (d_kv d) = 0%Z \/ version (d_kv d) = Z.of_N data_version).
Proof. exact open_ok. Qed.
Print Assumptions C48_open_accepts.

(** C48. An existing record is the same at every moment of Open, whatever the outcome. *)
Theorem C48_record_kept : forall peb d v d' s, d_file d = Some s -> crashed d (open_db peb d v) d' -> d_file d' = Some s.
Proof. exact open_keeps. Qed.
Print Assumptions C48_record_kept.

(** C48. The first Open records its version, also if it fails afterwards. *)
Theorem C48_first_open_records : forall peb d v, d_file d = None -> d_file (after d (open_db peb d v)) = Some (dec v).
Proof. exact open_pins. Qed.
Print Assumptions C48_first_open_records.

(** C48. Bytes record at most one version, and PebbleFormatVersion reports it. *)
Theorem C48_record_unique : forall s v w, records s v -> records s w -> v = w.
Proof. exact records_fun. Qed.
Print Assumptions C48_record_unique.

Theorem C48_version_reported : forall d w, d_file d <> None -> pebble_format_version d = Ok w <-> recorded d w /\ (w <= max_u64)%N.
Proof. exact format_version. Qed.
Print Assumptions C48_version_reported.

(** C48. A migration that succeeds records the new version and changes no pair; one that fails changes neither record nor pairs. *)
Theorem C48_migrated : forall peb d v, snd (migrate peb d v) = Ok tt ->
  recorded (after d (migrate peb d v)) v /\ d_kv (after d (migrate peb d v)) = d_kv d.
Proof. exact migrate_after. Qed.
Print Assumptions C48_migrated.

Theorem C48_not_migrated : forall peb d v, snd (migrate peb d v) <> Ok tt ->
  forall d', crashed d (migrate peb d v) d' -> d_file d' = d_file d /\ d_kv d' = d_kv d.
Proof. exact migrate_failed. Qed.
Print Assumptions C48_not_migrated.

(** C48. After a crash of a migration the database opens with the old or the new version. Missing: the moments at which the new record
    is not completely written. *)
Theorem C48_migration_crash_partial : forall peb d old v d', (old <= max_u64)%N -> (v <= max_u64)%N -> recorded d old ->
  (version (d_kv d) = 0%Z \/ version (d_kv d) = Z.of_N data_version) -> (forall f w, w = old \/ w = v -> peb f w <> None) ->
  crashed d (migrate peb d v) d' -> (forall n, n < List.length (dec v) -> d_file d' <> Some (firstn n (dec v))) ->
  snd (open_db peb d' old) = Ok tt \/ snd (open_db peb d' v) = Ok tt.
Proof. exact migrate_survives. Qed.
Print Assumptions C48_migration_crash_partial.

(** C48 is false: every migration passes through a directory that no version opens. *)
Theorem C48_migration_crash_refuted : forall peb d v, snd (migrate peb d v) = Ok tt ->
  exists d', crashed d (migrate peb d v) d' /\ forall w, snd (open_db peb d' w) = Err EOther.
Proof. exact migrate_empty. Qed.
Print Assumptions C48_migration_crash_refuted.

(** C48. So does every first Open. *)
Theorem C48_first_open_crash_refuted : forall peb d v, d_file d = None ->
  exists d', crashed d (open_db peb d v) d' /\ forall w, snd (open_db peb d' w) = Err EOther.
Proof. exact open_empty. Qed.
Print Assumptions C48_first_open_crash_refuted.

(** C48. A migration from 9 to 13 can leave a directory that only version 1 opens. *)
Theorem C48_migration_third_version_refuted : exists peb d d', recorded d 9 /\ snd (open_db peb d 9) = Ok tt /\ crashed d (migrate peb d 13) d' /\
  snd (open_db peb d' 9) = Err EOther /\ snd (open_db peb d' 13) = Err EOther /\ snd (open_db peb d' 1) = Ok tt.
Proof.
  exists (fun _ w => Some w), (Disk true (Some (dec 9)) (Some 9%N) []), (Disk true (Some (dec 1)) (Some 13%N) []).
  split; [exists (dec 9); split; [reflexivity|exists 0; reflexivity]|]. split; [reflexivity|]. split; [|repeat split; reflexivity]. right. right. right. now left.
Qed.
Print Assumptions C48_migration_third_version_refuted.

Example C48_case : let peb := fun (_ : option N) w => Some w in let d := Disk false None None [] in
  let d1 := after d (open_db peb d 13) in let d2 := after d1 (migrate peb d1 16) in
  snd (open_db peb d 13) = Ok tt /\ d_file d1 = Some (str "13") /\ snd (open_db peb d1 16) = Err EOther /\ snd (open_db peb d1 13) = Ok tt /\
  snd (migrate peb d1 16) = Ok tt /\ snd (open_db peb d2 16) = Ok tt /\ snd (open_db peb d2 13) = Err EOther /\ pebble_format_version d2 = Ok 16%N /\
  snd (open_db peb (set_file d2 (str "0016")) 16) = Ok tt /\ snd (open_db peb (set_file d2 (str "x16")) 16) = Err EOther.
Proof. vm_compute. repeat split; reflexivity. Qed.

(** C61. After a successful Open the database has the supported data version. *)
Theorem C61_open_marks : forall peb d v, kv_ok (d_kv d) -> snd (open_db peb d v) = Ok tt ->
  version (d_kv (after d (open_db peb d v))) = Z.of_N data_version.
Proof. exact open_marks. Qed.
Print Assumptions C61_open_marks.

(** C61. At every moment of Open, whatever the outcome, all pairs are as before, except the data version key if it held no version. *)
Theorem C61_pairs_kept : forall peb d v k, kv_ok (d_kv d) -> k <> data_version_key \/ version (d_kv d) <> 0%Z ->
  forall d', crashed d (open_db peb d v) d' -> kv_get (d_kv d') k = kv_get (d_kv d) k.
Proof. exact open_pairs. Qed.
Print Assumptions C61_pairs_kept.

(** C61 is false for a data version that is not a number: Open succeeds and replaces it. *)
Theorem C61_unreadable_version_refuted : exists peb d, kv_get (d_kv d) data_version_key = Some (str "v2") /\ snd (open_db peb d 13) = Ok tt /\
  kv_get (d_kv (after d (open_db peb d 13))) data_version_key = Some (str "1").
Proof. exists (fun _ w => Some w), (Disk true (Some (dec 13)) (Some 13%N) [(data_version_key, str "v2")]). vm_compute. repeat split; reflexivity. Qed.
Print Assumptions C61_unreadable_version_refuted.

Example C61_case : let peb := fun (_ : option N) w => Some w in let d s := Disk true (Some (dec 13)) (Some 13%N) [(data_version_key, s)] in
  snd (open_db peb (d (str "2")) 13) = Err EOther /\ snd (open_db peb (d (str "-1")) 13) = Err EOther /\ snd (open_db peb (d (str "99999999999")) 13) = Err EOther /\
  snd (open_db peb (d (str "+01")) 13) = Ok tt.
Proof. vm_compute. repeat split; reflexivity. Qed.

(** C62. Open never changes what a table with an id other than 0 holds, and no user key is a key of such a table. *)
Theorem C62_open_keeps_tables_partial : forall (T : Type) peb d v (sc : schema T) m d', kv_ok (d_kv d) -> s_id sc <> x00 ->
  Rep sc (d_kv d) m -> crashed d (open_db peb d v) d' -> Rep sc (d_kv d') m.
Proof. exact @open_tables. Qed.
Print Assumptions C62_open_keeps_tables_partial.

Theorem C62_user_keys_partial : forall (T : Type) (sc : schema T) k, s_id sc <> x00 -> ~ in_table sc (new_user_key k).
Proof. exact @user_key_outside. Qed.
Print Assumptions C62_user_keys_partial.

(** C62 is false for table id 0: after Open it always holds a row that nobody inserted. *)
Theorem C62_table_zero_refuted : forall (T : Type) peb d v (sc : schema T), kv_ok (d_kv d) -> s_id sc = x00 -> snd (open_db peb d v) = Ok tt ->
  forall m, Rep sc (d_kv (after d (open_db peb d v))) m -> m (str "__bond_db_data_version__") <> None.
Proof. exact @table_zero. Qed.
Print Assumptions C62_table_zero_refuted.

Example C62_case : Rep (schema_of accts) (d_kv (Disk false None None [])) empty_map /\ s_id (schema_of accts) <> x00 /\
  snd (open_db (fun _ w => Some w) (Disk false None None []) 13) = Ok tt.
Proof. split; [apply Rep_empty|]. split; [discriminate|reflexivity]. Qed.
