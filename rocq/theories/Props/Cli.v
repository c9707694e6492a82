(** C77: bond-cli. *)

From Coq Require Import Strings.String Strings.Byte List NArith ZArith Bool.
From Verif.Model Require Import Bytes Go Keys Pebble Backup Version Inspect Remote Cli.
From Verif.Spec Require Import RemoteSpec CliSpec BackupSpec VersionSpec.
From Verif.Proofs Require Import PebbleFacts InspectBugs BackupBugs CliFacts CliWitness.
Import ListNotations.
Local Open Scope list_scope.

(** C77. With the URL of a server and headers of the form name=value, each command prints what the inspector at that URL answers, asked with these headers and with the
    request that the flags describe; anything else is an error and prints nothing. Without a server the function given to NewInspectCLI decides. Missing: headers with a value that
    contains =, the local path that the usage shows, and the exit status, see below. *)
Theorem C77_inspect_partial : forall clean connect init url headers c,
  (web url -> forall given, Forall2 header_text headers given ->
     exists sent, last_wins given sent /\ prints clean (connect url sent) c (cli_inspect clean connect init url headers c)) /\
  (web url -> forall s, In s headers -> (forall h, ~ header_text s h) -> failed (cli_inspect clean connect init url headers c)) /\
  (~ web url -> match init with
                | Some f => match f url with Some a => prints clean a c (cli_inspect clean connect init url headers c) | None => failed (cli_inspect clean connect init url headers c) end
                | None => failed (cli_inspect clean connect init url headers c)
                end).
Proof. exact cli_ok. Qed.
Print Assumptions C77_inspect_partial.

Example C77_inspect_case : web far /\ (exists l, Forall2 header_text given l) /\ (exists q, asks flags q) /\
  run_cli given CmdTables = Outcome (Some (JArr [JStr (txt "acct")])) false 0 /\
  run_cli given (CmdIndexes (txt "acct")) = Outcome (Some (JArr [JStr (txt "primary"); JStr (txt "by_kind"); JStr (txt "by_score")])) false 0 /\
  run_cli given (CmdQuery (txt "acct") flags) =
    Outcome (Some (JArr [JObj [(txt "ID", JNum 3 0); (txt "Kind", JNum 10 0); (txt "Score", JNum 5 0); (txt "On", JBool true)]])) false 0 /\
  failed (run_cli given (CmdFields (txt "accounts"))) /\
  failed (run_cli given (CmdQuery (txt "acct") (QFlags None None (Some (Some (JArr []))) None None))) /\
  failed (run_cli [txt "Accept"] CmdTables).
Proof. exact cli_case. Qed.

(** C77. dump of some tables followed by restore of some of these into a database that can be opened: both succeed, the rows (and index entries, if asked for) of the tables are those of
    the first database, over what the second had; nothing else changes in either, but for the data version. Missing: as for C46, a table whose number starts with that of a wanted one must
    be wanted too, and the name of the directory must not look like that of a table. *)
Theorem C77_backup_partial : forall peb v full d1 d2 root ids tables want_ids want wiD wiR,
  kv_ok (d_kv d1) -> kv_ok (d_kv d2) -> bond_keys (d_kv d1) ->
  snd (open_db peb d1 v) = Ok tt -> snd (open_db peb d2 v) = Ok tt ->
  ids_name ids tables -> ids_name want_ids want -> NoDup tables -> incl want tables -> (wiR = true -> wiD = true) ->
  (forall r, In r want -> contains (table_dir r) root = false) -> (wiR = true \/ contains (str "index") root = false) ->
  (forall r d, In r want -> In d tables -> has_prefix (dec (b2n r)) (dec (b2n d)) = true -> In d want) ->
  exists d1' t o1 d2' o2, cli_dump peb v full d1 false wiD ids = (d1', t, o1) /\ oc_error o1 = false /\
    cli_restore peb v d2 root t wiR want_ids = (d2', o2) /\ oc_error o2 = false /\
    (forall k, k <> data_version_key -> kv_get (d_kv d1') k = kv_get (d_kv d1) k) /\
    (forall k, k <> data_version_key -> wanted want wiR k -> kv_get (d_kv d2') k = match kv_get (d_kv d1) k with Some w => Some w | None => kv_get (d_kv d2) k end) /\
    (forall k, k <> data_version_key -> ~ wanted want wiR k -> kv_get (d_kv d2') k = kv_get (d_kv d2) k).
Proof. exact backup_ok. Qed.
Print Assumptions C77_backup_partial.

Example C77_backup_case : exists t o2,
  kv_ok (d_kv disk1) /\ bond_keys (d_kv disk1) /\ snd (open_db any_peb disk1 13) = Ok tt /\ snd (open_db any_peb disk0 13) = Ok tt /\
  ids_name [1; 2; 25]%Z [x01; x02; x19] /\ ids_name [1; 25]%Z [x01; x19] /\
  snd (cli_dump any_peb 13 (fun _ => false) disk1 false true [1; 2; 25]%Z) = Outcome None false 0 /\
  snd (fst (cli_dump any_peb 13 (fun _ => false) disk1 false true [1; 2; 25]%Z)) = t /\
  cli_restore any_peb 13 disk0 (str "/tmp/d") t true [1; 25]%Z =
    (Disk true (Some (dec 13)) (Some 13%N) ((data_version_key, dec 1) :: filter (fun e => negb (has_prefix [x02] (fst e))) some_tables), o2) /\ oc_error o2 = false.
Proof. exact backup_case. Qed.

(** C77 is false for a header whose value contains =, as most credentials in base64 do: every command fails. *)
Theorem C77_equals_refuted : forall clean connect init url headers c k v w, web url -> In (k ++ "="%byte :: v ++ "="%byte :: w) headers ->
  failed (cli_inspect clean connect init url headers c).
Proof. exact equals_refused. Qed.
Print Assumptions C77_equals_refuted.

(** C77 is false for a directory, though the usage of bond-cli shows --url .bond: there every command fails. *)
Theorem C77_local_refuted : forall clean connect url headers c, ~ web url -> failed (cli_inspect clean connect None url headers c).
Proof. exact local_refused. Qed.
Print Assumptions C77_local_refuted.

(** C77: the exit status does not tell a failure. *)
Theorem C77_status_refuted : exists clean connect url headers c, failed (cli_inspect clean connect None url headers c) /\ oc_status (cli_inspect clean connect None url headers c) = 0%N.
Proof. exists id_clean, dial, far, [txt "Accept"], CmdTables. split; [split|]; vm_compute; reflexivity. Qed.
Print Assumptions C77_status_refuted.

(** C77 is false for table ids over 255: they name another table, here 257 dumps table 1. *)
Theorem C77_table_id_refuted : exists t o, cli_dump any_peb 13 (fun _ => false) disk1 false false [257]%Z = (after disk1 (open_db any_peb disk1 13), t, o) /\ oc_error o = false /\
  tree_get t [table_dir x01] = Some NDir.
Proof. exact id_wraps. Qed.
Print Assumptions C77_table_id_refuted.

(** C77 is false for a database that is not there (a misspelt path): dump makes an empty one and succeeds, with an empty dump. *)
Theorem C77_no_database_refuted : exists d t o, d_bond disk0 = false /\ cli_dump any_peb 13 (fun _ => false) disk0 false true [1; 2]%Z = (d, t, o) /\ oc_error o = false /\ d_bond d = true /\
  tree_get t [table_dir x01] = Some NDir /\ tree_get t [table_dir x02] = Some NDir /\ (forall p s, tree_get t p = Some (NSst s) -> s = []).
Proof. exact nothing_dumped. Qed.
Print Assumptions C77_no_database_refuted.

(** C77 is false for a database with another format version than the default: the command has no way to name it, and fails. *)
Theorem C77_other_format_refuted : forall peb v w full d exists_dir wi ids, recorded d w -> w <> v -> (w <= max_u64)%N ->
  snd (fst (cli_dump peb v full d exists_dir wi ids)) = [] /\ oc_error (snd (cli_dump peb v full d exists_dir wi ids)) = true.
Proof. exact other_format. Qed.
Print Assumptions C77_other_format_refuted.
