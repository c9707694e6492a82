(** Concrete uses of bond-cli. *)

From Coq Require Import Strings.String Strings.Byte List NArith ZArith Lia Bool Arith.
From Verif.Model Require Import Bytes Go Keys Pebble Backup Version Inspect Remote Cli.
From Verif.Spec Require Import RemoteSpec CliSpec BackupSpec VersionSpec.
From Verif.Proofs Require Import BytesFacts PebbleFacts TableBugs InspectBugs RemoteFacts RemoteWitness BackupBugs VersionFacts CliFacts.
Import ListNotations.
Local Open Scope list_scope.

(** the server has the three accounts; for the client only the path of the URL matters *)
Definition far : bytes := txt "http://h/%62ond/".
Definition dial (url : bytes) (h : list (bytes * bytes)) : api := client id_clean texts (inspector plain 5 abc_db) (skipn 8 url) h.
Definition run_cli (headers : list bytes) (c : command) : outcome := cli_inspect id_clean dial None far headers c.

Definition given : list bytes := [txt "Accept=text/html"; txt "X-Who="; txt "Accept=application/json"].
Definition flags : query_flags :=
  QFlags (Some (txt "by_score")) (Some (Some (JObj [(txt "Score", JInt 5)]))) (Some (Some (JObj [(txt "On", JBool true); (txt "Kind", JNum 10 0)]))) None None.

Lemma far_web : web far.
Proof. eexists. left. reflexivity. Qed.

Lemma given_texts : Forall2 header_text given [(txt "Accept", txt "text/html"); (txt "X-Who", []); (txt "Accept", txt "application/json")].
Proof. repeat constructor; cbn; intro H; repeat (destruct H as [H|H]; [discriminate H|]); exact H. Qed.

Lemma flags_ask : asks flags (Request (txt "by_score") [(txt "Score", Some (flt 5 0))] (Some [(txt "On", boolean true); (txt "Kind", flt 10 0)]) 30 None).
Proof.
  split; [reflexivity|]. split; [reflexivity|]. split; [|split].
  - exists (Some [(txt "Score", Some (flt 5 0))]). split; [|reflexivity]. eexists. split; [reflexivity|]. repeat constructor.
  - eexists. split; [reflexivity|]. repeat constructor.
  - left. reflexivity.
Qed.

Lemma cli_case : web far /\ (exists l, Forall2 header_text given l) /\ (exists q, asks flags q) /\
  run_cli given CmdTables = Outcome (Some (JArr [JStr (txt "acct")])) false 0 /\
  run_cli given (CmdIndexes (txt "acct")) = Outcome (Some (JArr [JStr (txt "primary"); JStr (txt "by_kind"); JStr (txt "by_score")])) false 0 /\
  run_cli given (CmdQuery (txt "acct") flags) =
    Outcome (Some (JArr [JObj [(txt "ID", JNum 3 0); (txt "Kind", JNum 10 0); (txt "Score", JNum 5 0); (txt "On", JBool true)]])) false 0 /\
  failed (run_cli given (CmdFields (txt "accounts"))) /\
  failed (run_cli given (CmdQuery (txt "acct") (QFlags None None (Some (Some (JArr []))) None None))) /\
  failed (run_cli [txt "Accept"] CmdTables).
Proof.
  split; [exact far_web|]. split; [eexists; exact given_texts|]. split; [eexists; exact flags_ask|]. repeat split; vm_compute; reflexivity.
Qed.

(** a database of another program, and an empty directory *)
Definition any_peb (_ : option N) (w : N) : option N := Some w.
Definition disk1 : disk := Disk true (Some (dec 13)) (Some 13%N) some_tables.
Definition disk0 : disk := Disk false None None [].

Lemma backup_case : exists t o2,
  kv_ok (d_kv disk1) /\ bond_keys (d_kv disk1) /\ snd (open_db any_peb disk1 13) = Ok tt /\ snd (open_db any_peb disk0 13) = Ok tt /\
  ids_name [1; 2; 25]%Z [x01; x02; x19] /\ ids_name [1; 25]%Z [x01; x19] /\
  snd (cli_dump any_peb 13 (fun _ => false) disk1 false true [1; 2; 25]%Z) = Outcome None false 0 /\
  snd (fst (cli_dump any_peb 13 (fun _ => false) disk1 false true [1; 2; 25]%Z)) = t /\
  cli_restore any_peb 13 disk0 (str "/tmp/d") t true [1; 25]%Z =
    (Disk true (Some (dec 13)) (Some 13%N) ((data_version_key, dec 1) :: filter (fun e => negb (has_prefix [x02] (fst e))) some_tables), o2) /\ oc_error o2 = false.
Proof.
  do 2 eexists. split; [sorted|]. split; [keyed|]. split; [reflexivity|]. split; [reflexivity|]. split; [repeat constructor|]. split; [repeat constructor|].
  split; [vm_compute; reflexivity|]. split; [vm_compute; reflexivity|]. split; [vm_compute; reflexivity|]. reflexivity.
Qed.

(** ** What goes wrong *)

Lemma id_wraps : exists t o, cli_dump any_peb 13 (fun _ => false) disk1 false false [257]%Z = (after disk1 (open_db any_peb disk1 13), t, o) /\ oc_error o = false /\
  tree_get t [table_dir x01] = Some NDir.
Proof. do 2 eexists. split; [vm_compute; reflexivity|]. split; reflexivity. Qed.

Lemma nothing_dumped : exists d t o, d_bond disk0 = false /\ cli_dump any_peb 13 (fun _ => false) disk0 false true [1; 2]%Z = (d, t, o) /\ oc_error o = false /\ d_bond d = true /\
  tree_get t [table_dir x01] = Some NDir /\ tree_get t [table_dir x02] = Some NDir /\ (forall p s, tree_get t p = Some (NSst s) -> s = []).
Proof.
  do 3 eexists. split; [reflexivity|]. split; [vm_compute; reflexivity|]. split; [reflexivity|]. split; [reflexivity|]. split; [reflexivity|]. split; [reflexivity|].
  intros p s. cbn [tree_get]. repeat match goal with |- context [list_eq_dec ?f ?p ?q] => destruct (list_eq_dec f p q) end; congruence.
Qed.

Lemma other_format peb v w full d exists_dir wi ids : recorded d w -> w <> v -> (w <= max_u64)%N ->
  snd (fst (cli_dump peb v full d exists_dir wi ids)) = [] /\ oc_error (snd (cli_dump peb v full d exists_dir wi ids)) = true.
Proof.
  intros (s & F & R) N M. assert (P : parse_uint max_u64 s = PNum w) by (apply parse_uint_records; split; assumption).
  assert (E : snd (open_db peb d v) = Err EOther).
  { unfold open_db, make_dir. cbn [d_file]. rewrite F, P. destruct (w =? v)%N eqn:Q; [apply N.eqb_eq in Q; congruence|reflexivity]. }
  unfold cli_dump. rewrite E. split; reflexivity.
Qed.
