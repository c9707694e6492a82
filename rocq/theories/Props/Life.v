(** Property C78: a database from its first Open to the last. *)

From Coq Require Import List NArith ZArith Bool Arith.
From Verif.Model Require Import Bytes Go Keys Pebble Index Table Scan Query ReIndex Backup Version.
From Verif.Spec Require Import KeySpec StoreSpec TableSpec HistSpec ScanSpec QuerySpec VersionSpec SystemSpec LifeSpec.
From Verif.Proofs Require Import TableBugs ScanBugs QueryBugs SystemWitness LifeFacts LifeWitness.
Import ListNotations.

(** C78. For all sequences of processes on a new directory. Each opens the database (or dies in Open at any step), declares the tables with the indexes they have or some of them,
    makes any calls of C72, and then closes the database, whose OnClose callbacks make further calls, or is killed, perhaps losing calls that were not synced, perhaps
    in the middle of an AddIndex; in between the format version may be migrated, completely or not. Every answer in every process is right for what the processes
    before it left: nothing but the calls lost is missing, an open batch is gone, and an interrupted AddIndex has changed nothing that can be seen.
    Partial: a process that declares an index which an earlier one did not declare must do so by AddIndex with reindexing. *)
Theorem C78_life_partial : forall (I : Type) (eq_dec : forall i j : I, {i = j} + {i <> j}) (Ty Fl : I -> Type) peb fuel (tb : forall i, table (Ty i) (Fl i)) d l,
  (forall i, good_table (tb i)) -> (forall i j, t_id (tb i) = t_id (tb j) -> i = j) -> (forall i, t_id (tb i) <> x00) -> d_kv d = [] ->
  life_right eq_dec Ty Fl fuel tb (empty Ty) (run_life eq_dec Ty Fl peb fuel d l).
Proof. exact @life_new. Qed.
Print Assumptions C78_life_partial.

(** C78, from any directory that holds the content. *)
Theorem C78_life_from_partial : forall (I : Type) (eq_dec : forall i j : I, {i = j} + {i <> j}) (Ty Fl : I -> Type) peb fuel (tb : forall i, table (Ty i) (Fl i)) d c l,
  (forall i, good_table (tb i)) -> (forall i j, t_id (tb i) = t_id (tb j) -> i = j) -> (forall i, t_id (tb i) <> x00) ->
  kv_ok (d_kv d) -> (forall i, Rep (schema_of (tb i)) (d_kv d) (c_rows Ty c i)) ->
  (forall k, (forall i rest, k <> t_id (tb i) :: rest) -> kv_get (d_kv d) k = c_raw Ty c k) ->
  life_right eq_dec Ty Fl fuel tb c (run_life eq_dec Ty Fl peb fuel d l).
Proof. exact @life_from. Qed.
Print Assumptions C78_life_from_partial.

(** C78. If no process dies in Open or during a migration, each asks for the version chosen last, and none writes the key of the data version, then every Open succeeds,
    however the processes before it ended. *)
Theorem C78_opens_partial : forall (I : Type) (eq_dec : forall i j : I, {i = j} + {i <> j}) (Ty Fl : I -> Type) peb fuel (tb : forall i, table (Ty i) (Fl i)) d l,
  (forall i, good_table (tb i)) -> (forall i j, t_id (tb i) = t_id (tb j) -> i = j) -> (forall i, t_id (tb i) <> x00) -> d_kv d = [] -> d_file d = None ->
  orderly_life eq_dec Ty Fl peb fuel tb (empty Ty) None (run_life eq_dec Ty Fl peb fuel d l) -> all_opened Ty Fl (run_life eq_dec Ty Fl peb fuel d l).
Proof. exact @life_new_opens. Qed.
Print Assumptions C78_opens_partial.

(** Five processes: a write that is lost, an open batch that is lost, an AddIndex that is interrupted, a migration, an index that is dropped, one that is added, and a callback that writes. *)
Example C78_case : map (option_map (map snd)) (map snd (run_life bool_dec row2 flt2 opens_any 9 fresh sessions)) = map (option_map (map snd)) session_answers /\
  orderly_life bool_dec row2 flt2 opens_any 9 (with2 [Witness.acct_by_kind; Witness.acct_by_score]) (empty row2) None (combine sessions session_answers) /\
  (forall i, good_table (with2 [Witness.acct_by_kind; Witness.acct_by_score] i)) /\ (forall i j, t_id (with2 [Witness.acct_by_kind; Witness.acct_by_score] i) = t_id (with2 [Witness.acct_by_kind; Witness.acct_by_score] j) -> i = j) /\
  (forall i, t_id (with2 [Witness.acct_by_kind; Witness.acct_by_score] i) <> x00).
Proof. exact sessions_case. Qed.

(** C78, the rest of the claim is false: if one process does not declare an index, a later one that declares it again by NewTable gets wrong answers from it.
    A row that exists is missing ... *)
Theorem C78_forgotten_index_refuted : exists full less, declared row2 flt2 full less no_init /\
  said (three full full full (CInsert [a1]) (CInsert [a3])) = [Some [AWrite row2 (Ok tt)]; Some [AWrite row2 (Ok tt)]; Some [ABool row2 true; ARows row2 true (Ok [a3; a1])]] /\
  said (three full less full (CInsert [a1]) (CInsert [a3])) = [Some [AWrite row2 (Ok tt)]; Some [AWrite row2 (Ok tt)]; Some [ABool row2 true; ARows row2 true (Ok [a1])]].
Proof. exact forgotten. Qed.
Print Assumptions C78_forgotten_index_refuted.

(** ... and if the row was deleted, every query that meets its entry fails. *)
Theorem C78_forgotten_delete_refuted : exists full less, declared row2 flt2 full less no_init /\
  said (three full full full (CInsert [a1; a3]) (CDelete [a3])) = [Some [AWrite row2 (Ok tt)]; Some [AWrite row2 (Ok tt)]; Some [ABool row2 false; ARows row2 true (Ok [a1])]] /\
  said (three full less full (CInsert [a1; a3]) (CDelete [a3])) = [Some [AWrite row2 (Ok tt)]; Some [AWrite row2 (Ok tt)]; Some [ABool row2 false; ARows row2 true (Err ENotFound)]].
Proof. exact forgotten_delete. Qed.
Print Assumptions C78_forgotten_delete_refuted.

(** C78: a process that dies inside its first Open can leave a directory that no process opens. *)
Theorem C78_early_death_refuted : exists n, forall w tb init ops e,
  map snd (run_life bool_dec row2 flt2 opens_any 9 fresh [SStop row2 flt2 13 n; SRun row2 flt2 w tb init ops e]) = [None; None].
Proof. exact never_opened. Qed.
Print Assumptions C78_early_death_refuted.
