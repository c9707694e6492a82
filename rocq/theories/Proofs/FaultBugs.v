(** Reads that fail without an error: concrete cases, and material for the examples. *)

From Coq Require Import String List NArith Lia Bool Arith.
From Verif.Model Require Import Bytes Go Keys Pebble Index Table Scan Query ReIndex Backup LiveScan Faults.
From Verif.Spec Require Import KeySpec StoreSpec TableSpec HistSpec ScanSpec QuerySpec ReIndexSpec FaultSpec.
From Verif.Proofs Require Import BytesFacts KeysFacts PebbleFacts TableFacts Witness TableProps TableBugs ScanBugs QueryBugs LiveBugs PagingBugs ReIndexFacts ReIndexBugs FaultScan FaultWrite FaultTop.
Import ListNotations.

(** the reads with these numbers fail, every iterator can be made *)
Definition bad (ns : list nat) : faults := Faults (fun _ => false) (fun n => existsb (Nat.eqb n) ns).
(** the first iterator cannot be made *)
Definition unmade : faults := Faults (fun n => Nat.eqb n 0) (fun _ => false).
(** no read works *)
Definition blind : faults := Faults (fun _ => false) (fun _ => true).

(** ** Scans *)

(** a scan of all rows by primary key (rows 1, 2 and 3): read 2 is the Next after row 1 *)
Lemma ids_cut : fscan_index (bad [2]) accts env1 5 abc_db tt primary_index (q_sel all_ids) [] false None = ([a1], Err EOther) /\
  fscan_index (bad []) accts env1 5 abc_db tt primary_index (q_sel all_ids) [] false None = ([a1; a2; a3], Ok tt) /\
  fscan_index (bad [2]) accts env1 5 abc_db tt primary_index (q_sel all_ids) [] true None = ([a3], Err EOther).
Proof. repeat split; vm_compute; reflexivity. Qed.

(** the same through an index: the rows are read with Get when the index has been read *)
Lemma kind_cut : fscan_index (bad [5]) accts env1 5 abc_db tt acct_by_kind kind10 [] false None = ([], Err ENotFound) /\
  fscan_index (bad [1]) accts env1 5 abc_db tt acct_by_kind kind10 [] false None = ([], Err EOther) /\
  fscan_index (bad []) accts env1 5 abc_db tt acct_by_kind kind10 [] false None = ([a1; a3], Ok tt).
Proof. repeat split; vm_compute; reflexivity. Qed.

(** the point of row 1 is not read *)
Lemma points_lost : fscan_index (bad [2]) accts env1 9 abc_db tt primary_index (SPoints [a1; a2; a3]) [] false None = ([a2; a3], Ok tt) /\
  fscan_index (bad []) accts env1 9 abc_db tt primary_index (SPoints [a1; a2; a3]) [] false None = ([a1; a2; a3], Ok tt).
Proof. split; vm_compute; reflexivity. Qed.

Lemma id_points_exact m : exact_selector accts primary_index m (SPoints [a1; a2; a3]).
Proof.
  split; [discriminate|]. change (Byte.eqb (ix_id (@primary_index acct)) x00) with true. cbv iota. intros p [<-|[<-|[<-|[]]]]; (apply acct_end; [split; vm_compute; reflexivity|vm_compute; discriminate]).
Qed.

Lemma unmade_scan : fscan_index unmade accts env1 5 abc_db tt primary_index (q_sel all_ids) [] false None = ([], Ok tt).
Proof. vm_compute. reflexivity. Qed.

(** ** Point reads *)

Lemma one_lost : fget_one blind accts abc_db tt None a2 = Err ENotFound /\ fexist blind accts abc_db tt None a2 = false /\
  fget_one (bad []) accts abc_db tt None a2 = Ok a2 /\ fexist (bad []) accts abc_db tt None a2 = true.
Proof. repeat split; vm_compute; reflexivity. Qed.

Definition nobody : acct := t_nil accts.

Lemma points_nil : fget_points (bad [2]) accts env1 abc_db tt None [a1; a2; a3] = Ok [a1; nobody; a3] /\
  fget_points (bad []) accts env1 abc_db tt None [a1; a2; a3] = Ok [a1; a2; a3].
Proof. split; vm_compute; reflexivity. Qed.

(** ** Writes *)

(** row 3 (kind 10) is inserted again, as kind 12 *)
Definition a3_12 : acct := Acct 3 12 5 true.
Definition over_db : kv := r_db (fst (finsert (bad [0]) accts env1 abc_db tt None [a3_12])).

Lemma insert_over : snd (finsert (bad [0]) accts env1 abc_db tt None [a3_12]) = Ok tt /\
  get_one accts over_db tt None a3 = Ok a3_12 /\
  scan_index accts env1 5 over_db tt acct_by_kind kind10 [] false NoBatch = ([a1; a3_12], Ok tt) /\
  snd (insert accts env1 abc_db tt None [a3_12]) = Err (EExists (after_split (data_key accts a3))).
Proof. repeat split; vm_compute; reflexivity. Qed.

(** Upsert that should keep the stored row *)
Definition keep (old new : acct) : acct := old.
Lemma upsert_over : let w := fupsert (bad [0]) accts env1 keep abc_db tt None [a3_12] in
  snd w = Ok tt /\ get_one accts (r_db (fst w)) tt None a3 = Ok a3_12 /\
  get_one accts (r_db (fst (upsert accts env1 keep abc_db tt None [a3_12]))) tt None a3 = Ok a3 /\
  scan_index accts env1 5 (r_db (fst w)) tt acct_by_kind kind10 [] false NoBatch = ([a1; a3_12], Ok tt).
Proof. cbv zeta. repeat split; vm_compute; reflexivity. Qed.

Lemma update_cut : fupdate (bad [1]) accts env1 abc_db tt None [a1; a3_12] = (WRes abc_db tt None, Err (EMissing (after_split (data_key accts a3)))) /\
  snd (fupdate (bad []) accts env1 abc_db tt None [a1; a3_12]) = Ok tt.
Proof. split; vm_compute; reflexivity. Qed.

(** new rows, with every read failing *)
Definition fresh_rows : list acct := [Acct 8 10 1 true; Acct 7 11 2 false].
Lemma insert_blind : snd (insert accts env1 abc_db tt None fresh_rows) = Ok tt /\ snd (finsert blind accts env1 abc_db tt None fresh_rows) = Ok tt.
Proof. split; vm_compute; reflexivity. Qed.

Lemma fresh_absent : forall r, In r fresh_rows -> kv_get abc_db (data_key accts r) = None.
Proof. intros r [<-|[<-|[]]]; vm_compute; reflexivity. Qed.

(** ** ReIndex *)

(** an index by flag is built; read 2 is the Next after row 2 *)
Definition by_flag : index acct := acct_by_flag x05.
Definition flagged : table acct unit := more_accts x05.
Definition cut_db : kv := fst (fre_index (bad [2]) re_quiet accts abc_db [by_flag]).
Definition on_rows : selector acct := SRange (Acct 0 0 0 false) (Acct 99 0 0 true).

Lemma abc_rows : Rep (schema0 accts) abc_db (puts asc empty_map abc).
Proof.
  pose proof (cons_rep _ _ _ _ abc_stored) as [R1 R2 R3 R4]. constructor; auto; [|intros ix rest v []]. intros pk r H. destruct (R1 pk r H) as (A & _ & C). split; auto. split; auto. intros ix [].
Qed.

Lemma reindex_lost : snd (fre_index (bad [2]) re_quiet accts abc_db [by_flag]) = Ok tt /\
  fst (scan_index flagged env1 5 cut_db tt by_flag on_rows [] false NoBatch) = [a2; a1] /\
  fst (scan_index flagged env1 5 (fst (fre_index (bad []) re_quiet accts abc_db [by_flag])) tt by_flag on_rows [] false NoBatch) = [a2; a1; a3].
Proof. repeat split; vm_compute; reflexivity. Qed.

(** ** Dump *)

Lemma dump_lost : snd (fdump (fun _ => bad [1]) (fun _ => false) abc_db false [x07]) = Ok tt /\
  fst (fdump (fun _ => bad [1]) (fun _ => false) abc_db false [x07]) = fst (fdump (fun _ => bad []) (fun _ => false) (firstn 1 abc_db) false [x07]) /\
  fst (fdump (fun _ => bad [1]) (fun _ => false) abc_db false [x07]) <> fst (fdump (fun _ => bad []) (fun _ => false) abc_db false [x07]).
Proof. split; [vm_compute; reflexivity|]. split; [vm_compute; reflexivity|]. vm_compute. discriminate. Qed.
