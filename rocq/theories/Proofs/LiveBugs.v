(** Concrete scans while rows are written. *)

From Coq Require Import List NArith ZArith Lia Bool Arith Sorting.Sorted.
From Verif.Model Require Import Bytes Go Keys Pebble Index Table Scan LiveScan Query.
From Verif.Spec Require Import KeySpec StoreSpec TableSpec HistSpec ScanSpec QuerySpec PagingSpec LiveScanSpec.
From Verif.Proofs Require Import BytesFacts TableFacts Witness TableBugs ScanBugs QueryProps QueryBugs ConcurBugs PagingBugs.
Import ListNotations.

Definition look_at (rows : list acct) : look unit := Look (stored accts tt rows) tt.

Ltac stands := apply accts_stored; [repeat constructor|repeat constructor; cbn; intuition discriminate|
  cbn [In]; intros r H; repeat (destruct H as [<-|H]; [vm_compute; discriminate|]); destruct H].

(** the row 3 gets another kind while the scan runs *)
Definition a3' := Acct 3 12 5 true.
Definition kind10 : selector acct := SPoint (Acct 0 10 9 true).

Lemma abc_at : consistent accts (lk_db (look_at [a1; a2; a3])) tt (puts asc empty_map [a1; a2; a3]).
Proof. stands. Qed.
Lemma moved_at : consistent accts (lk_db (look_at [a1; a2; a3'])) tt (puts asc empty_map [a1; a2; a3']).
Proof. stands. Qed.
Lemma gone_at : consistent accts (lk_db (look_at [a1; a2])) tt (puts asc empty_map [a1; a2]).
Proof. stands. Qed.

Lemma kind10_exact m : exact_selector accts acct_by_kind m kind10.
Proof. split; [split; vm_compute; reflexivity|vm_compute; discriminate]. Qed.

(** the moments of a scan: the iterator is made at moment 0, everything later sees moment 1 *)
Definition then_ (a b : list acct) (k : nat) : look unit := match k with O => look_at a | S _ => look_at b end.
Definition at_first (j : nat) (lo hi : bytes) : nat := j.
Definition at_last (n : nat) : nat := 1.

Definition scan10 (rows : list acct) (fuel : nat) : list acct * res unit :=
  live_scan accts env1 (then_ [a1; a2; a3] rows) at_first at_last fuel acct_by_kind kind10 [] false.

Lemma moved_scan fuel : 5 <= fuel -> scan10 [a1; a2; a3'] fuel = ([a1; a3'], Ok tt).
Proof. revert fuel. fuels 5. Qed.
Lemma gone_scan fuel : 5 <= fuel -> scan10 [a1; a2] fuel = ([], Err ENotFound).
Proof. revert fuel. fuels 5. Qed.
Lemma still_scan fuel : 5 <= fuel ->
  scan_index accts env1 fuel (lk_db (look_at [a1; a2; a3])) tt acct_by_kind kind10 [] false NoBatch = ([a1; a3], Ok tt) /\
  scan_index accts env1 fuel (lk_db (look_at [a1; a2; a3'])) tt acct_by_kind kind10 [] false NoBatch = ([a1], Ok tt) /\
  scan_index accts env1 fuel (lk_db (look_at [a1; a2])) tt acct_by_kind kind10 [] false NoBatch = ([a1], Ok tt).
Proof. intro H. repeat split; revert fuel H; fuels 5. Qed.

(** two kinds are scanned; row 2 is written when the first iterator has been made *)
Definition kinds : selector acct := SPoints [Acct 0 10 9 true; Acct 0 12 9 true].
Definition a2' := Acct 2 10 7 true.

Lemma kinds_exact m : exact_selector accts acct_by_kind m kinds.
Proof. split; [discriminate|]. intros p [<-|[<-|[]]]; (split; [split; vm_compute; reflexivity|vm_compute; discriminate]). Qed.

Lemma live_scan_case :
  (forall k, consistent accts (lk_db (then_ [a1; a2; a3] [a1; a2'; a3] k)) tt (match k with O => puts asc empty_map [a1; a2; a3] | S _ => puts asc empty_map [a1; a2'; a3] end)) /\
  (forall k, exact_selector accts acct_by_kind (match k with O => puts asc empty_map [a1; a2; a3] | S _ => puts asc empty_map [a1; a2'; a3] end) kinds) /\
  live_scan accts env1 (then_ [a1; a2; a3] [a1; a2'; a3]) at_first at_last 5 acct_by_kind kinds [] false = ([a1; a3], Ok tt) /\
  live_scan accts env1 (then_ [a1; a2; a3] [a1; a2'; a3]) at_first at_last 5 acct_by_kind (SPoints [Acct 0 12 9 true; Acct 0 10 9 true]) [] true =
    ([a3; a1], Ok tt).
Proof. split; [intros [|k]; stands|]. split; [intro k; apply kinds_exact|]. split; vm_compute; reflexivity. Qed.

(** row 3 is moved from kind 10 to kind 12 when kind 10 has been read *)
Definition twice_scan (fuel : nat) : list acct * res unit :=
  live_scan accts env1 (then_ [a1; a2; a3] [a1; a2; a3']) at_first at_last fuel acct_by_kind kinds [] false.
Lemma twice fuel : 5 <= fuel -> twice_scan fuel = ([a1; a3'; a3'], Ok tt) /\
  scan_index accts env1 fuel (lk_db (look_at [a1; a2; a3])) tt acct_by_kind kinds [] false NoBatch = ([a1; a3], Ok tt) /\
  scan_index accts env1 fuel (lk_db (look_at [a1; a2; a3'])) tt acct_by_kind kinds [] false NoBatch = ([a1; a3'], Ok tt).
Proof. intro H. repeat split; revert fuel H; fuels 5. Qed.

(** and the other way round: moved from kind 12 to kind 10, it is missed *)
Definition missed_scan (fuel : nat) : list acct * res unit :=
  live_scan accts env1 (then_ [a1; a2; a3'] [a1; a2; a3]) at_first at_last fuel acct_by_kind kinds [] false.
Lemma missed fuel : 5 <= fuel -> missed_scan fuel = ([a1], Ok tt).
Proof. revert fuel. fuels 5. Qed.
