(** Tables that are moved: a case, a filter that does not know the restored rows, rows that were there before. *)

From Coq Require Import List NArith Lia Bool Arith Strings.String Strings.Byte.
From Verif.Model Require Import Bytes Go Keys Pebble Index Table ReIndex Backup.
From Verif.Spec Require Import KeySpec StoreSpec TableSpec HistSpec BackupSpec MovedSpec.
From Verif.Proofs Require Import BytesFacts PebbleFacts TableFacts WriteFacts HistFacts TableProps Witness TableBugs ScanBugs ReIndexBugs BackupBugs.
Import ListNotations.
Local Open Scope list_scope.

Definition monday : bytes := str "/var/backup/monday".

(** The accounts, and during the dump a fourth account. *)
Definition four_db : kv := r_db (fst (insert accts (demo_env 2) abc_db tt None [Acct 8 10 1 true])).

Lemma abc_movable wi : movable abc_db (fun _ => four_db) monday [x07] [x07] wi.
Proof.
  constructor.
  - exact (cons_ok _ _ _ _ abc_stored).
  - apply bond_keys_check. vm_compute. reflexivity.
  - intros _. split; [apply kv_ok_check|apply bond_keys_check]; vm_compute; reflexivity.
  - constructor; [intros []|constructor].
  - intros x H. exact H.
  - intros _ n t i rest v E H. exists rest.
    assert (X : forallb (fun e => match kv_get four_db (fst e) with Some _ => true | None => false end) abc_db = true) by (vm_compute; reflexivity).
    rewrite forallb_forall in X. assert (J : In (t :: i :: rest, v) abc_db).
    { clear X. revert H. generalize abc_db as s. induction s as [|[x w] s IH]; cbn [kv_get]; intros H; [discriminate|].
      destruct (beqb (t :: i :: rest) x) eqn:Q; [apply beqb_eq in Q; injection H as ->; subst; now left|right; auto]. }
    specialize (X _ J). cbn [fst] in X. destruct (kv_get four_db (t :: i :: rest)) as [v'|]; [now exists v'|discriminate].
  - intros r [<-|[]]. vm_compute. reflexivity.
  - right. vm_compute. reflexivity.
  - intros r d _ H _. exact H.
Qed.

(** Another table in the target. *)
Definition target : kv := [row x01 x01 x0a; row x09 x02 x0b].
Lemma target_free i rest : kv_get target (t_id accts :: i :: rest) = None.
Proof. reflexivity. Qed.

(** ** A filter that was made before the restore *)

Definition abc_dump := fst (dump (fun _ => false) abc_db (fun _ => abc_db) false true [x07]).

Lemma seen_empty : consistent seen_accts [] [] empty_map.
Proof.
  constructor; [constructor| |intros f rest v _ E; discriminate].
  constructor; [discriminate|reflexivity|discriminate|]. intros ix rest v I. split; [discriminate|]. intros (_ & r & E & _). discriminate.
Qed.

Lemma seen_source : consistent seen_accts abc_db (map fst abc_db) (puts asc empty_map abc).
Proof.
  destruct abc_stored as [K R _]. constructor; [exact K|exact R|]. intros f rest v [= <-] E. cbn [f_may seen].
  apply existsb_exists. exists (t_id seen_accts :: x00 :: rest). split; [|apply beqb_refl]. revert E. generalize abc_db as s.
  induction s as [|[x w] s IH]; cbn [kv_get map fst]; intros H; [discriminate|]. destruct (beqb _ x) eqn:Q; [apply beqb_eq in Q; now left|right; auto].
Qed.

Lemma unknown_rows : restore monday abc_dump [] [x07] true = (abc_db, Ok tt) /\
  get_point seen_accts abc_db (map fst abc_db) None (Acct 1 0 0 false) = Ok (Acct 1 10 6 true) /\
  get_point seen_accts abc_db [] None (Acct 1 0 0 false) = Err ENotFound /\
  (let w := insert seen_accts (demo_env 2) abc_db [] None [Acct 1 12 9 true] in snd w = Ok tt /\ forall m, ~ Rep (schema_of seen_accts) (r_db (fst w)) m).
Proof.
  split; [vm_compute; reflexivity|]. split; [vm_compute; reflexivity|]. split; [vm_compute; reflexivity|]. split; [vm_compute; reflexivity|].
  intros m. change (schema_of seen_accts) with asc. set (d := r_db _).
  eapply (stale_other d (Acct 1 10 6 true) (Acct 1 12 9 true)); vm_compute; reflexivity.
Qed.

(** ** Rows that were there before *)

Definition own_1 : acct := Acct 1 12 9 true.
Definition own_db : kv := stored accts tt [own_1].

Lemma own_stored : consistent accts own_db tt (puts asc empty_map [own_1]).
Proof.
  apply accts_stored; [repeat constructor|repeat constructor; cbn; intuition discriminate|]. intros r [<-|[]]. vm_compute. discriminate.
Qed.

Lemma mixed_rows : exists db', restore monday abc_dump own_db [x07] true = (db', Ok tt) /\ forall m, ~ Rep asc db' m.
Proof.
  eexists. split; [vm_compute; reflexivity|]. intros m. eapply (stale_other _ own_1 (Acct 1 10 6 true)); vm_compute; reflexivity.
Qed.

Lemma filter_unaware : exists (tb : table acct (list bytes)) src flS m fl d (r : acct), good_table tb /\ consistent tb src flS m /\ consistent tb [] fl empty_map /\
  dump (fun _ => false) src (fun _ => src) false true [t_id tb] = (d, Ok tt) /\ restore monday d [] [t_id tb] true = (src, Ok tt) /\
  get_point tb src flS None r = Ok (Acct 1 10 6 true) /\ get_point tb src fl None r = Err ENotFound /\
  exists w, insert tb (demo_env 2) src fl None [Acct 1 12 9 true] = (w, Ok tt) /\ forall m', ~ Rep (schema_of tb) (r_db w) m'.
Proof.
  exists seen_accts, abc_db, (map fst abc_db), (puts asc empty_map abc), [], abc_dump, (Acct 1 0 0 false). destruct unknown_rows as (A & B & C & D & E).
  split; [exact seen_accts_good|]. split; [exact seen_source|]. split; [exact seen_empty|]. split; [vm_compute; reflexivity|]. split; [exact A|]. split; [exact B|]. split; [exact C|].
  exists (fst (insert seen_accts (demo_env 2) abc_db [] None [Acct 1 12 9 true])). split; [|exact E]. rewrite <- D. apply surjective_pairing.
Qed.

Lemma over_rows : exists (tb : table acct unit) src own m mo d db', good_table tb /\ consistent tb src tt m /\ consistent tb own tt mo /\
  dump (fun _ => false) src (fun _ => src) false true [t_id tb] = (d, Ok tt) /\ restore monday d own [t_id tb] true = (db', Ok tt) /\ forall m', ~ Rep (schema_of tb) db' m'.
Proof.
  destruct mixed_rows as (db' & A & B). exists accts, abc_db, own_db, (puts asc empty_map abc), (puts asc empty_map [own_1]), abc_dump, db'.
  split; [exact accts_good|]. split; [exact abc_stored|]. split; [exact own_stored|]. split; [vm_compute; reflexivity|]. split; [exact A|exact B].
Qed.
