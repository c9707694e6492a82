(** A day in the life of a database with two tables. *)

From Coq Require Import List NArith ZArith Lia Bool Sorting.Sorted Arith.
From Verif.Model Require Import Bytes Go Keys Pebble Index Table Scan Query ReIndex.
From Verif.Spec Require Import KeySpec StoreSpec TableSpec HistSpec ScanSpec QuerySpec ReIndexSpec SystemSpec.
From Verif.Proofs Require Import BytesFacts TableFacts HistFacts Witness TableBugs ScanProps ScanBugs QueryBugs ReIndexBugs ConcurBugs SystemFacts.
Import ListNotations.

(** [true]: the accounts; [false]: the numbers. *)
Definition row2 (b : bool) : Type := if b then acct else Z.
Definition flt2 (_ : bool) : Type := unit.
Definition tbl2 (b : bool) : table (row2 b) (flt2 b) := match b with true => accts | false => nums end.

Lemma tbl2_good b : good_table (tbl2 b).
Proof. destruct b; [exact accts_good|exact nums_good]. Qed.
Lemma tbl2_ids i j : t_id (tbl2 i) = t_id (tbl2 j) -> i = j.
Proof. destruct i, j; cbn; congruence || discriminate. Qed.

Notation op2 := (op row2).
Notation reply2 := (reply row2).
Definition start2 : sys row2 flt2 := Sys row2 flt2 [] tbl2 (fun _ => tt) None.
Definition world2 : world row2 flt2 := World row2 flt2 tbl2 (empty row2) (BNone row2).

Definition a1' := Acct 1 10 7 true.
Definition user_key : bytes := [x64; x01].
Definition everyone : selector acct := SRange (Acct 0 0 0 false) (Acct 9 0 0 false).
Definition on_flag : query acct := q_order (q_with (new_query accts) (acct_by_flag x03) (SPoint (Acct 0 0 0 true))) by_score.

Definition day : list op2 :=
  [ OWrite row2 false true env1 (CInsert [a1; a3]);
    OWrite row2 false false env1 (CInsert [7; 9]%Z);
    OSet row2 false user_key [x2a];
    OBegin row2;
    OWrite row2 true true env1 (CUpdate [a1']);
    OWrite row2 true false env1 (CDelete [7]%Z);
    ODelete row2 true user_key;
    ORead row2 false (RGet row2 true a1);
    ORead row2 false (RRaw row2 user_key);
    ORead row2 true (RScan row2 true env1 primary_index everyone true);
    ORead row2 true (RExist row2 false 7%Z);
    OCommit row2 true;
    OWrite row2 false true env1 (CInsert [a2; a3]);
    OAddIndex row2 true re_quiet [acct_by_flag x03];
    ORead row2 false (RQuery row2 true env1 isort on_flag);
    ORead row2 false (RPoints row2 false env1 [9; 7]%Z);
    ORead row2 false (RRaw row2 user_key);
    OBegin row2;
    OWrite row2 true true env1 (CInsert [a2]);
    OWrite row2 true true env1 (CInsert [a1]);
    OClose row2;
    ORead row2 false (RExist row2 true a2) ].

(** the key in the message: what is behind the index key (/repo/table.go:407), an empty order part's length and the primary key *)
Definition taken (r : acct) : error := EExists (repeat x00 4 ++ s_pk asc r).

Definition answers : list reply2 :=
  [ AWrite row2 (Ok tt); AWrite row2 (Ok tt); AWrite row2 (Ok tt); AWrite row2 (Ok tt); AWrite row2 (Ok tt); AWrite row2 (Ok tt); AWrite row2 (Ok tt);
    ARow row2 true (Ok a1); ARaw row2 (Ok [x2a]); AScan row2 true ([a3; a1'], Ok tt); ABool row2 false; AWrite row2 (Ok tt);
    AWrite row2 (Err (taken a3)); AWrite row2 (Ok tt); ARows row2 true (Ok [a3; a1']); ARows row2 false (Ok [9; 0]%Z);
    ARaw row2 (Err ENotFound); AWrite row2 (Ok tt); AWrite row2 (Ok tt); AWrite row2 (Err (taken a1)); AWrite row2 (Ok tt); ABool row2 false ].

Lemma day_answers : map snd (run_ops bool_dec row2 flt2 9 start2 day) = answers.
Proof. vm_compute. reflexivity. Qed.

(** A selection has no more rows than are stored. *)
Lemma put_from {T} (sc : schema T) (m : tmap T) l : (forall p r, m p = Some r -> In r l) -> forall x p r, put sc m x p = Some r -> In r (x :: l).
Proof. intros H x p r. unfold put. destruct (beqb p (s_pk sc x)); [intros [= <-]; now left|]. intro E. right. eauto. Qed.

Lemma sorted_nodup {T} (sc : schema T) ix l : StronglySorted (pos_lt sc ix) l -> NoDup l.
Proof.
  induction 1 as [|x l S IH F]; constructor; auto. intros I. rewrite Forall_forall in F. specialize (F x I). unfold pos_lt, pos_cmp, shortlex in F.
  rewrite !Nat.compare_refl, !bcmp_refl in F. discriminate.
Qed.

Lemma one_selection {T F} (tb : table T F) idx m sel rows l P : selections (schema_of tb) (sindex_of idx) (Byte.eqb (ix_id idx) x00) sel = [P] ->
  (forall p r, m p = Some r -> In r rows) -> selected tb idx m sel l -> length l <= length rows.
Proof.
  intros E H S. unfold selected in S. rewrite E in S. inversion S as [|? ? l1 ls [SS M] S2]; subst. inversion S2; subst. rewrite app_nil_r.
  apply NoDup_incl_length; [eapply sorted_nodup; eauto|]. intros r I. apply M in I as (E' & _). eauto.
Qed.

Lemma e1 {T} : env_ok (env1 (T:=T)).
Proof. apply demo_env_ok. lia. Qed.
Lemma q1 {T} : quiet (env1 (T:=T)).
Proof. apply demo_env_quiet. Qed.

Lemma own2 (w : world row2 flt2) : t_id (w_tb _ _ w true) = x07 -> t_id (w_tb _ _ w false) = x05 -> own_key row2 flt2 w user_key.
Proof. intros A B [|] rest; rewrite ?A, ?B; discriminate. Qed.

Lemma num_ok m l : NoDup (map (s_pk (schema_of nums)) l) -> admissible (schema_of nums) m (CInsert l).
Proof. split; auto. rewrite Forall_forall. intros r _ ix []. Qed.

Lemma accts_writes m c : match c with CInsert l | CUpdate l => NoDup (map (s_pk asc) l) | _ => False end -> admissible asc m c.
Proof. split; [apply acct_rows_ok|]. destruct c; easy || exact H. Qed.

Definition call_at n : op2 := nth n day (OClose row2).
Definition answer_at n : reply2 := nth n answers (AWrite row2 Panic).

Lemma skipn_cons {A} (d : A) l : forall k, k < length l -> skipn k l = nth k l d :: skipn (S k) l.
Proof. induction l as [|x l IH]; intros [|k] L; cbn [length] in L; try lia; [reflexivity|]. cbn [skipn nth]. rewrite IH by lia. reflexivity. Qed.

(** the world before the [n]-th call *)
Fixpoint world_at (n : nat) : world row2 flt2 :=
  match n with 0 => world2 | S n => next bool_dec row2 flt2 (world_at n) (call_at n) (answer_at n) end.

Lemma proper_from n : forall k, k + n = length day -> (forall i, k <= i < length day -> proper row2 flt2 9 (world_at i) (call_at i)) ->
  all_proper bool_dec row2 flt2 9 (world_at k) (combine (skipn k day) (skipn k answers)).
Proof.
  induction n as [|n IH]; intros k E H.
  - rewrite (skipn_all2 day) by lia. exact I.
  - assert (A : skipn k day = call_at k :: skipn (S k) day).
    { apply (skipn_cons (OClose row2)). lia. }
    assert (B : skipn k answers = answer_at k :: skipn (S k) answers).
    { apply (skipn_cons (AWrite row2 Panic)). change (length answers) with (length day). lia. }
    rewrite A, B. cbn [combine all_proper]. split; [apply H; lia|]. apply (IH (S k)); [lia|]. intros i L. apply H. lia.
Qed.

Ltac write := split; [exact e1|]; eexists; split; [reflexivity|]; split; [intros; reflexivity || discriminate|].
Ltac accounts := write; apply accts_writes, acct_nodup; vm_compute; reflexivity.
Ltac done := reflexivity || discriminate || (eexists; reflexivity).

Lemma proper_0 : proper row2 flt2 9 (world_at 0) (call_at 0).
Proof. accounts. Qed.
Lemma proper_1 : proper row2 flt2 9 (world_at 1) (call_at 1).
Proof. write. apply num_ok. vm_compute. repeat constructor; cbn; intuition discriminate. Qed.
Lemma proper_2 : proper row2 flt2 9 (world_at 2) (call_at 2).
Proof. split; [now apply own2|]. split; [discriminate|reflexivity]. Qed.
Lemma proper_3 : proper row2 flt2 9 (world_at 3) (call_at 3).
Proof. done. Qed.
Lemma proper_4 : proper row2 flt2 9 (world_at 4) (call_at 4).
Proof. accounts. Qed.
Lemma proper_5 : proper row2 flt2 9 (world_at 5) (call_at 5).
Proof. write. split; [rewrite Forall_forall; intros r _ ix []|]. intros r o _ _ ix []. Qed.
Lemma proper_6 : proper row2 flt2 9 (world_at 6) (call_at 6).
Proof. split; [now apply own2|]. split; [discriminate|discriminate]. Qed.
Lemma proper_7 : proper row2 flt2 9 (world_at 7) (call_at 7).
Proof. eexists. split; [reflexivity|exact I]. Qed.
Lemma proper_8 : proper row2 flt2 9 (world_at 8) (call_at 8).
Proof. eexists. split; [reflexivity|]. now apply own2. Qed.
Lemma proper_9 : proper row2 flt2 9 (world_at 9) (call_at 9).
Proof.
  eexists. split; [reflexivity|]. split; [exact e1|]. split; [exact q1|]. split; [cbn; lia|]. split; [now left|]. split.
  - split; [split; vm_compute; reflexivity|]. apply acct_end; [split; vm_compute; reflexivity|vm_compute; discriminate].
  - intros l SL. enough (length l <= 3) by lia. refine (one_selection accts primary_index _ everyone [a1'; a3; a1] l _ eq_refl _ SL).
    change (forall p r, put asc (put asc (put asc empty_map a1) a3) a1' p = Some r -> In r [a1'; a3; a1]). repeat apply put_from. discriminate.
Qed.
Lemma proper_10 : proper row2 flt2 9 (world_at 10) (call_at 10).
Proof. eexists. split; [reflexivity|exact I]. Qed.
Lemma proper_11 : proper row2 flt2 9 (world_at 11) (call_at 11).
Proof. done. Qed.
Lemma proper_12 : proper row2 flt2 9 (world_at 12) (call_at 12).
Proof. accounts. Qed.
Lemma proper_13 : proper row2 flt2 9 (world_at 13) (call_at 13).
Proof.
  split; [reflexivity|]. split; [apply more_lawful; discriminate|]. split; [reflexivity|]. split.
  - intros ix [<-|[]]. discriminate.
  - intros pk r _. apply more_row_ok.
Qed.
Lemma proper_14 : proper row2 flt2 9 (world_at 14) (call_at 14).
Proof.
  eexists. split; [reflexivity|]. split; [exact e1|]. split; [exact q1|]. split; [cbn; lia|]. split; [exact isort_sorts|]. split; [reflexivity|]. split; [reflexivity|].
  split; [|exact I]. intros x [<-|[]]. split; [cbn; auto|]. split.
  - split; [split; vm_compute; reflexivity|vm_compute; discriminate].
  - intros l SL. enough (length l <= 3) by lia. refine (one_selection (more_accts x03) (acct_by_flag x03) _ (SPoint (Acct 0 0 0 true)) [a1'; a3; a1] l _ eq_refl _ SL).
    change (forall p r, put asc (put asc (put asc empty_map a1) a3) a1' p = Some r -> In r [a1'; a3; a1]). repeat apply put_from. discriminate.
Qed.
Lemma proper_15 : proper row2 flt2 9 (world_at 15) (call_at 15).
Proof. eexists. split; [reflexivity|]. split; [exact e1|]. intros p x _. change (num_ser x <> Some []). unfold num_ser. now destruct (_ && _)%bool. Qed.
Lemma proper_16 : proper row2 flt2 9 (world_at 16) (call_at 16).
Proof. eexists. split; [reflexivity|]. now apply own2. Qed.
Lemma proper_17 : proper row2 flt2 9 (world_at 17) (call_at 17).
Proof. done. Qed.
Lemma proper_18 : proper row2 flt2 9 (world_at 18) (call_at 18).
Proof. write. split; [rewrite Forall_forall; intros; apply more_row_ok|]. vm_compute. repeat constructor. intros []. Qed.
Lemma proper_19 : proper row2 flt2 9 (world_at 19) (call_at 19).
Proof. write. split; [rewrite Forall_forall; intros; apply more_row_ok|]. vm_compute. repeat constructor. intros []. Qed.
Lemma proper_20 : proper row2 flt2 9 (world_at 20) (call_at 20).
Proof. done. Qed.
Lemma proper_21 : proper row2 flt2 9 (world_at 21) (call_at 21).
Proof. eexists. split; [reflexivity|exact I]. Qed.

Lemma day_proper : all_proper bool_dec row2 flt2 9 world2 (combine day answers).
Proof.
  apply (proper_from 22 0 eq_refl). intros i [_ L]. change (length day) with 22 in L.
  destruct i as [|i]; [exact proper_0|]. destruct i as [|i]; [exact proper_1|]. destruct i as [|i]; [exact proper_2|]. destruct i as [|i]; [exact proper_3|].
  destruct i as [|i]; [exact proper_4|]. destruct i as [|i]; [exact proper_5|]. destruct i as [|i]; [exact proper_6|]. destruct i as [|i]; [exact proper_7|].
  destruct i as [|i]; [exact proper_8|]. destruct i as [|i]; [exact proper_9|]. destruct i as [|i]; [exact proper_10|]. destruct i as [|i]; [exact proper_11|].
  destruct i as [|i]; [exact proper_12|]. destruct i as [|i]; [exact proper_13|]. destruct i as [|i]; [exact proper_14|]. destruct i as [|i]; [exact proper_15|].
  destruct i as [|i]; [exact proper_16|]. destruct i as [|i]; [exact proper_17|]. destruct i as [|i]; [exact proper_18|]. destruct i as [|i]; [exact proper_19|].
  destruct i as [|i]; [exact proper_20|]. destruct i as [|i]; [exact proper_21|]. lia.
Qed.
