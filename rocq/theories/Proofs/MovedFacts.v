(** A table that was dumped and restored into another database. *)

From Coq Require Import List NArith Lia Bool Arith.
From Verif.Model Require Import Bytes Go Keys Pebble Index Table ReIndex Backup.
From Verif.Spec Require Import KeySpec StoreSpec TableSpec HistSpec ReIndexSpec BackupSpec MovedSpec.
From Verif.Proofs Require Import BytesFacts KeysFacts PebbleFacts TableFacts WriteFacts CallFacts ReadFacts HistFacts TableProps ReIndexFacts BackupFacts RestoreFacts.
Import ListNotations.

Section Moved.
  Context {T F : Type} (tb : table T F) (G : good_table tb).
  Notation sc := (schema_of tb).
  Variables (snap : kv) (live : nat -> kv) (root : bytes) (tables want : list byte) (full : list entry -> bool).

  Lemma roundtrip wi db : movable snap live root tables want wi -> kv_ok db ->
    exists d db', dump full snap live false wi tables = (d, Ok tt) /\ restore root d db want wi = (db', Ok tt) /\ kv_ok db' /\
    (forall k, wanted want wi k -> kv_get db' k = match kv_get snap k with Some v => Some v | None => kv_get db k end) /\
    (forall k, ~ wanted want wi k -> kv_get db' k = kv_get db k).
  Proof. intros [A B C D E H R I N] K. apply restore_ok; auto; intros n; apply C. Qed.

  Lemma gets_same a b fa fb m r : consistent tb a fa m -> consistent tb b fb m -> get_point tb a fa None r = get_point tb b fb None r.
  Proof.
    intros [KA RA CA] [KB RB CB]. rewrite (get_point_eq (LAW:=good_lawful _ G) a fa None m r); [|intros x v E; exact (good_ser _ G _ _ _ E)|exact RA|exact CA|exact Logic.I].
    rewrite (get_point_eq (LAW:=good_lawful _ G) b fb None m r); [reflexivity|intros x v E; exact (good_ser _ G _ _ _ E)|exact RB|exact CB|exact Logic.I].
  Qed.

  (** With its indexes. *)
  Theorem moved db fl m : movable snap live root tables want true -> In (t_id tb) want -> kv_ok db -> (forall i rest, kv_get db (t_id tb :: i :: rest) = None) ->
    consistent tb snap fl m ->
    exists d db', dump full snap live false true tables = (d, Ok tt) /\ restore root d db want true = (db', Ok tt) /\
    (forall k, ~ wanted want true k -> kv_get db' k = kv_get db k) /\
    forall fl', covers tb fl' db' -> consistent tb db' fl' m /\ forall r, get_point tb db' fl' None r = get_point tb snap fl None r.
  Proof.
    intros M W K N C. destruct (roundtrip true db M K) as (d & db' & D & R & K' & IN & OUT). exists d, db'. split; [exact D|]. split; [exact R|]. split; [exact OUT|].
    assert (S : forall i rest, kv_get db' (t_id tb :: i :: rest) = kv_get snap (t_id tb :: i :: rest)).
    { intros i rest. rewrite IN by (exists (t_id tb), i, rest; auto). rewrite N. now destruct (kv_get snap _). }
    intros fl' CV. assert (C' : consistent tb db' fl' m).
    { constructor; [exact K'| |exact CV]. destruct (cons_rep _ _ _ _ C) as [A B P Q]. constructor; auto.
      - intros pk. unfold row_key, spec_key. cbn [app]. change (s_id sc) with (t_id tb). rewrite S. apply B.
      - intros rest v. change (s_id sc) with (t_id tb). rewrite S. apply P.
      - intros ix rest v I. change (s_id sc) with (t_id tb). rewrite S. now apply Q. }
    split; [exact C'|]. intros r. now apply (gets_same _ _ _ _ m).
  Qed.

  (** Without its indexes, which are built anew. *)
  Theorem moved_bare rev db fl m : movable snap live root tables want false -> In (t_id tb) want -> kv_ok db -> (forall i rest, kv_get db (t_id tb :: i :: rest) = None) ->
    consistent tb snap fl m -> (forall n, r_write rev n = true) -> (forall ix, In ix (t_indexes tb) -> ix_id ix <> xff) ->
    exists d db1 db', dump full snap live false false tables = (d, Ok tt) /\ restore root d db want false = (db1, Ok tt) /\
    add_index_call rev (with_indexes tb []) (IxState [] false) db1 (t_indexes tb) true = (IxState (t_indexes tb) false, db', Ok tt) /\
    (forall k, in_table sc k -> kv_get db' k = kv_get snap k) /\
    forall fl', covers tb fl' db' -> consistent tb db' fl' m /\ forall r, get_point tb db' fl' None r = get_point tb snap fl None r.
  Proof.
    intros M W K N C Q NF. destruct (roundtrip false db M K) as (d & db1 & D & R & K1 & IN & OUT). exists d, db1.
    set (tb0 := with_indexes tb []).
    assert (S : forall rest, kv_get db1 (t_id tb :: x00 :: rest) = kv_get snap (t_id tb :: x00 :: rest)).
    { intros rest. rewrite IN by (exists (t_id tb), x00, rest; auto). rewrite N. now destruct (kv_get snap _). }
    destruct (cons_rep _ _ _ _ C) as [A B P X].
    assert (C0 : consistent tb0 db1 fl m).
    { constructor; [exact K1| |].
      - constructor.
        + intros pk r E. destruct (A pk r E) as (H1 & H2 & H3). split; [exact H1|]. split; [|exact H3]. intros ix [].
        + intros pk. unfold row_key, spec_key. cbn [app]. change (s_id (schema_of tb0)) with (t_id tb). rewrite S. apply B.
        + intros rest v. change (s_id (schema_of tb0)) with (t_id tb). rewrite S. apply P.
        + intros ix rest v [].
      - intros f rest v E H. change (t_id tb0) with (t_id tb) in H |- *. rewrite S in H. exact (cons_covers _ _ _ _ C f rest v E H). }
    assert (ETA : with_indexes tb0 (t_indexes tb0 ++ t_indexes tb) = tb) by (unfold tb0; destruct tb; reflexivity).
    destruct (add_index_consistent tb0 rev db1 fl m (t_indexes tb)) as (db' & CALL & CON & _); auto.
    - rewrite ETA. exact (good_lawful _ G).
    - intros x v E. exact (good_ser _ G x v _ E).
    - intros pk r E. rewrite ETA. exact (proj1 (proj2 (A pk r E))).
    - rewrite ETA in CON. exists db'. split; [exact D|]. split; [exact R|]. split; [exact CALL|].
      split.
      + intros k I. destruct (kv_get snap k) as [v|] eqn:E; [exact (Rep_le tb snap db' m (cons_rep _ _ _ _ C) (cons_rep _ _ _ _ CON) k v I E)|].
        destruct (kv_get db' k) as [v|] eqn:E'; [|reflexivity]. now rewrite (Rep_le tb db' snap m (cons_rep _ _ _ _ CON) (cons_rep _ _ _ _ C) k v I E') in E.
      + intros fl' CV. assert (C' : consistent tb db' fl' m) by (constructor; [apply CON|apply CON|exact CV]). split; [exact C'|]. intros r. now apply (gets_same _ _ _ _ m).
  Qed.
End Moved.
