(** Dumps and restores that go wrong, and a table set for examples. *)

From Coq Require Import List NArith Lia Bool Arith Strings.String Strings.Byte.
From Verif.Model Require Import Bytes Go Keys Pebble Backup.
From Verif.Spec Require Import StoreSpec BackupSpec.
From Verif.Proofs Require Import BytesFacts PebbleFacts BackupFacts RestoreFacts.
Import ListNotations.
Local Open Scope list_scope.

Lemma restore_fresh full snap root db tables want :
  kv_ok snap -> kv_ok db -> bond_keys snap -> NoDup tables -> incl want tables ->
  (forall r, In r want -> contains (table_dir r) root = false) ->
  (forall r d, In r want -> In d tables -> has_prefix (dec (b2n r)) (dec (b2n d)) = true -> In d want) ->
  (forall k, wanted want true k -> kv_get db k = None) ->
  exists d db', dump full snap (fun _ => snap) false true tables = (d, Ok tt) /\ restore root d db want true = (db', Ok tt) /\
  forall k, (wanted want true k -> kv_get db' k = kv_get snap k) /\ (~ wanted want true k -> kv_get db' k = kv_get db k).
Proof.
  intros K KD BK N INC ROOT PRE FRESH.
  destruct (restore_ok full snap (fun _ => snap) root db tables want true true) as (d & db' & D & R & _ & A & B); auto.
  - intros _ n t i rest v _ G. eauto.
  - exists d, db'. split; [exact D|]. split; [exact R|]. intros k. split; intros W; [|auto]. rewrite A by auto. rewrite FRESH by auto. now destruct (kv_get snap k).
Qed.

Section Twice.
  Variable full : kv -> bool.
  Variable snap : kv.
  Variable live : nat -> kv.
  Hypothesis LIVE : forall n, kv_ok (live n).
  Hypothesis BL : forall n, bond_keys (live n).

  Lemma dump_indexes_keeps t ids : forall d p, In p (map fst d) -> In p (map fst (fst (dump_indexes full snap t ids d))).
  Proof.
    induction ids as [|i ids IH]; intros d p I; cbn [dump_indexes]; auto. unfold dump_dir. destruct (tree_get d _); [exact I|]. apply IH.
    rewrite map_app. apply in_app_iff. now left.
  Qed.

  Lemma dump_indexes_res t ids : forall d, snd (dump_indexes full snap t ids d) = Ok tt \/ snd (dump_indexes full snap t ids d) = Err EOther.
  Proof. induction ids as [|i ids IH]; intros d; cbn [dump_indexes]; auto. destruct (dump_dir full d _ _); auto. Qed.

  Lemma dump_tables_again wi t l2 l3 : forall n d, In [table_dir t] (map fst d) -> snd (dump_tables full snap live n wi (l2 ++ t :: l3) d) = Err EOther.
  Proof.
    induction l2 as [|u l2 IH]; intros n d I; cbn [app dump_tables].
    - unfold dump_dir. destruct (tree_get_some d _ I) as [x ->]. reflexivity.
    - unfold dump_dir at 1. destruct (tree_get d [table_dir u]); [reflexivity|].
      match goal with |- context [dump_indexes full snap u _ ?D] => set (d1 := D) end.
      assert (I1 : In [table_dir t] (map fst d1)) by (unfold d1; rewrite map_app; apply in_app_iff; now left).
      destruct wi; [|now apply IH].
      destruct (get_index_ids_ok (live n) u (LIVE n)) as (ids & E & _); [intros k v G; destruct (BL n k v G); lia|]. rewrite E.
      destruct (dump_indexes full snap u ids d1) as [d2 r] eqn:D. pose proof (dump_indexes_res u ids d1) as R. pose proof (dump_indexes_keeps u ids d1 _ I1) as P. rewrite D in R, P. cbn [fst snd] in R, P.
      destruct R as [-> | ->]; [now apply IH|reflexivity].
  Qed.

  Lemma dump_tables_twice wi t l1 l2 l3 : forall n d, snd (dump_tables full snap live n wi (l1 ++ t :: l2 ++ t :: l3) d) = Err EOther.
  Proof.
    induction l1 as [|u l1 IH]; intros n d; cbn [app dump_tables].
    - unfold dump_dir at 1. destruct (tree_get d [table_dir t]); [reflexivity|].
      match goal with |- context [dump_indexes full snap t _ ?D] => set (d1 := D) end.
      assert (I1 : In [table_dir t] (map fst d1)) by (unfold d1; rewrite map_app; apply in_app_iff; right; now left).
      destruct wi; [|now apply dump_tables_again].
      destruct (get_index_ids_ok (live n) t (LIVE n)) as (ids & E & _); [intros k v G; destruct (BL n k v G); lia|]. rewrite E.
      destruct (dump_indexes full snap t ids d1) as [d2 r] eqn:D. pose proof (dump_indexes_res t ids d1) as R. pose proof (dump_indexes_keeps t ids d1 _ I1) as P. rewrite D in R, P. cbn [fst snd] in R, P.
      destruct R as [-> | ->]; [now apply dump_tables_again|reflexivity].
    - unfold dump_dir at 1. destruct (tree_get d [table_dir u]); [reflexivity|]. destruct wi; [|now apply IH].
      destruct (get_index_ids_ok (live n) u (LIVE n)) as (ids & E & _); [intros k v G; destruct (BL n k v G); lia|]. rewrite E.
      match goal with |- context [dump_indexes full snap u ids ?D] => destruct (dump_indexes full snap u ids D) as [d2 r] eqn:DD; pose proof (dump_indexes_res u ids D) as R; rewrite DD in R end.
      cbn [snd] in R. destruct R as [-> | ->]; [now apply IH|reflexivity].
  Qed.
End Twice.

Lemma dump_twice full snap live wi tables t l1 l2 l3 : (forall n, kv_ok (live n)) -> (forall n, bond_keys (live n)) ->
  tables = l1 ++ t :: l2 ++ t :: l3 -> snd (dump full snap live false wi tables) = Err EOther.
Proof. intros KL BL ->. unfold dump. now apply dump_tables_twice. Qed.

(** ** Databases *)
Definition row (t : byte) (p v : byte) : entry := ([t; x00; x00; x00; x00; x00; x00; x00; x00; x00; p], [v]).
Definition ixe (t i p q : byte) : entry := ([t; i; x00; x00; x00; x01; p; x00; x00; x00; x00; q], []).

Definition some_tables : kv :=
  [row x01 x01 x0a; row x01 x02 x0b; row x01 x03 x0c; ixe x01 x01 x0a x01; ixe x01 x01 x0b x02; ixe x01 xff x07 x02;
   row x02 x01 x0d; row x02 xff x0e; row x19 x05 x0f; ixe x19 x03 x01 x05].

Lemma bond_keys_check s : forallb (fun e => Nat.leb 6 (List.length (fst e)) && negb (beqb (firstn 4 (skipn 2 (fst e))) [xff; xff; xff; xff])) s = true -> bond_keys s.
Proof.
  intros H k v G. rewrite forallb_forall in H.
  assert (I : In (k, v) s).
  { clear H. induction s as [|[x w] s IH]; cbn [kv_get] in G; [discriminate|]. destruct (beqb k x) eqn:E; [apply beqb_eq in E; injection G as ->; subst; now left|right; auto]. }
  specialize (H (k, v) I). cbn [fst] in H. apply andb_true_iff in H as [A B]. apply Nat.leb_le in A. split; [exact A|]. intros Q. rewrite Q in B. discriminate.
Qed.

Lemma kv_ok_check (s : kv) : (fix go (s : kv) := match s with a :: ((b :: _) as r) => bltb (fst a) (fst b) && go r | _ => true end) s = true -> kv_ok s.
Proof.
  induction s as [|a [|b s] IH]; intros H; [constructor|repeat constructor|]. apply andb_true_iff in H as [H1 H2]. specialize (IH H2). apply kv_ok_cons. split; [exact IH|].
  apply bltb_lt in H1. apply kv_ok_cons in IH as [_ F]. constructor; [exact H1|]. rewrite Forall_forall in *. intros x X. eapply blt_trans; [exact H1|]. apply (F x X).
Qed.

Ltac sorted := apply kv_ok_check; vm_compute; reflexivity.
Ltac keyed := apply bond_keys_check; vm_compute; reflexivity.
Ltac not_wanted := let a := fresh in let b := fresh in let c := fresh in let d := fresh in let e := fresh in
  intros (a & b & c & d & e & _); injection d as <- _ _; cbn in e; intuition discriminate.

Definition two : kv := [row x01 x01 x0a; row x0a x01 x0b].

Lemma other_table : exists snap d, kv_ok snap /\ bond_keys snap /\ dump (fun _ => false) snap (fun _ => snap) false true [x01; x0a] = (d, Ok tt) /\
  exists db db' k, restore (str "/tmp/d") d db [x01] true = (db', Ok tt) /\ ~ wanted [x01] true k /\ kv_get db' k <> kv_get db k.
Proof.
  exists two. eexists. split; [sorted|]. split; [keyed|]. split; [vm_compute; reflexivity|].
  exists []. eexists. exists (fst (row x0a x01 x0b)). split; [vm_compute; reflexivity|]. split; [not_wanted|vm_compute; discriminate].
Qed.

Lemma index_in_path : exists snap d, kv_ok snap /\ bond_keys snap /\ dump (fun _ => false) snap (fun _ => snap) false false [x01; x0a] = (d, Ok tt) /\
  restore (str "/tmp/reindexed") d [] [x01; x0a] false = ([], Ok tt) /\ exists k, wanted [x01; x0a] false k /\ kv_get snap k <> None.
Proof.
  exists two. eexists. split; [sorted|]. split; [keyed|]. split; [vm_compute; reflexivity|]. split; [vm_compute; reflexivity|].
  exists (fst (row x0a x01 x0b)). split; [|vm_compute; discriminate]. exists x0a, x00. eexists. split; [reflexivity|]. split; [cbn; auto|now left].
Qed.

Lemma table_in_path : exists snap d, kv_ok snap /\ bond_keys snap /\ dump (fun _ => false) snap (fun _ => snap) false true [x01; x02] = (d, Ok tt) /\
  exists db' k, restore (str "/tmp/table_1") d [] [x01] true = (db', Ok tt) /\ ~ wanted [x01] true k /\ kv_get db' k <> None.
Proof.
  exists [row x01 x01 x0a; row x02 x01 x0b]. eexists. split; [sorted|]. split; [keyed|]. split; [vm_compute; reflexivity|].
  eexists. exists (fst (row x02 x01 x0b)). split; [vm_compute; reflexivity|]. split; [not_wanted|vm_compute; discriminate].
Qed.

Lemma stale_rows : exists snap d db db' k, kv_ok snap /\ bond_keys snap /\ dump (fun _ => false) snap (fun _ => snap) false true [x01] = (d, Ok tt) /\
  restore (str "/tmp/d") d db [x01] true = (db', Ok tt) /\ wanted [x01] true k /\ kv_get snap k = None /\ kv_get db' k <> None.
Proof.
  exists [row x01 x01 x0a]. eexists. exists [row x01 x02 x0a]. eexists. exists (fst (row x01 x02 x0a)). split; [sorted|]. split; [keyed|]. split; [vm_compute; reflexivity|].
  split; [vm_compute; reflexivity|]. split; [|split; [reflexivity|vm_compute; discriminate]]. exists x01, x00. eexists. split; [reflexivity|]. split; [cbn; auto|now left].
Qed.

Lemma index_lost : exists snap live d db', kv_ok snap /\ bond_keys snap /\ (forall n, kv_ok (live n) /\ bond_keys (live n)) /\
  dump (fun _ => false) snap live false true [x01] = (d, Ok tt) /\ restore (str "/tmp/d") d [] [x01] true = (db', Ok tt) /\
  exists k, wanted [x01] true k /\ kv_get snap k <> None /\ kv_get db' k = None.
Proof.
  exists [row x01 x01 x0a; ixe x01 x05 x0a x01], (fun _ => []). eexists. eexists. split; [sorted|]. split; [keyed|].
  split; [intros n; split; [sorted|keyed]|]. split; [vm_compute; reflexivity|]. split; [vm_compute; reflexivity|].
  exists (fst (ixe x01 x05 x0a x01)). split; [|split; [vm_compute; discriminate|reflexivity]]. exists x01, x05. eexists. split; [reflexivity|]. split; [cbn; auto|now right].
Qed.

Lemma some_tables_case : kv_ok some_tables /\ bond_keys some_tables /\ NoDup [x01; x02; x19] /\ incl [x19; x01] [x01; x02; x19] /\
  (forall r, In r [x19; x01] -> contains (table_dir r) (str "/var/backup/monday") = false) /\
  (forall r d, In r [x19; x01] -> In d [x01; x02; x19] -> has_prefix (dec (b2n r)) (dec (b2n d)) = true -> In d [x19; x01]) /\
  exists d db', dump (fun f => Nat.leb 2 (List.length f)) some_tables (fun _ => some_tables) false true [x01; x02; x19] = (d, Ok tt) /\ List.length d = 16 /\
  restore (str "/var/backup/monday") d [] [x19; x01] true = (db', Ok tt) /\ db' = filter (fun e => negb (beqb (firstn 1 (fst e)) [x02])) some_tables.
Proof.
  split; [sorted|]. split; [keyed|]. split; [repeat constructor; cbn; intuition discriminate|]. split; [intros x; cbn; intuition|].
  split; [intros r [<-|[<-|[]]]; vm_compute; reflexivity|]. split.
  - intros r d [<-|[<-|[]]] [<-|[<-|[<-|[]]]] H; vm_compute in H; try discriminate H; cbn; auto.
  - eexists. eexists. split; [vm_compute; reflexivity|]. vm_compute. auto.
Qed.
