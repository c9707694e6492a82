(** An index that is added later. *)

From Coq Require Import List NArith Lia Bool Arith.
From Verif.Model Require Import Bytes Go Keys Pebble Index Table ReIndex.
From Verif.Spec Require Import KeySpec StoreSpec TableSpec HistSpec ReIndexSpec.
From Verif.Proofs Require Import BytesFacts KeysFacts PebbleFacts TableFacts WriteFacts CallFacts ReadFacts HistFacts TableProps LawFacts TraceFacts ReIndexFacts Witness TableBugs ReIndexBugs TraceBugs.
Import ListNotations.

Section Later.
  Context {T F : Type} (tb : table T F) (G : good_table tb).
  Variable idxs : list (index T).
  Notation tb' := (with_indexes tb (t_indexes tb ++ idxs)).
  Notation sc := (schema_of tb).
  Notation sc' := (schema_of (with_indexes tb (t_indexes tb ++ idxs))).
  Variable G' : good_table tb'.

  Lemma less_in_table k : in_table sc k -> in_table sc' k.
  Proof.
    intros (i & rest & -> & H). exists i, rest. split; [reflexivity|]. destruct H as [H|(ix & I & H)]; [now left|right]. exists ix. split; [|exact H].
    cbn [schema_of s_indexes with_indexes t_indexes] in *. rewrite map_app. apply in_or_app. now left.
  Qed.

  Lemma area_in_table k : index_area (t_id tb) idxs k -> in_table sc' k.
  Proof.
    intros (ix & rest & I & ->). exists (ix_id ix), rest. split; [reflexivity|]. right. exists (sindex_of ix). split; [|reflexivity].
    cbn [schema_of s_indexes with_indexes t_indexes]. rewrite map_app. apply in_or_app. right. now apply in_map.
  Qed.

  Theorem index_later rev h h' db fl fl' m d1 f1 o1 d2 f2 o2 :
    Forall (fun ec => env_ok (fst ec)) h -> Forall (fun ec => env_ok (fst ec)) h' -> consistent tb db fl m -> consistent tb' db fl' m ->
    run_hist tb db fl h = (d1, f1, o1) -> admissible_hist sc m o1 -> run_hist tb' db fl' h' = (d2, f2, o2) -> admissible_hist sc' m o2 ->
    (forall r, get_point tb d1 f1 None r = get_point tb' d2 f2 None r) -> (forall n, r_write rev n = true) -> (forall ix, In ix idxs -> ix_id ix <> xff) ->
    add_index_call rev tb (IxState (t_indexes tb) false) d1 idxs true = (IxState (t_indexes tb ++ idxs) false, d2, Ok tt).
  Proof.
    intros V V' C C' R1 A1 R2 A2 H W NF. destruct (hist_run tb G h db fl m d1 f1 o1 V C R1 A1) as [C1 O1]. destruct (hist_run tb' G' h' db fl' m d2 f2 o2 V' C' R2 A2) as [C2 O2].
    set (m1 := outcome sc m o1) in *. set (m2 := outcome sc' m o2) in *.
    destruct C1 as [K1 RE1 CV1] eqn:EC1. destruct C2 as [K2 RE2 CV2] eqn:EC2.
    assert (X : forall r, m1 (s_pk sc r) = m2 (s_pk sc r)).
    { intros r. specialize (H r). rewrite (get_point_eq (LAW:=good_lawful _ G) d1 f1 None m1 r) in H; [|intros x v E; exact (good_ser _ G _ _ _ E)|exact RE1|exact CV1|exact Logic.I].
      rewrite (get_point_eq (LAW:=good_lawful _ G') d2 f2 None m2 r) in H; [|intros x v E; exact (good_ser _ G' _ _ _ E)|exact RE2|exact CV2|exact Logic.I].
      change (s_pk sc' r) with (s_pk sc r) in H. destruct (m1 (s_pk sc r)), (m2 (s_pk sc r)); congruence. }
    assert (E : forall p, m1 p = m2 p).
    { intros p. destruct (m1 p) as [x|] eqn:E.
      - destruct (rep_rows _ _ _ RE1 _ _ E) as (<- & _). now rewrite <- X, E.
      - destruct (m2 p) as [y|] eqn:E2; [|reflexivity]. destruct (rep_rows _ _ _ RE2 _ _ E2) as (P & _). change (s_pk sc' y) with (s_pk sc y) in P. rewrite <- P in E, E2.
        rewrite <- E, X. now rewrite E2. }
    destruct (add_index_consistent tb rev d1 f1 m1 idxs (good_lawful _ G')) as (db' & CALL & CON & OUT); auto.
    - intros x v Ex. exact (good_ser _ G _ _ _ Ex).
    - intros p r E1. rewrite E in E1. destruct (rep_rows _ _ _ RE2 _ _ E1) as (_ & OK & _). exact OK.
    - rewrite CALL. f_equal. f_equal. destruct CON as [K3 RE3 _]. apply (Rep_unique tb' db' d2 m1); auto.
      + eapply TableFacts.Rep_ext; [exact RE2|]. intros p. now rewrite E.
      + intros k N. rewrite (OUT k) by (intros AR; apply N; now apply area_in_table). rewrite (O1 k) by (intros IT; apply N; now apply less_in_table).
        symmetry. now apply O2.
  Qed.
End Later.

(** The accounts with an index on their flag, added after the rows, or there from the beginning with the rows in two calls. *)
Lemma flag_good : good_table (more_accts x05).
Proof.
  constructor; [apply more_lawful; discriminate|exact (good_ser _ accts_good)|apply filter_ok_none; reflexivity].
Qed.

Lemma flag_empty : consistent (more_accts x05) [] tt empty_map.
Proof.
  constructor; [constructor| |intros f rest v E; discriminate].
  constructor; [discriminate|reflexivity|discriminate|]. intros ix rest v I. split; [discriminate|]. intros (_ & r & E & _). discriminate.
Qed.

Definition rows_first : list (env acct * call acct) := [(demo_env 2, CInsert abc)].
Definition index_first : list (env acct * call acct) := [(demo_env 2, CInsert (tl abc)); (demo_env 2, CInsert (firstn 1 abc))].
Definition flag_db : kv := fst (fst (run_hist (more_accts x05) [] tt index_first)).

Lemma rows_first_run : run_hist accts [] tt rows_first = (abc_db, tt, [(CInsert abc, true)]).
Proof. vm_compute. reflexivity. Qed.

Lemma index_first_run : run_hist (more_accts x05) [] tt index_first = (flag_db, tt, [(CInsert (tl abc), true); (CInsert (firstn 1 abc), true)]).
Proof. vm_compute. reflexivity. Qed.

Lemma flag_gets r : get_point accts abc_db tt None r = get_point (more_accts x05) flag_db tt None r.
Proof. change (get_point (more_accts x05) flag_db tt None r) with (get_point accts flag_db tt None r). apply same_gets. vm_compute. reflexivity. Qed.

Lemma rows_first_admissible : admissible_hist asc empty_map [(CInsert abc, true)].
Proof. split; [split; [apply acct_rows_ok|exact abc_distinct]|exact Logic.I]. Qed.

Lemma index_first_admissible : admissible_hist (schema_of (more_accts x05)) empty_map [(CInsert (tl abc), true); (CInsert (firstn 1 abc), true)].
Proof.
  split; [split; [apply Forall_forall; intros r _; apply more_row_ok|]|split; [split; [apply Forall_forall; intros r _; apply more_row_ok|]|exact Logic.I]].
  - constructor; [intros [E|[]]; revert E; vm_compute; discriminate|]. constructor; [intros []|constructor].
  - constructor; [intros []|constructor].
Qed.
