(** The accounts by different ways to the same rows. *)

From Coq Require Import List NArith Lia Bool Arith.
From Verif.Model Require Import Bytes Go Keys Pebble Index Table.
From Verif.Spec Require Import KeySpec StoreSpec TableSpec HistSpec RetrySpec LawSpec.
From Verif.Proofs Require Import BytesFacts PebbleFacts TableFacts Witness HistFacts TableProps TableBugs RetryFacts RetryBugs.
Import ListNotations.

Definition row_8 : acct := Acct 8 10 2 true.
Definition other_8 : acct := Acct 8 11 7 true.
Definition way_1 : list (env acct * call acct) := [(demo_env 2, insert_8)].
(** Row 8 is inserted with other fields, a second Insert of it fails, and an Update brings it to the same fields. *)
Definition way_2 : list (env acct * call acct) := [(demo_env 2, CInsert [other_8]); (demo_env 2, insert_8); (demo_env 2, CUpdate [row_8])].
Definition with_8 : kv := left_by insert_8 abc_db.

Lemma way_1_run : run_hist accts abc_db tt way_1 = (with_8, tt, [(insert_8, true)]).
Proof. vm_compute. reflexivity. Qed.

Lemma way_2_run : run_hist accts abc_db tt way_2 = (with_8, tt, [(CInsert [other_8], true); (insert_8, false); (CUpdate [row_8], true)]).
Proof. vm_compute. reflexivity. Qed.

Lemma one_row_admissible m l : length l = 1 -> admissible asc m (CInsert l) /\ admissible asc m (CUpdate l).
Proof.
  intros L. assert (N : NoDup (map (s_pk asc) l)) by (destruct l as [|x [|]]; try discriminate; constructor; [intros []|constructor]).
  split; (split; [apply acct_rows_ok|exact N]).
Qed.

Lemma way_1_admissible : admissible_hist asc abc_map [(insert_8, true)].
Proof. split; [exact insert_admissible|exact Logic.I]. Qed.

Lemma way_2_admissible : admissible_hist asc abc_map [(CInsert [other_8], true); (insert_8, false); (CUpdate [row_8], true)].
Proof.
  split; [exact (proj1 (one_row_admissible _ [other_8] eq_refl))|]. split; [exact (proj1 (one_row_admissible _ [row_8] eq_refl))|].
  split; [exact (proj2 (one_row_admissible _ [row_8] eq_refl))|exact Logic.I].
Qed.

Lemma ways_ok : Forall (fun ec : env acct * call acct => env_ok (fst ec)) way_1 /\ Forall (fun ec : env acct * call acct => env_ok (fst ec)) way_2.
Proof. split; repeat (constructor; [exact demo2|]); constructor. Qed.

(** Row 1 is deleted with a record that has another score, and with the stored one. *)
Definition stale_1 : acct := Acct 1 10 9 true.
Definition stored_1 : acct := Acct 1 10 6 true.

(** The rows alone. *)
Definition is_row (e : entry) : bool := match fst e with _ :: i :: _ => beqb [i] [x00] | _ => false end.

Lemma get_row s : forall t rest, kv_get s (t :: x00 :: rest) = kv_get (filter is_row s) (t :: x00 :: rest).
Proof.
  induction s as [|[k v] s IH]; intros t rest; [reflexivity|]. cbn [kv_get filter]. destruct (beqb (t :: x00 :: rest) k) eqn:E.
  - apply beqb_eq in E. subst k. change (is_row (t :: x00 :: rest, v)) with true. cbn [kv_get]. now rewrite beqb_refl.
  - destruct (is_row (k, v)); [cbn [kv_get]; rewrite E|]; apply IH.
Qed.

Lemma same_gets a b : filter is_row a = filter is_row b -> forall r, get_point accts a tt None r = get_point accts b tt None r.
Proof.
  intros E r. unfold get_point, get_one, db_get. assert (K : exists t rest, data_key accts r = t :: x00 :: rest) by (do 2 eexists; reflexivity).
  destruct K as (t & rest & ->). now rewrite (get_row a), (get_row b), E.
Qed.

Lemma stale_residue : snd (run_call accts (demo_env 2) abc_db tt None (CDelete [stale_1])) = Ok tt /\
  snd (run_call accts (demo_env 2) abc_db tt None (CDelete [stored_1])) = Ok tt /\
  (forall r, get_point accts (left_by (CDelete [stale_1]) abc_db) tt None r = get_point accts (left_by (CDelete [stored_1]) abc_db) tt None r) /\
  length (left_by (CDelete [stale_1]) abc_db) = length (left_by (CDelete [stored_1]) abc_db) + 2.
Proof.
  split; [vm_compute; reflexivity|]. split; [vm_compute; reflexivity|]. split; [apply same_gets; vm_compute; reflexivity|vm_compute; reflexivity].
Qed.

Lemma abc_distinct : NoDup (map (s_pk asc) abc).
Proof.
  constructor; [intros [E|[E|[]]]; revert E; vm_compute; discriminate|]. constructor; [intros [E|[]]; revert E; vm_compute; discriminate|].
  constructor; [intros []|constructor].
Qed.

Lemma abc_there r : In r abc -> abc_map (s_pk asc r) = Some r.
Proof. intros [<-|[<-|[<-|[]]]]; vm_compute; reflexivity. Qed.
