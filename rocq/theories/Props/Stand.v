(** Property C97: calls that can stand for others. *)

From Coq Require Import List NArith Bool Arith Lia.
From Verif.Model Require Import Bytes Go Keys Pebble Index Table.
From Verif.Spec Require Import KeySpec StoreSpec TableSpec HistSpec RetrySpec LawSpec.
From Verif.Proofs Require Import Witness TableBugs RetryBugs TraceBugs TraceLaws.
Import ListNotations.

(** C97. Where Insert of rows succeeds, Upsert of these rows with any onConflict succeeds too and leaves the same database. *)
Theorem C97_upsert_inserts : forall T F (tb : table T F), good_table tb -> forall ev ev' f l db fl m w,
  env_ok ev -> env_ok ev' -> quiet ev' -> consistent tb db fl m -> admissible (schema_of tb) m (CUpsert f l) ->
  run_call tb ev db fl None (CInsert l) = (w, Ok tt) -> exists w', run_call tb ev' db fl None (CUpsert f l) = (w', Ok tt) /\ r_db w' = r_db w.
Proof. exact @upsert_inserts. Qed.
Print Assumptions C97_upsert_inserts.

(** C97. Where Update of rows succeeds, Upsert of these rows with an onConflict that replaces succeeds too and leaves the same database. *)
Theorem C97_upsert_updates : forall T F (tb : table T F), good_table tb -> forall ev ev' f l db fl m w,
  env_ok ev -> env_ok ev' -> quiet ev' -> consistent tb db fl m -> admissible (schema_of tb) m (CUpsert f l) -> (forall old r, f old r = r) ->
  run_call tb ev db fl None (CUpdate l) = (w, Ok tt) -> exists w', run_call tb ev' db fl None (CUpsert f l) = (w', Ok tt) /\ r_db w' = r_db w.
Proof. exact @upsert_updates. Qed.
Print Assumptions C97_upsert_updates.

(** C97. Where Update of rows succeeds, Delete of the stored rows and Insert of the new ones succeed too and leave the same database. *)
Theorem C97_update_in_two : forall T F (tb : table T F), good_table tb -> forall ev ev' ev2 l olds db fl m w,
  env_ok ev -> env_ok ev' -> env_ok ev2 -> quiet ev' -> quiet ev2 -> consistent tb db fl m -> admissible (schema_of tb) m (CUpdate l) ->
  map (s_pk (schema_of tb)) olds = map (s_pk (schema_of tb)) l -> (forall r, In r olds -> m (s_pk (schema_of tb) r) = Some r) ->
  run_call tb ev db fl None (CUpdate l) = (w, Ok tt) ->
  exists w1 w2, run_call tb ev' db fl None (CDelete olds) = (w1, Ok tt) /\ run_call tb ev2 (r_db w1) (r_flt w1) None (CInsert l) = (w2, Ok tt) /\ r_db w2 = r_db w.
Proof. exact @update_in_two. Qed.
Print Assumptions C97_update_in_two.

(** Rows 7 and 8 inserted, with an onConflict that adds; rows 1 and 3 updated. *)
Example C97_upsert_inserts_case : env_ok (demo_env 2 : env acct) /\ quiet (demo_env 2 : env acct) /\ consistent accts abc_db tt abc_map /\
  admissible asc abc_map (CUpsert adding [Acct 8 10 2 true; Acct 7 12 1 true]) /\
  snd (run_call accts (demo_env 2) abc_db tt None (CInsert [Acct 8 10 2 true; Acct 7 12 1 true])) = Ok tt /\
  length (left_by (CInsert [Acct 8 10 2 true; Acct 7 12 1 true]) abc_db) = length abc_db + 6.
Proof.
  split; [apply demo_env_ok; lia|]. split; [apply demo_env_quiet|]. split; [exact abc_stored|]. split; [|split; vm_compute; reflexivity].
  split; [apply acct_rows_ok|]. split; [constructor; [intros [E|[]]; revert E; vm_compute; discriminate|]; constructor; [intros []|constructor]|].
  intros old r E _ _. split; [reflexivity|apply acct_row_ok].
Qed.

Example C97_update_case : admissible asc abc_map (CUpsert replacing [Acct 1 12 9 true; Acct 3 11 5 false]) /\
  admissible asc abc_map (CUpdate [Acct 1 12 9 true; Acct 3 11 5 false]) /\
  map (s_pk asc) [Acct 1 10 6 true; Acct 3 10 5 true] = map (s_pk asc) [Acct 1 12 9 true; Acct 3 11 5 false] /\
  (forall r, In r [Acct 1 10 6 true; Acct 3 10 5 true] -> abc_map (s_pk asc r) = Some r) /\
  snd (run_call accts (demo_env 2) abc_db tt None (CUpdate [Acct 1 12 9 true; Acct 3 11 5 false])) = Ok tt /\
  length (left_by (CUpdate [Acct 1 12 9 true; Acct 3 11 5 false]) abc_db) <> length abc_db.
Proof.
  assert (ND : NoDup (map (s_pk asc) [Acct 1 12 9 true; Acct 3 11 5 false])).
  { constructor; [intros [E|[]]; revert E; vm_compute; discriminate|]. constructor; [intros []|constructor]. }
  split; [split; [apply acct_rows_ok|split; [exact ND|intros old r E _ O; split; [reflexivity|exact O]]]|]. split; [split; [apply acct_rows_ok|exact ND]|].
  split; [vm_compute; reflexivity|]. split; [intros r [<-|[<-|[]]]; vm_compute; reflexivity|]. split; [vm_compute; reflexivity|vm_compute; discriminate].
Qed.
