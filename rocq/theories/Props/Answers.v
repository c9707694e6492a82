(** Property C86: which error a write call returns, and that chance has no part in it. *)

From Coq Require Import List NArith Lia Bool Arith.
From Verif.Model Require Import Bytes Go Keys Pebble Index Table Scan.
From Verif.Spec Require Import KeySpec StoreSpec TableSpec HistSpec PartSpec.
From Verif.Proofs Require Import Witness TableBugs ScanBugs BatchPart BatchPartBugs.
Import ListNotations.

(** C86. A call without a batch handles its rows in a fixed order and stops at the first row
    that is at fault, or at which the context has ended, with the error that tells so. If there is none it
    succeeds, unless the commit fails. *)
Theorem C86_error_of_the_first_fault_partial : forall (T F : Type) (tb : table T F), good_table tb ->
  forall ev c db fl m w res, env_ok ev -> consistent tb db fl m -> admissible (schema_of tb) m c ->
  run_call tb ev db fl None c = (w, res) ->
  exists L l1 r0, in_order (schema_of tb) (e_chunk ev) c L /\ handles (schema_of tb) (e_ctx ev) m c L l1 r0 /\
    res = (match r0 with Ok _ => if e_commit ev then Ok tt else match rows_of c with [] => Ok tt | _ => Err ECommit end | _ => r0 end) /\
    consistent tb (r_db w) (r_flt w) (if ok_of res then effect (schema_of tb) m c else m) /\ (ok_of res = false -> r_db w = db) /\
    same_outside (schema_of tb) db (r_db w).
Proof. exact @direct_call_part. Qed.
Print Assumptions C86_error_of_the_first_fault_partial.

(** C86. There is only one such order and only one such row and error. *)
Theorem C86_one_order : forall (T F : Type) (tb : table T F) n c L L', 0 < n ->
  in_order (schema_of tb) n c L -> in_order (schema_of tb) n c L' -> L = L'.
Proof. exact @in_order_unique. Qed.
Print Assumptions C86_one_order.

Theorem C86_one_error : forall (T F : Type) (tb : table T F) ctx m c L l1 r l1' r',
  handles (schema_of tb) ctx m c L l1 r -> handles (schema_of tb) ctx m c L l1' r' -> l1 = l1' /\ r = r'.
Proof. exact @handles_once. Qed.
Print Assumptions C86_one_error.

Example C86_case : consistent accts abc_db tt (puts asc empty_map abc) /\
  let c := CInsert [Acct 5 1 1 true; Acct 4 2 2 true; Acct 3 0 0 true; Acct 0 3 3 true; Acct 8 0 0 true] in
  (exists L, in_order asc 2 c L /\ L = [Acct 4 2 2 true; Acct 5 1 1 true; Acct 0 3 3 true; Acct 3 0 0 true; Acct 8 0 0 true]) /\
  exists w, run_call accts (demo_env 2) abc_db tt None c = (w, Err (EExists ([x00; x00; x00; x00] ++ s_pk asc (Acct 3 0 0 true)))) /\ r_db w = abc_db.
Proof. exact (conj abc_stored (conj halves_order halves_stop)). Qed.

(** C86. So the answer and the database afterwards do not depend on the order in which Go
    goes through a map of indexes, nor on how the keys are sorted. *)
Theorem C86_same_answer_partial : forall (T F : Type) (tb : table T F), good_table tb ->
  forall ev1 ev2 c db fl m w1 r1 w2 r2, env_ok ev1 -> env_ok ev2 ->
  e_chunk ev1 = e_chunk ev2 -> (forall i, e_ctx ev1 i = e_ctx ev2 i) -> e_commit ev1 = e_commit ev2 ->
  consistent tb db fl m -> admissible (schema_of tb) m c ->
  run_call tb ev1 db fl None c = (w1, r1) -> run_call tb ev2 db fl None c = (w2, r2) -> r1 = r2 /\ r_db w1 = r_db w2.
Proof. exact @same_answer. Qed.
Print Assumptions C86_same_answer_partial.

(** C86. The same with a read-write batch. *)
Theorem C86_same_answer_in_batch_partial : forall (T F : Type) (tb : table T F), good_table tb ->
  forall ev1 ev2 c db fl b m w1 r1 w2 r2, env_ok ev1 -> env_ok ev2 -> kv_ok db -> b_rw b = true ->
  e_chunk ev1 = e_chunk ev2 -> (forall i, e_ctx ev1 i = e_ctx ev2 i) ->
  consistent tb (view db (Some b)) fl m -> admissible (schema_of tb) m c ->
  run_call tb ev1 db fl (Some b) c = (w1, r1) -> run_call tb ev2 db fl (Some b) c = (w2, r2) ->
  r1 = r2 /\ view db (r_batch w1) = view db (r_batch w2).
Proof. exact @same_answer_batch. Qed.
Print Assumptions C86_same_answer_in_batch_partial.

Example C86_same_case : exists w1 w2, env_ok (demo_env (T:=acct) 2) /\ env_ok (back_env 2) /\
  admissible asc (puts asc empty_map abc) (CUpsert newest [Acct 5 1 1 true; Acct 3 2 2 true; Acct 0 3 3 true]) /\
  run_call accts (demo_env 2) abc_db tt None (CUpsert newest [Acct 5 1 1 true; Acct 3 2 2 true; Acct 0 3 3 true]) = (w1, Ok tt) /\
  run_call accts (back_env 2) abc_db tt None (CUpsert newest [Acct 5 1 1 true; Acct 3 2 2 true; Acct 0 3 3 true]) = (w2, Ok tt) /\
  length (r_db w1) = 14 /\ r_db w1 = r_db w2.
Proof. exact halves_back. Qed.

(** C86 is false for repeated keys: of two rows with one key in an Update, which one
    is stored depends on the order in which the sort leaves equal keys, and sort.Sort is not stable. *)
Theorem C86_repeated_keys_refuted : exists w1 w2, env_ok (demo_env (T:=acct) 10) /\ env_ok (back_env 10) /\
  run_call accts (demo_env 10) one_stored tt None (CUpdate [Acct 1 11 0 true; Acct 1 12 0 true]) = (w1, Ok tt) /\
  run_call accts (back_env 10) one_stored tt None (CUpdate [Acct 1 11 0 true; Acct 1 12 0 true]) = (w2, Ok tt) /\
  get_point accts (r_db w1) tt None (Acct 1 0 0 true) = Ok (Acct 1 12 0 true) /\
  get_point accts (r_db w2) tt None (Acct 1 0 0 true) = Ok (Acct 1 11 0 true).
Proof. exact repeated_chance. Qed.
Print Assumptions C86_repeated_keys_refuted.
