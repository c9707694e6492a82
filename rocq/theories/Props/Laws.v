(** Property C92: the order of the rows of a call, the division of rows into calls, and the order of calls on different rows do not matter. *)

From Coq Require Import List NArith Bool Arith Lia Sorting.Permutation.
From Verif.Model Require Import Bytes Go Keys Pebble Index Table.
From Verif.Spec Require Import KeySpec StoreSpec TableSpec HistSpec RetrySpec LawSpec.
From Verif.Proofs Require Import Witness TableBugs RetryFacts RetryBugs LawFacts LawMany LawBugs.
Import ListNotations.

(** C92. A call with its rows in another order succeeds as well or fails as well, and leaves the same database, to the last key. The two calls may sort and
    range over maps differently.
    Missing: calls with a primary key twice, false there, see [C92_repeated_refuted]; Deletes given other records than the stored ones. *)
Theorem C92_permuted_partial : forall T F (tb : table T F), good_table tb -> forall ev ev' c l db fl m w r w' r',
  env_ok ev -> quiet ev -> env_ok ev' -> quiet ev' -> consistent tb db fl m -> admissible (schema_of tb) m c -> Permutation (rows_of c) l ->
  run_call tb ev db fl None c = (w, r) -> run_call tb ev' db fl None (with_rows c l) = (w', r') ->
  (r = Ok tt <-> r' = Ok tt) /\ r_db w = r_db w'.
Proof. exact @permuted. Qed.
Print Assumptions C92_permuted_partial.

(** An Update of two stored rows. *)
Example C92_permuted_case : consistent accts abc_db tt abc_map /\ admissible asc abc_map update_13 /\ Permutation (rows_of update_13) [upd_3; upd_1] /\
  env_ok (T:=acct) (demo_env 2) /\ quiet (T:=acct) (demo_env 2) /\ snd (run_call accts (demo_env 2) abc_db tt None update_13) = Ok tt /\
  left_by update_13 abc_db <> abc_db.
Proof.
  split; [exact abc_stored|]. split; [exact update_13_admissible|]. split; [apply perm_swap|]. split; [exact demo2|]. split; [apply demo_env_quiet|].
  split; [vm_compute; reflexivity|vm_compute; discriminate].
Qed.

(** C92. A call succeeds if and only if the same call with the first of its rows succeeds and then the one with the others, and then both ways leave the same
    database. *)
Theorem C92_parts_partial : forall T F (tb : table T F), good_table tb -> forall ev ev1 ev2 c a b db fl m w r w1 r1 w2 r2,
  env_ok ev -> quiet ev -> env_ok ev1 -> quiet ev1 -> env_ok ev2 -> quiet ev2 -> consistent tb db fl m -> admissible (schema_of tb) m c ->
  rows_of c = a ++ b -> run_call tb ev db fl None c = (w, r) ->
  run_call tb ev1 db fl None (with_rows c a) = (w1, r1) -> run_call tb ev2 (r_db w1) (r_flt w1) None (with_rows c b) = (w2, r2) ->
  (r = Ok tt -> r1 = Ok tt /\ r2 = Ok tt /\ r_db w = r_db w2) /\ (r1 = Ok tt -> r2 = Ok tt -> r = Ok tt).
Proof. exact @in_parts. Qed.
Print Assumptions C92_parts_partial.

(** The same Update as two Updates of one row. *)
Example C92_parts_case : consistent accts abc_db tt abc_map /\ admissible asc abc_map update_13 /\ rows_of update_13 = [upd_1] ++ [upd_3] /\
  snd (run_call accts (demo_env 2) abc_db tt None update_13) = Ok tt /\
  left_by update_13 abc_db = left_by (CUpdate [upd_3]) (left_by (CUpdate [upd_1]) abc_db) /\ left_by update_13 abc_db <> left_by (CUpdate [upd_1]) abc_db.
Proof.
  split; [exact abc_stored|]. split; [exact update_13_admissible|]. split; [reflexivity|]. split; [vm_compute; reflexivity|].
  split; [vm_compute; reflexivity|vm_compute; discriminate].
Qed.

(** C92. Two calls on rows with different keys, in either order: each succeeds in both orders or in neither, and the database is the same. *)
Theorem C92_either_order_partial : forall T F (tb : table T F), good_table tb -> forall e1 e2 e3 e4 c o db fl m w1 r1 w2 r2 w3 r3 w4 r4,
  env_ok e1 -> quiet e1 -> env_ok e2 -> quiet e2 -> env_ok e3 -> quiet e3 -> env_ok e4 -> quiet e4 ->
  consistent tb db fl m -> admissible (schema_of tb) m c -> admissible (schema_of tb) m o -> no_common_key tb c o ->
  run_call tb e1 db fl None c = (w1, r1) -> run_call tb e2 (r_db w1) (r_flt w1) None o = (w2, r2) ->
  run_call tb e3 db fl None o = (w3, r3) -> run_call tb e4 (r_db w3) (r_flt w3) None c = (w4, r4) ->
  (r1 = Ok tt <-> r4 = Ok tt) /\ (r2 = Ok tt <-> r3 = Ok tt) /\ r_db w2 = r_db w4.
Proof. exact @either_order. Qed.
Print Assumptions C92_either_order_partial.

(** An Upsert of rows 1 and 7 and an Insert of row 8. *)
Example C92_either_order_case : consistent accts abc_db tt abc_map /\ admissible asc abc_map replace_1 /\ admissible asc abc_map insert_8 /\
  no_common_key accts replace_1 insert_8 /\ left_by insert_8 (left_by replace_1 abc_db) = left_by replace_1 (left_by insert_8 abc_db) /\
  left_by insert_8 (left_by replace_1 abc_db) <> left_by insert_8 abc_db.
Proof.
  split; [exact abc_stored|]. split; [exact replace_admissible|]. split; [exact insert_admissible|]. split; [exact insert_replace_apart|]. exact both_orders.
Qed.

(** C92. Any number of calls on rows with different keys: each answers as it would alone, its rows are as it alone would leave them, and all others are as
    before. *)
Theorem C92_as_alone_partial : forall T F (tb : table T F), good_table tb -> forall cs db fl m db' fl',
  consistent tb db fl m -> (forall c r, In (c, r) cs -> admissible (schema_of tb) m c) -> ForallOrdPairs (no_common_key tb) (map fst cs) ->
  quiet_runs tb db fl cs db' fl' ->
  exists mm, consistent tb db' fl' mm /\ same_outside (schema_of tb) db db' /\
    (forall c r, In (c, r) cs -> (r = Ok tt <-> succeeds (schema_of tb) m c) /\
      forall x, In x (rows_of c) -> mm (s_pk (schema_of tb) x) = (if ok_of r then effect (schema_of tb) m c else m) (s_pk (schema_of tb) x)) /\
    (forall p, (forall c r, In (c, r) cs -> ~ exists x, In x (rows_of c) /\ s_pk (schema_of tb) x = p) -> mm p = m p).
Proof. exact @as_alone. Qed.
Print Assumptions C92_as_alone_partial.

(** C92. In every order they answer alike and leave the same database. *)
Theorem C92_any_order_partial : forall T F (tb : table T F), good_table tb -> forall cs cs' db fl m d1 f1 d2 f2,
  consistent tb db fl m -> (forall c r, In (c, r) cs -> admissible (schema_of tb) m c) -> ForallOrdPairs (no_common_key tb) (map fst cs) ->
  Permutation (map fst cs) (map fst cs') -> quiet_runs tb db fl cs d1 f1 -> quiet_runs tb db fl cs' d2 f2 ->
  d1 = d2 /\ forall c r r', In (c, r) cs -> In (c, r') cs' -> (r = Ok tt <-> r' = Ok tt).
Proof. exact @any_order. Qed.
Print Assumptions C92_any_order_partial.

(** An Upsert of rows 1 and 7, an Insert of row 8 and an Update of row 9, which is not stored; in this order and in another. *)
Example C92_any_order_case : consistent accts abc_db tt abc_map /\ (forall c, In c [replace_1; insert_8; update_9] -> admissible asc abc_map c) /\
  ForallOrdPairs (no_common_key accts) [replace_1; insert_8; update_9] /\ Permutation [replace_1; insert_8; update_9] [update_9; replace_1; insert_8] /\
  (exists e, quiet_runs accts abc_db tt [(replace_1, Ok tt); (insert_8, Ok tt); (update_9, Err e)] after_both tt) /\
  (exists e, quiet_runs accts abc_db tt [(update_9, Err e); (replace_1, Ok tt); (insert_8, Ok tt)] after_both tt).
Proof.
  split; [exact abc_stored|]. split; [exact three_admissible|]. split; [exact three_apart|].
  split; [exact (Permutation_sym (Permutation_cons_append [replace_1; insert_8] update_9))|]. split; [exact three_run|exact three_run_else].
Qed.

(** C92, refuted for an Upsert with a primary key twice: it succeeds in both orders with different databases, and the same rows in two calls leave
    two keys less. *)
Theorem C92_repeated_refuted : exists a b : acct, consistent accts abc_db tt abc_map /\
  (snd (run_call accts (demo_env 2) abc_db tt None (both_ways [a; b])) = Ok tt /\ snd (run_call accts (demo_env 2) abc_db tt None (both_ways [b; a])) = Ok tt /\
   left_by (both_ways [a; b]) abc_db <> left_by (both_ways [b; a]) abc_db) /\
  (snd (run_call accts (demo_env 2) abc_db tt None (both_ways [a; b])) = Ok tt /\ snd (run_call accts (demo_env 2) abc_db tt None (both_ways [a])) = Ok tt /\
   snd (run_call accts (demo_env 2) (left_by (both_ways [a]) abc_db) tt None (both_ways [b])) = Ok tt /\
   length (left_by (both_ways [a; b]) abc_db) = length (left_by (both_ways [b]) (left_by (both_ways [a]) abc_db)) + 2).
Proof. exact (ex_intro _ v5 (ex_intro _ v9 (conj abc_stored (conj order_matters parts_matter)))). Qed.
Print Assumptions C92_repeated_refuted.
