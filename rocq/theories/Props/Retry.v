(** Property C91: a write call that is repeated until it is answered takes effect once. *)

From Coq Require Import List NArith Bool Arith Lia.
From Verif.Model Require Import Bytes Go Keys Pebble Index Table.
From Verif.Spec Require Import KeySpec StoreSpec TableSpec HistSpec RetrySpec.
From Verif.Proofs Require Import Witness TableBugs RetryFacts RetryAmong RetryBugs.
Import ListNotations.

(** C91. Any number of tries of one call, cancelled, failing, answered, or cut short by the death of the process before or after the commit: the
    database, to the last key, is the one before or the one that a single successful call leaves, and the latter if any try was told success.
    Missing: Upsert with an onConflict for which merging the row again matters; false there, see [C91_merge_refuted]. *)
Theorem C91_tries_partial : forall T F (tb : table T F), good_table tb -> forall c db fl m rs db' fl',
  consistent tb db fl m -> admissible (schema_of tb) m c -> repeatable tb m c -> tries tb c db fl rs db' fl' ->
  (db' = db /\ ~ In (Some (Ok tt)) rs) \/
  (Rep (schema_of tb) db' (effect (schema_of tb) m c) /\
   forall ev fl0 w, env_ok ev -> covers tb fl0 db -> run_call tb ev db fl0 None c = (w, Ok tt) -> db' = r_db w).
Proof. exact @tries_once. Qed.
Print Assumptions C91_tries_partial.

(** Upsert of a stored and a new row: the process dies after the commit, the next try is cancelled, the third one succeeds; the database is the one
    of a single call, and not the old one. *)
Example C91_tries_case : consistent accts abc_db tt abc_map /\ admissible asc abc_map replace_1 /\ repeatable accts abc_map replace_1 /\
  (exists db' e, tries accts replace_1 abc_db tt [None; Some (Err e); Some (Ok tt)] db' tt /\ db' <> abc_db /\ db' = left_by replace_1 abc_db) /\
  snd (run_call accts (demo_env 2) abc_db tt None replace_1) = Ok tt.
Proof.
  split; [exact abc_stored|]. split; [exact replace_admissible|]. split; [exact replace_repeatable|]. split; [|vm_compute; reflexivity].
  exists (left_by replace_1 abc_db), ECtx. split; [exact replaced_thrice|]. split; [vm_compute; discriminate|reflexivity].
Qed.

(** C91. After any such tries, a try that is not disturbed brings the database to what one call leaves. Update, Delete and Upsert are told success.
    Insert is told success, or that the key exists, and the latter only if an earlier try took effect. *)
Theorem C91_last_try_partial : forall T F (tb : table T F), good_table tb -> forall c db fl m rs db' fl' ev w r,
  consistent tb db fl m -> admissible (schema_of tb) m c -> repeatable tb m c -> tries tb c db fl rs db' fl' ->
  succeeds (schema_of tb) m c -> env_ok ev -> quiet ev -> run_call tb ev db' fl' None c = (w, r) ->
  Rep (schema_of tb) (r_db w) (effect (schema_of tb) m c) /\
  (forall ev0 fl0 w0, env_ok ev0 -> covers tb fl0 db -> run_call tb ev0 db fl0 None c = (w0, Ok tt) -> r_db w = r_db w0) /\
  (r = Ok tt \/ is_insert c /\ (exists k, r = Err (EExists k)) /\ db' <> db).
Proof. exact @last_try. Qed.
Print Assumptions C91_last_try_partial.

(** An Insert that took effect before the process died: the next try is told that the key exists, and the row is there once. *)
Example C91_last_try_case : consistent accts abc_db tt abc_map /\ admissible asc abc_map insert_8 /\ repeatable accts abc_map insert_8 /\
  succeeds asc abc_map insert_8 /\ tries accts insert_8 abc_db tt [None] (left_by insert_8 abc_db) tt /\ env_ok (T:=acct) (demo_env 2) /\
  quiet (T:=acct) (demo_env 2) /\ (exists k, snd (run_call accts (demo_env 2) (left_by insert_8 abc_db) tt None insert_8) = Err (EExists k)) /\
  length (left_by insert_8 abc_db) = length abc_db + 3.
Proof.
  split; [exact abc_stored|]. split; [exact insert_admissible|]. split; [exact Logic.I|]. split; [exact insert_succeeds|]. split; [exact insert_tried|].
  split; [exact demo2|]. split; [apply demo_env_quiet|]. split; [eexists; vm_compute; reflexivity|vm_compute; reflexivity].
Qed.

(** C91. The same while any other calls are made on rows with other keys: afterwards the rows of the call are as before or as one call leaves them,
    the latter if a try was told success, and all other rows are as the other calls leave them. *)
Theorem C91_among_others_partial : forall T F (tb : table T F), good_table tb -> forall c db fl m rs after db' fl',
  consistent tb db fl m -> admissible (schema_of tb) m c -> repeatable tb m c -> tries_among tb c m [] db fl rs after db' fl' ->
  exists dn mm, consistent tb db' fl' mm /\ same_outside (schema_of tb) db db' /\ (In (Some (Ok tt)) rs -> dn = true) /\
    (forall r, In r (rows_of c) -> mm (s_pk (schema_of tb) r) = (if dn then effect (schema_of tb) m c else m) (s_pk (schema_of tb) r)) /\
    (forall p, (forall r, In r (rows_of c) -> s_pk (schema_of tb) r <> p) -> mm p = outcome (schema_of tb) m after p).
Proof. exact @tries_among_done. Qed.
Print Assumptions C91_among_others_partial.

(** An Upsert of rows 1 and 7 is made twice, and row 8 is inserted in between. *)
Example C91_among_others_case : consistent accts abc_db tt abc_map /\ admissible asc abc_map replace_1 /\ repeatable accts abc_map replace_1 /\
  tries_among accts replace_1 abc_map [] abc_db tt [None; Some (Ok tt)] [(insert_8, true)] after_both tt /\
  after_both = left_by replace_1 (left_by insert_8 abc_db) /\ length after_both = length abc_db + 6.
Proof.
  split; [exact abc_stored|]. split; [exact replace_admissible|]. split; [exact replace_repeatable|]. split; [exact replaced_among|].
  split; vm_compute; reflexivity.
Qed.

(** C91, refuted for an Upsert that adds to the stored row: the process dies after the commit, the next try succeeds, and the row was added to twice. *)
Theorem C91_merge_refuted : exists (c : call acct) db', admissible asc abc_map c /\ consistent accts abc_db tt abc_map /\
  tries accts c abc_db tt [None; Some (Ok tt)] db' tt /\ db' <> abc_db /\
  exists w, run_call accts (demo_env 2) abc_db tt None c = (w, Ok tt) /\ db' <> r_db w.
Proof.
  exact (match added_twice with
         | ex_intro _ db' (conj A (conj B (conj C D))) =>
             ex_intro _ add_to_1 (ex_intro _ db' (conj add_admissible (conj abc_stored (conj A (conj B (ex_intro _ _ (conj C D)))))))
         end).
Qed.
Print Assumptions C91_merge_refuted.
