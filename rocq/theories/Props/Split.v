(** Property C89: the keys that bond stores can be split by pebble's comparer. *)

From Coq Require Import List NArith Bool Arith Lia.
From Verif.Model Require Import Bytes Go Keys Pebble Index Table Bloom.
From Verif.Spec Require Import StoreSpec TableSpec HistSpec SplitSpec.
From Verif.Proofs Require Import Witness TableBugs FilterBugs SplitFacts SplitBugs.
Import ListNotations.

(** C89. Whatever tables are written by whatever calls, through batches or not, with ReIndex, NewUserKey, filters with the default prefix,
    Open and Restore, in any order and stopped anywhere: every stored key can be split.
    Missing: keys that DB.Set is given directly, and filters with a prefix of the caller. *)
Theorem C89_stored_keys_partial : forall db k v, reached db -> kv_get db k = Some v -> splittable k.
Proof. exact stored_keys. Qed.
Print Assumptions C89_stored_keys_partial.

(** Tables, a batch, a user key and a saved filter: 15 keys, of all four sorts. *)
Example C89_stored_keys_case : reached mixed_saved /\ length mixed_saved = 15 /\
  kv_get mixed_saved (new_user_key [x61; x62]) = Some [x01] /\ kv_get mixed_saved (count_key demo_config) <> None.
Proof. split; [exact mixed_reached|]. vm_compute. repeat split. discriminate. Qed.

(** C89. Table calls also delete only keys that can be split: pebble splits the key of a deletion like any other. *)
Theorem C89_touched_keys : forall T F (tb : table T F) ev db fl b c rows olds w r b', fit tb -> env_ok ev ->
  run_call tb ev db fl (Some b) c = (w, r) \/ unsafe_insert tb ev db fl (Some b) rows = (w, r) \/
  unsafe_update tb ev db fl (Some b) rows olds = (w, r) ->
  Table.r_batch w = Some b' -> (forall o k, In o (b_ops b) -> touched o = Some k -> splittable k) ->
  forall o k, In o (b_ops b') -> touched o = Some k -> splittable k.
Proof. exact @call_touches. Qed.
Print Assumptions C89_touched_keys.

(** A row is deleted and another one is updated so that its entries move: deletions of a data key and of entries. *)
Example C89_touched_keys_case : fit accts /\ env_ok (T:=acct) (demo_env 2) /\
  let b0 := Batch true [] in
  let w1 := fst (run_call accts (demo_env 2) abc_db tt (Some b0) (CDelete [Acct 3 10 5 true])) in
  match Table.r_batch w1 with
  | Some b1 => match Table.r_batch (fst (run_call accts (demo_env 2) abc_db tt (Some b1) (CUpdate [Acct 1 11 7 true]))) with
               | Some b2 => length (filter (fun o => match o with BDel _ => true | _ => false end) (b_ops b2)) = 5 /\
                            length (filter (fun o => match o with BSet _ _ => true | _ => false end) (b_ops b2)) = 3
               | None => False
               end
  | None => False
  end.
Proof. split; [exact accts_fit|]. split; [apply demo_env_ok; lia|]. vm_compute. split; reflexivity. Qed.

(** C89. On keys that can be split the comparer keeps the contract of pebble's Split: the prefix is a prefix of its key, its own prefix,
    below every longer key with that prefix; prefixes are ordered as their keys are; keys with the same prefix are ordered as their suffixes. *)
Theorem C89_contract : forall a b, splittable a -> splittable b ->
  exists pa sa pb sb, key_prefix_of a = Ok pa /\ key_prefix_of b = Ok pb /\ a = pa ++ sa /\ b = pb ++ sb /\
    key_prefix_of pa = Ok pa /\ (sa <> [] -> bcmp pa a = Lt) /\
    (bcmp a b <> Gt -> bcmp pa pb <> Gt) /\ (pa = pb -> bcmp a b = bcmp sa sb).
Proof. exact comparer. Qed.
Print Assumptions C89_contract.

(** Two keys of one table whose prefixes differ in length. *)
Example C89_contract_case :
  let a := [x07; x01; x00; x00; x00; x01; x41; x00; x00; x00; x00; x05] in
  let b := [x07; x01; x00; x00; x00; x02; x41; x42; x00] in
  splittable a /\ splittable b /\ bcmp a b = Lt /\
  key_prefix_of a = Ok [x07; x01; x00; x00; x00; x01; x41] /\ key_prefix_of b = Ok [x07; x01; x00; x00; x00; x02; x41; x42].
Proof. vm_compute. repeat split; try discriminate; lia. Qed.

(** C89. Split panics on every other key. *)
Theorem C89_unsplittable : forall k, ~ splittable k -> key_prefix_of k = Panic.
Proof. exact unsplittable. Qed.
Print Assumptions C89_unsplittable.

Example C89_unsplittable_case : ~ splittable [x75; x73; x65; x72; x73] /\ ~ splittable [x75; x73; x65; x72; x73; x5f; x31].
Proof. split; intros [H1 H2]; vm_compute in H1, H2; [lia|contradiction (H2 eq_refl)]. Qed.

(** C89, refuted for DB.Set: it stores the key "users" as it is, and Split panics on it. *)
Theorem C89_raw_key_refuted : exists db k v, reached db /\ kv_get (kv_set db k v) k = Some v /\ key_prefix_of k = Panic.
Proof. exists abc_db, [x75; x73; x65; x72; x73], [x01]. split; [exact abc_reached|]. split; vm_compute; reflexivity. Qed.
Print Assumptions C89_raw_key_refuted.

(** C89, refuted for filters with a prefix of the caller: Save under "users_" stores keys on which Split panics. *)
Theorem C89_filter_prefix_refuted : exists c db bs, reached db /\
  exists k v, kv_get (fst (fst (bloom_save db_storer demo_codec c None db bs))) k = Some v /\ key_prefix_of k = Panic.
Proof.
  pose (c := Config 64 2 2 [x75; x73; x65; x72; x73; x5f]).
  exists c, abc_db, (new_bloom c). split; [exact abc_reached|]. exists (count_key c). eexists. split; vm_compute; reflexivity.
Qed.
Print Assumptions C89_filter_prefix_refuted.
