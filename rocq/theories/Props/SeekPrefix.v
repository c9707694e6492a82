(** Property C83: SeekPrefixGE. *)

From Coq Require Import List NArith Lia Bool Arith Sorting.Sorted.
From Verif.Model Require Import Bytes Go Keys Pebble Index Table Scan Iter SeekPrefix.
From Verif.Spec Require Import KeySpec StoreSpec TableSpec IterSpec SplitSpec.
From Verif.Proofs Require Import Witness TableBugs SplitFacts SplitBugs SeekPrefixFacts.
Import ListNotations.

(** C83. Whatever was called before, SeekPrefixGE of a key (within the bounds, or with the prefix of the bound it is beyond) and then any number of Next visit, in key order and each once, exactly
    the stored pairs at or behind the key that have its prefix (same table, index and index part, C10), say exactly whether there is one, and
    leave no error. The database holds keys that can be split, as C89 says of every database that is reached. *)
Theorem C83_seek_prefix : forall db ob lo hi k, kv_ok db -> readable ob -> (forall k' v, kv_get (view db ob) k' = Some v -> splittable k') ->
  splittable k -> bcmp lo k <> Gt \/ key_prefix_of lo = key_prefix_of k -> bcmp k hi <> Gt \/ key_prefix_of hi = key_prefix_of k ->
  exists (p : bytes) (l : kv), key_prefix_of k = Ok p /\ StronglySorted (fun a b => bcmp (fst a) (fst b) = Lt) l /\
    (forall k' v, In (k', v) l <-> kv_get (view db ob) k' = Some v /\ bcmp lo k' <> Gt /\ bcmp k' hi = Lt /\ bcmp k k' <> Gt /\ key_prefix_of k' = Ok p) /\
    forall cs x0 rs0 n, x_run lo hi cs (x_new (db_iter db ob lo hi)) = Ok (x0, rs0) ->
      exists x, x_run lo hi (cs ++ XPrefix k :: repeat (XCall INext) n) (x_new (db_iter db ob lo hi)) =
                Ok (x, rs0 ++ map (fun i => Nat.ltb i (length l)) (seq 0 (S n))) /\
        it_item (x_it x) = nth_error l n /\ x_error x = None.
Proof. exact seek_prefix. Qed.
Print Assumptions C83_seek_prefix.

(** Accounts by kind, higher scores first: 1 (score 6) and 3 (score 5) are of kind 10, 9 is of kind 12. From score 9 of kind 10 on, two are
    found and then no more, though Next without the prefix goes on to account 9. *)
Definition kind_lo : bytes := [x07; x01; x00; x00; x00; x00].
Definition kind_hi : bytes := [x07; x02; x00; x00; x00; x00].
Definition by_kind (n kd s : N) : bytes := entry_key (schema_of accts) (sindex_of acct_by_kind) (Acct n kd s true).
Definition walk (cs : list xcall) : option (bytes * list bool * bool) :=
  match x_run kind_lo kind_hi cs (x_new (db_iter mixed None kind_lo kind_hi)) with
  | Ok (x, rs) => Some (it_key (x_it x), rs, match x_error x with Some _ => true | None => false end)
  | _ => None
  end.

Example C83_seek_prefix_case : kv_ok mixed /\ (forall k v, kv_get (view mixed None) k = Some v -> splittable k) /\ splittable (by_kind 0 10 9) /\ bcmp kind_lo (by_kind 0 10 9) <> Gt /\ bcmp (by_kind 0 10 9) kind_hi <> Gt /\
  walk [XCall ILast; XPrefix (by_kind 0 10 9)] = Some (by_kind 1 10 6, [true; true], false) /\
  walk [XPrefix (by_kind 0 10 9); XCall INext] = Some (by_kind 3 10 5, [true; true], false) /\
  walk [XPrefix (by_kind 0 10 9); XCall INext; XCall INext; XCall INext] = Some ([], [true; true; false; false], false) /\
  walk [XCall (ISeekGE (by_kind 0 10 9)); XCall INext; XCall INext] = Some (by_kind 9 12 1, [true; true; true], false) /\
  walk [XPrefix (by_kind 2 10 5); XCall INext] = Some ([], [true; false], false).
Proof.
  split; [exact mixed_ok|]. split; [exact mixed_keys|]. split; [split; vm_compute; [lia|discriminate]|]. split; [vm_compute; discriminate|]. split; [vm_compute; discriminate|].
  split; [vm_compute; reflexivity|]. split; [vm_compute; reflexivity|]. split; [vm_compute; reflexivity|]. split; vm_compute; reflexivity.
Qed.

(** C83. No call panics, whatever the keys within or outside of the bounds, if the keys given to SeekPrefixGE and the bounds can be split. *)
Theorem C83_prefix_never_panics : forall db ob lo hi cs, kv_ok db -> readable ob -> (forall k v, kv_get (view db ob) k = Some v -> splittable k) ->
  splittable lo -> splittable hi -> (forall k, In (XPrefix k) cs -> splittable k) ->
  exists x rs, x_run lo hi cs (x_new (db_iter db ob lo hi)) = Ok (x, rs).
Proof. exact prefix_never_panics. Qed.
Print Assumptions C83_prefix_never_panics.

Example C83_never_panics_case : splittable kind_lo /\ splittable kind_hi /\
  walk [XPrefix (by_kind 0 9 0); XCall INext; XPrefix [x00; x00; x00; x00; x00; x00]; XCall IFirst] = Some (by_kind 1 10 6, [false; false; false; true], false) /\
  walk [XPrefix [x00; x00; x00; x00; x00; x00]; XCall INext] = Some ([], [false; false], true).
Proof. split; [split; vm_compute; [lia|discriminate]|]. split; [split; vm_compute; [lia|discriminate]|]. split; vm_compute; reflexivity. Qed.

(** C83. A key beyond a bound that has another prefix is an error: the iterator is on no key, and Next says false. *)
Theorem C83_prefix_outside_refuted : forall lo hi k p q i, pi_err i = None -> key_prefix_of k = Ok p -> q <> p ->
  (bcmp k lo = Lt /\ key_prefix_of lo = Ok q) \/ (bcmp lo k <> Gt /\ bcmp hi k = Lt /\ key_prefix_of hi = Ok q) ->
  exists x, x_seek lo hi k i = Ok x /\ it_valid (x_it x) = false /\ x_error x <> None /\
    forall n, exists rs, x_run lo hi (repeat (XCall INext) n) x = Ok (x, rs) /\ forall r, In r rs -> r = false.
Proof. exact prefix_outside. Qed.
Print Assumptions C83_prefix_outside_refuted.

(** Below the lower bound and above the upper one. *)
Example C83_prefix_outside_case :
  walk [XCall IFirst; XPrefix [x07; x00; x00; x00; x00; x00; x01]] = Some ([], [true; false], true) /\
  walk [XCall IFirst; XPrefix [x07; x02; x00; x00; x00; x01; x01]; XCall INext] = Some ([], [true; false; false], true).
Proof. split; vm_compute; reflexivity. Qed.

(** C83. First, Last, SeekGE and SeekLT end it: from there on the iterator acts as if SeekPrefixGE had not been called (C83_db_iterator). *)
Theorem C83_after_prefix_seek : forall lo hi open i cs x0 rs0, x_run lo hi cs (x_new i) = Ok (x0, rs0) -> forall c ds, positions c = true ->
  exists i' rs, run_calls open (c :: ds) (BOne i) = Ok (BOne i', rs) /\
    x_run lo hi (cs ++ map XCall (c :: ds)) (x_new i) = Ok (x_new i', rs0 ++ rs).
Proof. exact plain_again. Qed.
Print Assumptions C83_after_prefix_seek.

Example C83_after_prefix_case :
  walk [XPrefix (by_kind 3 10 5); XCall INext; XCall (ISeekLT (by_kind 3 10 5)); XCall INext; XCall INext] = Some (by_kind 9 12 1, [true; false; true; true; true], false) /\
  walk [XPrefix (by_kind 3 10 5); XCall IPrev; XCall IFirst; XCall INext] = Some (by_kind 3 10 5, [true; false; true; true], false).
Proof. split; vm_compute; reflexivity. Qed.

(** C83. Prev behind SeekPrefixGE does not go back to smaller keys of the prefix: it is an error, and Next says false from there on. *)
Theorem C83_prefix_prev_refuted : forall lo hi k i x, pi_err i = None -> x_seek lo hi k i = Ok x -> x_bad x = None ->
  exists x', x_call lo hi (XCall IPrev) x = Ok x' /\ it_valid (x_it x') = false /\ x_error x' <> None /\
    forall n, exists rs, x_run lo hi (repeat (XCall INext) n) x' = Ok (x', rs) /\ forall r, In r rs -> r = false.
Proof. exact prefix_prev. Qed.
Print Assumptions C83_prefix_prev_refuted.

Example C83_prefix_prev_case : walk [XPrefix (by_kind 3 10 5)] = Some (by_kind 3 10 5, [true], false) /\
  walk [XPrefix (by_kind 3 10 5); XCall IPrev] = Some ([], [true; false], true) /\
  walk [XPrefix (by_kind 3 10 5); XCall IPrev; XCall INext] = Some ([], [true; false; false], true).
Proof. split; [|split]; vm_compute; reflexivity. Qed.

(** C83. An iterator that could not be made says false to every call, SeekPrefixGE of any key included, and has its error. *)
Theorem C83_prefix_failed : forall lo hi e cs, exists x, x_run lo hi cs (x_new (err_iter e)) = Ok (x, map (fun _ => false) cs) /\ x_error x = Some e.
Proof. exact prefix_failed. Qed.
Print Assumptions C83_prefix_failed.

(** Through a write-only batch, with a key that cannot be split. *)
Example C83_prefix_failed_case : db_iter mixed (Some (Batch false [])) kind_lo kind_hi = err_iter ENotIndexed /\
  match x_run kind_lo kind_hi [XPrefix [x01]; XCall INext; XCall IPrev] (x_new (err_iter ENotIndexed)) with
  | Ok (x, rs) => rs = [false; false; false] /\ x_error x = Some ENotIndexed
  | _ => False
  end.
Proof. split; [reflexivity|]. vm_compute. split; reflexivity. Qed.
