(** Keys that pebble's comparer can split, and the databases that bond's calls lead to; property C89. *)

From Coq Require Import List NArith.
From Verif.Model Require Import Bytes Go Keys Pebble Index Table ReIndex Bloom Backup Version.
From Verif.Spec Require Import StoreSpec TableSpec HistSpec.
Import ListNotations.

(** Six bytes or more, and room for as many bytes as the number in bytes 2 to 5 says; what /repo/keys.go:345-347 needs of a key. *)
Definition splittable (k : bytes) : Prop :=
  6 <= length k /\ (6 + be_val (firstn 4 (skipn 2 k)) <= N.of_nat (length k))%N.

(** Key functions as the builder makes them, and index parts below 4 GB. *)
Definition fit {T F} (tb : table T F) : Prop := lawful tb /\ forall r, row_ok (schema_of tb) r.

(** The key that an operation of a batch sets or deletes. *)
Definition touched (o : bop) : option bytes := match o with BSet k _ => Some k | BDel k => Some k | BDelRange _ _ => None end.

(** What a batch can hold: calls on any tables, also ones that failed, keys made by NewUserKey, any deletions, and other batches. *)
Inductive contents : list bop -> Prop :=
| C_new : contents []
| C_call T F (tb : table T F) ev db fl b c w r b' : fit tb -> env_ok ev -> contents (b_ops b) ->
    run_call tb ev db fl (Some b) c = (w, r) -> Table.r_batch w = Some b' -> contents (b_ops b')
| C_unsafe T F (tb : table T F) ev db fl b rows olds w r b' : fit tb -> env_ok ev -> contents (b_ops b) ->
    unsafe_insert tb ev db fl (Some b) rows = (w, r) \/ unsafe_update tb ev db fl (Some b) rows olds = (w, r) ->
    Table.r_batch w = Some b' -> contents (b_ops b')
| C_user os k v : contents os -> contents (os ++ [BSet (new_user_key k) v])
| C_del os k : contents os -> contents (os ++ [BDel k])
| C_range os lo hi : contents os -> contents (os ++ [BDelRange lo hi])
| C_apply a b : contents a -> contents b -> contents (a ++ b).

(** The databases that can be reached: by calls on any tables, commits, ReIndex (stopped anywhere), keys made by NewUserKey, any deletions,
    Open (stopped anywhere), filters with the default prefix stored in the database (their Save stopped anywhere), and Restore of dumps of
    databases that can be reached. *)
Inductive reached : kv -> Prop :=
| R_new : reached []
| R_call T F (tb : table T F) ev db fl c w r : fit tb -> env_ok ev -> reached db -> run_call tb ev db fl None c = (w, r) -> reached (r_db w)
| R_unsafe T F (tb : table T F) ev db fl rows olds w r : fit tb -> env_ok ev -> reached db ->
    unsafe_insert tb ev db fl None rows = (w, r) \/ unsafe_update tb ev db fl None rows olds = (w, r) -> reached (r_db w)
| R_commit db os : reached db -> contents os -> reached (apply_ops db os)
| R_reindex T F (tb : table T F) ev db idxs : fit (with_indexes tb idxs) -> reached db -> reached (fst (re_index ev tb db idxs))
| R_user db k v : reached db -> reached (kv_set db (new_user_key k) v)
| R_del db k : reached db -> reached (kv_del db k)
| R_range db lo hi : reached db -> reached (kv_del_range db lo hi)
| R_open peb d v d' : reached (d_kv d) -> In d' (fst (open_db peb d v)) -> reached (d_kv d')
| R_filter cd h c db bs o : c_prefix c = bloom_prefix -> reached db -> reached (fst (fst (bloom_step db_storer cd h c db bs o)))
| R_restore full snap live wiD tables root db want wiR : reached snap -> reached db ->
    reached (fst (restore root (fst (dump full snap live false wiD tables)) db want wiR)).
