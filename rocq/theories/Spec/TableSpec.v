(** Independent description of what a table means: an abstract map from primary
    keys to rows, and how such a map is represented in the store. *)

From Coq Require Import List NArith Bool Sorting.Sorted Sorting.Permutation.
From Verif.Model Require Import Bytes Go Keys Pebble Index Table.
From Verif.Spec Require Import KeySpec StoreSpec.
Import ListNotations.

(** An index as the user thinks of it: a value, an order part and a filter per row. *)
Record sindex (T : Type) := SIndex {
  si_id : byte;
  si_key : T -> bytes;
  si_ord : T -> bytes;
  si_filter : T -> bool
}.
Arguments SIndex {T}.
Arguments si_id {T}.
Arguments si_key {T}.
Arguments si_ord {T}.
Arguments si_filter {T}.

(** A table as the user thinks of it. *)
Record schema (T : Type) := Schema {
  s_id : byte;
  s_pk : T -> bytes;
  s_val : T -> option bytes;
  s_indexes : list (sindex T)
}.
Arguments Schema {T}.
Arguments s_id {T}.
Arguments s_pk {T}.
Arguments s_val {T}.
Arguments s_indexes {T}.

(** The abstract content of a table: primary key to row. *)
Definition tmap (T : Type) := bytes -> option T.

Section Spec.
  Context {T : Type}.
  Variable sc : schema T.

  (** Key of the row with primary key [pk], and of the entry of row [r] in index [ix]. *)
  Definition row_key (pk : bytes) : bytes := spec_key (s_id sc) x00 [] [] pk.
  Definition entry_key (ix : sindex T) (r : T) : bytes :=
    spec_key (s_id sc) (si_id ix) (si_key ix r) (si_ord ix r) (s_pk sc r).

  (** Index parts of a row fit the 4-byte length fields. *)
  Definition row_ok (r : T) : Prop :=
    forall ix, In ix (s_indexes sc) ->
      (N.of_nat (length (si_key ix r)) < 2 ^ 32)%N /\ (N.of_nat (length (si_ord ix r)) < 2 ^ 32)%N.

  (** The store [db] holds exactly the table content [m]: the row area contains
      exactly the rows of [m], each under its primary key, and the area of each
      index contains exactly one (empty) entry per row accepted by its filter. *)
  Record Rep (db : kv) (m : tmap T) : Prop := MkRep {
    rep_rows : forall pk r, m pk = Some r -> s_pk sc r = pk /\ row_ok r /\ s_val sc r <> None;
    rep_get : forall pk, kv_get db (row_key pk) = match m pk with Some r => s_val sc r | None => None end;
    rep_data : forall rest v, kv_get db (s_id sc :: x00 :: rest) = Some v ->
                 exists pk, s_id sc :: x00 :: rest = row_key pk;
    rep_index : forall ix rest v, In ix (s_indexes sc) ->
        kv_get db (s_id sc :: si_id ix :: rest) = Some v <->
        v = [] /\ exists r, m (s_pk sc r) = Some r /\ si_filter ix r = true /\
                          s_id sc :: si_id ix :: rest = entry_key ix r
  }.

  (** Is [k] in the row area or in the area of one of the table's indexes? *)
  Definition in_table (k : bytes) : Prop :=
    exists i rest, k = s_id sc :: i :: rest /\ (i = x00 \/ exists ix, In ix (s_indexes sc) /\ i = si_id ix).

  (** Everything outside the table is the same. *)
  Definition same_outside (db db' : kv) : Prop :=
    forall k, ~ in_table k -> kv_get db' k = kv_get db k.

  (** Abstract effect of writing a row, of writing several, and of removing one. *)
  Definition put (m : tmap T) (r : T) : tmap T :=
    fun pk => if beqb pk (s_pk sc r) then Some r else m pk.
  Definition puts (m : tmap T) (l : list T) : tmap T := fold_left put l m.
  Definition remove (m : tmap T) (r : T) : tmap T :=
    fun pk => if beqb pk (s_pk sc r) then None else m pk.
  Definition removes (m : tmap T) (l : list T) : tmap T := fold_left remove l m.

  (** Abstract effect of an upsert of one row. *)
  Definition merge (f : T -> T -> T) (m : tmap T) (r : T) : tmap T :=
    put m (match m (s_pk sc r) with Some old => f old r | None => r end).
  Definition merges (f : T -> T -> T) (m : tmap T) (l : list T) : tmap T := fold_left (merge f) l m.
End Spec.

(** Reading the schema off a table: what its functions produce from an empty buffer. *)
Definition sindex_of {T} (ix : index T) : sindex T :=
  SIndex (ix_id ix) (fun r => ix_key ix (new_kb []) r)
         (fun r => kb_buff (ix_order ix (new_kb []) r)) (ix_filter ix).

Definition schema_of {T F} (tb : table T F) : schema T :=
  Schema (t_id tb) (fun r => t_pk tb (new_kb []) r) (t_ser tb) (map sindex_of (t_indexes tb)).

(** What the user's functions must satisfy: they only append to the builder they
    are given (true of every chain of KeyBuilder methods, theorem
    C08_key_builder_programs_append), and index ids are distinct and not the
    primary one. *)
Record lawful {T F} (tb : table T F) : Prop := MkLawful {
  law_pk : forall b r, t_pk tb (new_kb b) r = b ++ t_pk tb (new_kb []) r;
  law_key : forall ix b r, In ix (t_indexes tb) ->
              ix_key ix (new_kb b) r = b ++ ix_key ix (new_kb []) r;
  law_ord : forall ix b r, In ix (t_indexes tb) ->
              kb_buff (ix_order ix (new_kb b) r) = b ++ kb_buff (ix_order ix (new_kb []) r);
  law_nodup : NoDup (map ix_id (t_indexes tb));
  law_nonzero : forall ix, In ix (t_indexes tb) -> ix_id ix <> x00
}.

(** A serializer that restores what it wrote into a fresh variable, and one that
    does so whatever the variable held before. *)
Definition ser_fresh {T F} (tb : table T F) : Prop :=
  forall r v, t_ser tb r = Some v -> t_deser tb v (t_nil tb) = Some r.
Definition ser_over {T F} (tb : table T F) : Prop :=
  forall r v prior, t_ser tb r = Some v -> t_deser tb v prior = Some r.

(** The oracles behave: sorting returns a permutation that sorts, map iteration
    visits every index once, and the chunk size is positive. *)
Record env_ok {T} (ev : env T) : Prop := MkEnvOk {
  env_sort_perm : forall keys, Permutation (e_sort ev keys) (seq 0 (length keys));
  env_sort_sorted : forall keys, StronglySorted ble (map (fun i => nth i keys []) (e_sort ev keys));
  env_map_perm : forall n l, Permutation (e_map ev n l) l;
  env_chunk_pos : 0 < e_chunk ev
}.

(** No cancellation and no commit failure. *)
Definition quiet {T} (ev : env T) : Prop := (forall n, e_ctx ev n = false) /\ e_commit ev = true.

(** A filter without false negatives whose Add is monotone. *)
Definition filt_ok {F} (f : filt F) : Prop :=
  (forall s k, f_may f (f_add f s k) k = true) /\
  (forall s k k', f_may f s k = true -> f_may f (f_add f s k') k = true).

(** The filter state reports every stored row key of the table. *)
Definition covers {T F} (tb : table T F) (fl : F) (db : kv) : Prop :=
  forall f rest v, t_filter tb = Some f ->
    kv_get db (t_id tb :: x00 :: rest) = Some v -> f_may f fl (t_id tb :: x00 :: rest) = true.

(** The filter state reports every row key of the table set by the operations. *)
Definition ops_covered {T F} (tb : table T F) (fl : F) (os : list bop) : Prop :=
  forall f rest v, t_filter tb = Some f ->
    In (BSet (t_id tb :: x00 :: rest) v) os -> f_may f fl (t_id tb :: x00 :: rest) = true.

(** The same table without its filter. *)
Definition no_filter {T F} (tb : table T F) : table T F :=
  MkTable (t_id tb) (t_pk tb) (t_indexes tb) (t_ser tb) (t_deser tb) (t_nil tb) (t_empty tb) (t_prefetch tb) None.

(** The same table without its secondary indexes: only the rows. *)
Definition no_indexes {T F} (tb : table T F) : table T F :=
  MkTable (t_id tb) (t_pk tb) [] (t_ser tb) (t_deser tb) (t_nil tb) (t_empty tb) (t_prefetch tb) (t_filter tb).

Definition filter_ok {T F} (tb : table T F) : Prop :=
  forall f, t_filter tb = Some f -> filt_ok f.

(** [cs] is the list [l] cut into consecutive pieces of [n] elements, the last
    one possibly shorter but not empty. *)
Inductive is_chunks {A} (n : nat) : list A -> list (list A) -> Prop :=
| ic_nil : is_chunks n [] []
| ic_last l : 0 < length l <= n -> is_chunks n l [l]
| ic_cons c l cs : length c = n -> l <> [] -> is_chunks n l cs -> is_chunks n (c ++ l) (c :: cs).

(** Handling the pieces one after another until the first error. *)
Fixpoint run_chunks {A St} (f : list A -> St -> St * res unit) (cs : list (list A)) (s : St) : St * res unit :=
  match cs with
  | [] => (s, Ok tt)
  | c :: cs' => match f c s with
                | (s', Ok _) => run_chunks f cs' s'
                | r => r
                end
  end.

(** A table that satisfies the assumptions above. *)
Record good_table {T F} (tb : table T F) : Prop := MkGood {
  good_lawful : lawful tb;
  good_ser : ser_over tb;
  good_filter : filter_ok tb
}.

(** The store (with the filter) holds the table content [m]. *)
Record consistent {T F} (tb : table T F) (db : kv) (fl : F) (m : tmap T) : Prop := MkCons {
  cons_ok : kv_ok db;
  cons_rep : Rep (schema_of tb) db m;
  cons_covers : covers tb fl db
}.

(** The primary key [p] occurs at least twice among the rows. *)
Definition repeated {T} (sc : schema T) (l : list T) (p : bytes) : Prop :=
  2 <= length (filter (fun r => beqb (s_pk sc r) p) l).

(** A batch argument through which the data can be read: none, or a read-write one. *)
Definition readable (ob : option batch) : Prop :=
  match ob with None => True | Some b => b_rw b = true end.

(** How many rows have a smaller primary key, and how many have this one. *)
Definition below {T} (sc : schema T) (p : bytes) (l : list T) : nat := length (filter (fun r => bltb (s_pk sc r) p) l).
Definition times {T} (sc : schema T) (p : bytes) (l : list T) : nat := length (filter (fun r => beqb (s_pk sc r) p) l).

(** What Upsert stores under the key of the given row [r], which it takes first among those with this key: [r] merged with the stored row, and
    then with as many further rows as have the key, but read at the place that the key takes among the keys in order. *)
Definition upserted {T} (sc : schema T) (f : T -> T -> T) (m : tmap T) (rows : list T) (r : T) : T :=
  fold_left f (firstn (times sc (s_pk sc r) rows - 1) (skipn (S (below sc (s_pk sc r) rows)) rows))
    (match m (s_pk sc r) with Some old => f old r | None => r end).
