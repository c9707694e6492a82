(** ReIndex while other goroutines write. ReIndex (/repo/table.go:265-336) takes no lock, and AddIndex
    (/repo/table.go:248-263) releases the table's mutex before it calls ReIndex. So between two accesses of ReIndex to the
    database (its DeleteRange calls, the creation of its iterator, its batch commits) other batches can be committed. *)

From Coq Require Import List NArith Bool Arith.
From Verif.Model Require Import Bytes Go Keys Pebble Index Table Concur ReIndex.
From Verif.Spec Require Import HistSpec.
Import ListNotations.

(** What the others commit: before the n-th write of this call, and before its iterator is created
    (/repo/table.go:270, 288, 318, 326). Several batches committed one after another are one list of operations. *)
Record others := Others { o_at : nat -> list bop; o_open : list bop }.

(** /repo/table.go:267-275, like re_delete. *)
Fixpoint live_delete {T} (ev : renv) (os : others) (tid : byte) (idxs : list (index T)) (n : nat) (db : kv) : kv * nat * bool :=
  match idxs with
  | [] => (db, n, true)
  | ix :: idxs' =>
      let db := apply_ops db (o_at os n) in
      if r_write ev n
      then live_delete ev os tid idxs' (S n) (kv_del_range db [tid; ix_id ix] [tid; n2b (b2n (ix_id ix) + 1)])
      else (db, n, false)
  end.

(** /repo/table.go:294-331, like re_rows; [items] come from the snapshot. Also returns the number of writes. *)
Fixpoint live_rows {T F} (ev : renv) (os : others) (tb : table T F) (idxs : list (index T)) (items : kv)
    (db : kv) (n : nat) (ops : list bop) (counter : nat) : kv * nat * res unit :=
  match items with
  | [] =>
      let db := apply_ops db (o_at os n) in
      if r_write ev n then (apply_ops db ops, S n, Ok tt) else (db, S n, Err ECommit)
  | (_, v) :: items' =>
      match t_deser tb v (t_nil tb) with
      | None => (db, n, Err EDeserialize)
      | Some tr =>
          let ops := ops ++ flat_map (fun ix => on_insert (t_id tb) (t_pk tb) ix tr) idxs in
          if Nat.leb (r_batch ev) (S counter)
          then let db := apply_ops db (o_at os n) in
               if r_write ev n then live_rows ev os tb idxs items' (apply_ops db ops) (S n) [] 0 else (db, S n, Err ECommit)
          else live_rows ev os tb idxs items' db n ops (S counter)
      end
  end.

(** /repo/table.go:265-336 ReIndex: the database, the number of its writes and what it returns. *)
Definition live_re_index {T F} (ev : renv) (os : others) (tb : table T F) (db : kv) (idxs : list (index T)) : kv * nat * res unit :=
  match live_delete ev os (t_id tb) idxs 0 db with
  | (db', n, false) => (db', n, Err ECommit)
  | (db', n, true) =>
      let db' := apply_ops db' (o_open os) in
      let p := primary_prefix tb in
      live_rows ev os tb idxs (items_from (new_iter db' p (key_successor p)) p) db' n [] 0
  end.

(** A write call that meets the given databases and filters one after another, one per step (/repo/table.go:338-789).
    Its steps are those of Model/Concur.v; [tb] carries the index map that the call copied at its beginning (e.g. 339-342). *)
Definition call_at {T F} (tb : table T F) (ev : env T) (c : call T) (fl : F) (seen : list (kv * F)) : thread :=
  fold_left (fun th m => snd (step_thread tb (fst m) (snd m) th)) seen (Thread ev c 0 (WSt [] fl (t_nil tb) 0) None).

(** The batch it commits; /repo/table.go:350-355. *)
Definition batch_at {T F} (tb : table T F) (ev : env T) (c : call T) (fl : F) (seen : list (kv * F)) : list bop :=
  w_ops (th_st (call_at tb ev c fl seen)).
