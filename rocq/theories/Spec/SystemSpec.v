(** A whole database as the user sees it: several tables, the user's own keys, and one read-write batch at a time. *)

From Coq Require Import List NArith Bool Sorting.Sorted.
From Verif.Model Require Import Bytes Go Keys Pebble Index Table Scan Query ReIndex.
From Verif.Spec Require Import KeySpec StoreSpec TableSpec HistSpec ScanSpec QuerySpec.
Import ListNotations.

Section System.
  (** The tables: their names, the types of their rows and of their filters' states. *)
  Context {I : Type} (eq_dec : forall i j : I, {i = j} + {i <> j}) (Ty Fl : I -> Type).

  Definition upd {P : I -> Type} (f : forall i, P i) (i : I) (x : P i) : forall j, P j :=
    fun j => match eq_dec i j with left e => eq_rect i P x j e | right _ => f j end.

  (** ** Calls and their answers *)

  Inductive reading :=
  | RGet (i : I) (r : Ty i)
  | RExist (i : I) (r : Ty i)
  | RPoints (i : I) (ev : env (Ty i)) (l : list (Ty i))
  | RScan (i : I) (ev : env (Ty i)) (idx : index (Ty i)) (sel : selector (Ty i)) (rv : bool)
  | RQuery (i : I) (ev : env (Ty i)) (srt : (Ty i -> Ty i -> bool) -> list (Ty i) -> list (Ty i)) (q : query (Ty i))
  | RRaw (k : bytes).

  (** Each with a flag: is the open batch given? OCommit has a flag: does pebble's commit succeed? It is not called for an empty batch. *)
  Inductive op :=
  | OWrite (inb : bool) (i : I) (ev : env (Ty i)) (c : call (Ty i))
  | OSet (inb : bool) (k v : bytes)
  | ODelete (inb : bool) (k : bytes)
  | ORead (inb : bool) (r : reading)
  | OAddIndex (i : I) (ev : renv) (idxs : list (index (Ty i)))
  | OBegin
  | OCommit (ok : bool)
  | OClose.

  Inductive reply :=
  | AWrite (r : res unit)
  | ARow (i : I) (r : res (Ty i))
  | ABool (b : bool)
  | ARows (i : I) (r : res (list (Ty i)))
  | AScan (i : I) (r : list (Ty i) * res unit)
  | ARaw (r : res bytes).

  (** ** Running them *)

  (** The open database: pebble's content (/repo/bond.go:125-136), the tables made by NewTable (/repo/table.go:151-186) with their filters' states,
      and the batch in use (/repo/batch.go:58-81); one batch at a time is a simplification. *)
  Record sys := Sys { y_db : kv; y_tb : forall i, table (Ty i) (Fl i); y_fl : forall i, Fl i; y_b : option batch }.

  (** The optional batch argument, /repo/table.go:16-60; the methods take it as a variadic or nil parameter. *)
  Definition arg (inb : bool) (s : sys) : optb :=
    if inb then match y_b s with Some b => ABatch b | None => NilBatch end else NoBatch.

  (** Get, Exist, Get with points, ScanIndex, Query.Execute and DB.Get or Batch.Get:
      /repo/table.go:791-816, 848-939, 1000-1110, /repo/query.go:155-400, /repo/bond.go:242-250. *)
  Definition run_read (fuel : nat) (s : sys) (ob : optb) (r : reading) : reply :=
    match r with
    | RGet i x => ARow i (get_point (y_tb s i) (y_db s) (y_fl s i) (batch_of ob) x)
    | RExist i x => ABool (exist (y_tb s i) (y_db s) (y_fl s i) (batch_of ob) x)
    | RPoints i ev l => ARows i (get_points (y_tb s i) ev (y_db s) (y_fl s i) (batch_of ob) l)
    | RScan i ev idx sel rv => AScan i (scan_index (y_tb s i) ev fuel (y_db s) (y_fl s i) idx sel [] rv ob)
    | RQuery i ev srt q => ARows i (execute (y_tb s i) ev srt fuel (y_db s) (y_fl s i) q ob)
    | RRaw k => ARaw (db_get (y_db s) (batch_of ob) k)
    end.

  (** A write of the user's own keys: DB.Set and DB.Delete, with or without a batch, /repo/bond.go:252-266. *)
  Definition run_raw (s : sys) (inb : bool) (o : bop) : sys * reply :=
    if inb then
      match y_b s with
      | Some b => (Sys (y_db s) (y_tb s) (y_fl s) (Some (Batch (b_rw b) (b_ops b ++ [o]))), AWrite (Ok tt))
      | None => (s, AWrite Panic)
      end
    else (Sys (apply_op (y_db s) o) (y_tb s) (y_fl s) (y_b s), AWrite (Ok tt)).

  (** Insert, Update, Upsert and Delete (/repo/table.go:338-789), AddIndex with reindexing (/repo/table.go:248-336), DB.Batch (/repo/bond.go:283-292),
      Batch.Commit and Close (/repo/batch.go:134-163). *)
  Definition run_op (fuel : nat) (s : sys) (o : op) : sys * reply :=
    match o with
    | OWrite inb i ev c =>
        let b := if inb then y_b s else None in
        let '(w, r) := run_call (y_tb s i) ev (y_db s) (y_fl s i) b c in
        (Sys (r_db w) (y_tb s) (upd (P:=Fl) (y_fl s) i (r_flt w)) (if inb then Table.r_batch w else y_b s), AWrite r)
    | OSet inb k v => run_raw s inb (BSet k v)
    | ODelete inb k => run_raw s inb (BDel k)
    | ORead inb r => (s, run_read fuel s (arg inb s) r)
    | OAddIndex i ev idxs =>
        let '(st, db', r) := add_index_call ev (y_tb s i) (IxState (t_indexes (y_tb s i)) false) (y_db s) idxs true in
        (Sys db' (upd (P:=fun i => table (Ty i) (Fl i)) (y_tb s) i (with_indexes (y_tb s i) (xs_map st))) (y_fl s) (y_b s), AWrite r)
    | OBegin => (Sys (y_db s) (y_tb s) (y_fl s) (Some (Batch true [])), AWrite (Ok tt))
    | OCommit ok =>
        match y_b s with
        | Some b => if (ok || match b_ops b with [] => true | _ => false end)%bool then (Sys (apply_ops (y_db s) (b_ops b)) (y_tb s) (y_fl s) None, AWrite (Ok tt))
                    else (Sys (y_db s) (y_tb s) (y_fl s) None, AWrite (Err ECommit))
        | None => (s, AWrite Panic)
        end
    | OClose => (Sys (y_db s) (y_tb s) (y_fl s) None, AWrite (Ok tt))
    end.

  (** The calls with their answers. *)
  Fixpoint run_ops (fuel : nat) (s : sys) (l : list op) : list (op * reply) :=
    match l with
    | [] => []
    | o :: l' => let '(s', x) := run_op fuel s o in (o, x) :: run_ops fuel s' l'
    end.

  (** ** The database as the user thinks of it *)

  (** What is stored: rows by table and primary key, and the user's own keys. *)
  Record content := Content { c_rows : forall i, tmap (Ty i); c_raw : bytes -> option bytes }.

  (** An open batch shows the content it would commit; a call on it that failed spoils it. *)
  Inductive bstate := BNone | BOpen (c : content) | BSpoiled.

  Record world := World { w_tb : forall i, table (Ty i) (Fl i); w_now : content; w_batch : bstate }.

  (** What a call acts on. *)
  Definition seen (inb : bool) (w : world) : option content :=
    if inb then match w_batch w with BOpen c => Some c | _ => None end else Some (w_now w).

  (** ... and what it leaves: [None] for a failed call. *)
  Definition leave (inb : bool) (w : world) (c : option content) : world :=
    if inb then World (w_tb w) (w_now w) (match c with Some c => BOpen c | None => BSpoiled end)
    else match c with Some c => World (w_tb w) c (w_batch w) | None => w end.

  (** The user's own keys start with no table's id. *)
  Definition own_key (w : world) (k : bytes) : Prop := forall i rest, k <> t_id (w_tb w i) :: rest.

  Definition with_rows (c : content) (i : I) (m : tmap (Ty i)) : content := Content (upd (P:=fun i => tmap (Ty i)) (c_rows c) i m) (c_raw c).
  Definition with_raw (c : content) (k : bytes) (v : option bytes) : content :=
    Content (c_rows c) (fun k' => if beqb k' k then v else c_raw c k').

  (** Queries the claim is about. *)
  Definition plain_query {T F} (tb : table T F) (m : tmap T) (fuel : nat) (inb : bool) (q : query T) : Prop :=
    (q_offset q < 2 ^ 63)%N /\ (q_limit q < 2 ^ 63)%N /\
    (forall x, In x (q :: q_inter q) -> In (q_index x) (primary_index :: t_indexes tb) /\ exact_selector tb (q_index x) m (q_sel x) /\
       forall l, selected tb (q_index x) m (q_sel x) l -> length l <= fuel) /\
    match q_inter q with
    | [] => match q_less q, q_after q with
            | None, Some a => q_rev q = false /\
                after_fits (schema_of tb) (sindex_of (q_index q)) (Byte.eqb (ix_id (q_index q)) x00) a (q_sel q) /\
                forall l, selected tb (q_index q) m (q_sel q) l -> StronglySorted (pos_lt (schema_of tb) (sindex_of (q_index q))) l
            | _, _ => True
            end
    | _ => inb = false /\ (forall x, In x (q_inter q) -> plain_part x) /\
           (q_after q = None \/ q_filter q <> None \/ q_less q <> None \/ q_offset q = 0%N /\ q_limit q = 0%N)
    end.

  (** The rows a query returns. *)
  Definition query_rows {T F} (tb : table T F) (m : tmap T) (q : query T) (rows : list T) : Prop :=
    match q_inter q with
    | [] => exists l, selected tb (q_index q) m (q_sel q) l /\
        match q_less q, q_after q with
        | None, Some a => rows = window (q_offset q) (q_limit q) (keep (q_filter q) (rows_after (schema_of tb) (sindex_of (q_index q)) a l))
        | less, _ => exists s a, ordered less (keep (q_filter q) (dir (q_rev q) l)) s /\ behind_opt (schema_of tb) (q_after q) s a /\
                       rows = window (q_offset q) (q_limit q) a
        end
    | _ => exists ls b s a, Forall2 (fun x l => selected tb (q_index x) m (q_sel x) l) (q :: q_inter q) ls /\
        intersection (schema_of tb) ls b /\ ordered (q_less q) (keep (q_filter q) b) s /\ behind_opt (schema_of tb) (q_after q) s a /\
        rows = window (q_offset q) (q_limit q) a
    end.

  (** The readings the claim is about, and what they must answer. *)
  Definition proper_read (fuel : nat) (w : world) (c : content) (inb : bool) (r : reading) : Prop :=
    match r with
    | RGet _ _ | RExist _ _ => True
    | RPoints i ev _ => env_ok ev /\ forall p x, c_rows c i p = Some x -> s_val (schema_of (w_tb w i)) x <> Some []
    | RScan i ev idx sel _ => env_ok ev /\ quiet ev /\ 0 < t_prefetch (w_tb w i) /\ In idx (primary_index :: t_indexes (w_tb w i)) /\
        exact_selector (w_tb w i) idx (c_rows c i) sel /\ forall l, selected (w_tb w i) idx (c_rows c i) sel l -> length l <= fuel
    | RQuery i ev srt q => env_ok ev /\ quiet ev /\ 0 < t_prefetch (w_tb w i) /\ sorts srt /\ plain_query (w_tb w i) (c_rows c i) fuel inb q
    | RRaw k => own_key w k
    end.

  Definition right_read (w : world) (c : content) (r : reading) (x : reply) : Prop :=
    match r with
    | RGet i r => x = ARow i (match c_rows c i (s_pk (schema_of (w_tb w i)) r) with Some y => Ok y | None => Err ENotFound end)
    | RExist i r => x = ABool (match c_rows c i (s_pk (schema_of (w_tb w i)) r) with Some _ => true | None => false end)
    | RPoints i _ l => x = ARows i (Ok (map (fun r => match c_rows c i (s_pk (schema_of (w_tb w i)) r) with Some y => y | None => t_nil (w_tb w i) end) l))
    | RScan i _ idx sel rv => exists l, selected (w_tb w i) idx (c_rows c i) sel l /\ x = AScan i (dir rv l, Ok tt)
    | RQuery i _ _ q => exists rows, query_rows (w_tb w i) (c_rows c i) q rows /\ x = ARows i (Ok rows)
    | RRaw k => x = ARaw (match c_raw c k with Some v => Ok v | None => Err ENotFound end)
    end.

  (** The same for calls, and the world they leave. While a batch is open, direct writes are not part of the claim. *)
  Definition proper (fuel : nat) (w : world) (o : op) : Prop :=
    match o with
    | OWrite inb i ev c => env_ok ev /\ exists ct, seen inb w = Some ct /\ (inb = false -> w_batch w = BNone) /\
        admissible (schema_of (w_tb w i)) (c_rows ct i) c
    | OSet inb k _ | ODelete inb k => own_key w k /\ seen inb w <> None /\ (inb = false -> w_batch w = BNone)
    | ORead inb r => exists ct, seen inb w = Some ct /\ proper_read fuel w ct inb r
    | OAddIndex i ev idxs =>
        let tb' := with_indexes (w_tb w i) (t_indexes (w_tb w i) ++ idxs) in
        w_batch w = BNone /\ lawful tb' /\ (forall n, r_write ev n = true) /\ (forall ix, In ix idxs -> ix_id ix <> xff) /\
        forall pk r, c_rows (w_now w) i pk = Some r -> row_ok (schema_of tb') r
    | OBegin => w_batch w = BNone
    | OCommit _ => exists c, w_batch w = BOpen c
    | OClose => w_batch w <> BNone
    end.

  Definition right (w : world) (o : op) (x : reply) : Prop :=
    match o with
    | OWrite inb i ev c => exists ct r, seen inb w = Some ct /\ x = AWrite r /\
        (r = Ok tt /\ succeeds (schema_of (w_tb w i)) (c_rows ct i) c \/ exists e, r = Err e) /\
        (quiet ev -> succeeds (schema_of (w_tb w i)) (c_rows ct i) c -> r = Ok tt)
    | ORead inb r => exists ct, seen inb w = Some ct /\ right_read w ct r x
    | OCommit ok => x = AWrite (Ok tt) \/ ok = false /\ x = AWrite (Err ECommit)
    | _ => x = AWrite (Ok tt)
    end.

  Definition next (w : world) (o : op) (x : reply) : world :=
    match o with
    | OWrite inb i _ c =>
        match seen inb w, x with
        | Some ct, AWrite (Ok _) => leave inb w (Some (with_rows ct i (effect (schema_of (w_tb w i)) (c_rows ct i) c)))
        | _, _ => leave inb w None
        end
    | OSet inb k v => leave inb w (option_map (fun ct => with_raw ct k (Some v)) (seen inb w))
    | ODelete inb k => leave inb w (option_map (fun ct => with_raw ct k None) (seen inb w))
    | ORead _ _ => w
    | OAddIndex i _ idxs =>
        World (upd (P:=fun i => table (Ty i) (Fl i)) (w_tb w) i (with_indexes (w_tb w i) (t_indexes (w_tb w i) ++ idxs))) (w_now w) (w_batch w)
    | OBegin => World (w_tb w) (w_now w) (BOpen (w_now w))
    | OCommit _ => World (w_tb w) (match w_batch w, x with BOpen c, AWrite (Ok _) => c | _, _ => w_now w end) BNone
    | OClose => World (w_tb w) (w_now w) BNone
    end.

  (** As long as the calls are those the claim is about, every answer is right. *)
  Fixpoint all_right (fuel : nat) (w : world) (l : list (op * reply)) : Prop :=
    match l with
    | [] => True
    | (o, x) :: l' => proper fuel w o -> right w o x /\ all_right fuel (next w o x) l'
    end.

  (** All the calls are those the claim is about. *)
  Fixpoint all_proper (fuel : nat) (w : world) (l : list (op * reply)) : Prop :=
    match l with
    | [] => True
    | (o, x) :: l' => proper fuel w o /\ all_proper fuel (next w o x) l'
    end.

  Definition empty : content := Content (fun _ => empty_map) (fun _ => None).
End System.
