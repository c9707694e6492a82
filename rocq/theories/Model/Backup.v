(** Dump, Restore and getIndexIDS of /repo/bond.go. *)

From Coq Require Import List NArith Bool Arith Decimal DecimalN Strings.String Strings.Byte.
From Verif.Model Require Import Bytes Go Keys Pebble Bloom.
Import ListNotations.
Local Open Scope list_scope.

(** A string constant; /repo/bond.go:384, 394, 419, 470, 486. *)
Definition str (s : string) : bytes := list_byte_of_string s.

(** fmt.Sprintf("%d"), /repo/bond.go:394, 419, 476, 529. *)
Definition dec (n : N) : bytes := digits (N.to_uint n).

(** fmt.Sprintf("table_%d", t) and fmt.Sprintf("table_%d_index_%d", t, i); /repo/bond.go:394, 419, 457, 476. *)
Definition table_dir (t : byte) : bytes := str "table_" ++ dec (b2n t).
Definition index_dir (t i : byte) : bytes := table_dir t ++ str "_index_" ++ dec (b2n i).

(** fmt.Sprintf("%d.sst", n); /repo/bond.go:529, 550. *)
Definition sst_name (n : N) : bytes := dec n ++ str ".sst".

(** What is at a path below the dump directory: a directory, a plain file, or an sst file with its pairs;
    /repo/bond.go:379-386, 395, 420, 529-557. *)
Inductive node := NDir | NFile (content : bytes) | NSst (pairs : kv).

(** The content of the dump directory, by path components below it; /repo/bond.go:378-439. *)
Definition tree := list (list bytes * node).

(** os.Stat / os.ReadFile of a path below the dump directory; /repo/bond.go:442, 458. *)
Fixpoint tree_get (d : tree) (p : list bytes) : option node :=
  match d with
  | [] => None
  | (q, n) :: d' => if list_eq_dec (list_eq_dec byte_eq_dec) p q then Some n else tree_get d' p
  end.

(** ** getIndexIDS *)

(** The loop of /repo/bond.go:506-520; [i] is prefix[1]. *)
Fixpoint ids_loop (fuel : nat) (it : piter) (t i : byte) : res (list byte) :=
  match fuel with
  | O => Diverge
  | S fuel' =>
      let it := it_seek_ge it [t; i] in
      if it_valid it then
        match it_key it with
        | a :: b :: _ =>
            if Byte.eqb a t then
              if Byte.eqb b xff then Ok [b]
              else match ids_loop fuel' it t (n2b (b2n b + 1)) with Ok l => Ok (b :: l) | r => r end
            else Ok []
        | _ => Panic
        end
      else Ok []
  end.

(** /repo/bond.go:501-522 getIndexIDS: an iterator without bounds. The 256 rounds are never used up (theorem C47_index_ids). *)
Definition get_index_ids (db : kv) (t : byte) : res (list byte) := ids_loop 256 (PIter db PNone None) t x01.

(** ** Dump *)

(** The loop of iteratorToSST, /repo/bond.go:539-556: [full] tells whether EstimatedSize exceeds the limit after the pairs written
    so far. The last file may be empty. Sets of an sst writer are assumed to succeed on increasing keys. *)
Fixpoint sst_split (full : kv -> bool) (items cur : kv) : list kv :=
  match items with
  | [] => [cur]
  | e :: items' =>
      let cur := cur ++ [e] in
      if full cur then cur :: sst_split full items' [] else sst_split full items' cur
  end.

(** The files numbered from [n] in directory [dir]; /repo/bond.go:528-557. *)
Fixpoint sst_files (dir : bytes) (n : N) (l : list kv) : tree :=
  match l with
  | [] => []
  | f :: l' => ([dir; sst_name n], NSst f) :: sst_files dir (n + 1) l'
  end.

(** os.Mkdir and the goroutine that fills the directory; /repo/bond.go:395-411, 420-435. [None]: the directory exists. The
    goroutines write to different directories, so their order does not matter; writes to the file system succeed. *)
Definition dump_dir (full : kv -> bool) (d : tree) (dir : bytes) (items : kv) : option tree :=
  match tree_get d [dir] with
  | Some _ => None
  | None => Some (d ++ ([dir], NDir) :: sst_files dir 1 (sst_split full items []))
  end.

(** /repo/bond.go:400-401 and 424-425: the bounds of the rows and of an index. *)
Definition row_bounds (t : byte) : bytes * bytes := ([t; x00; x00; x00; x00; x00], [t; x01; x00; x00; x00; x00]).
Definition index_bounds (t i : byte) : bytes * bytes := ([t; i; x00; x00; x00; x00], [t; i; xff; xff; xff; xff]).

(** The inner loop, /repo/bond.go:418-436. *)
Fixpoint dump_indexes (full : kv -> bool) (snap : kv) (t : byte) (ids : list byte) (d : tree) : tree * res unit :=
  match ids with
  | [] => (d, Ok tt)
  | i :: ids' =>
      match dump_dir full d (index_dir t i) (kv_range snap (fst (index_bounds t i)) (snd (index_bounds t i))) with
      | None => (d, Err EOther)
      | Some d' => dump_indexes full snap t ids' d'
      end
  end.

(** The outer loop, /repo/bond.go:393-437. [live n] is the database when getIndexIDS runs for the n-th table: it reads the database,
    not the snapshot. *)
Fixpoint dump_tables (full : kv -> bool) (snap : kv) (live : nat -> kv) (n : nat) (with_index : bool) (tables : list byte) (d : tree) : tree * res unit :=
  match tables with
  | [] => (d, Ok tt)
  | t :: tables' =>
      match dump_dir full d (table_dir t) (kv_range snap (fst (row_bounds t)) (snd (row_bounds t))) with
      | None => (d, Err EOther)
      | Some d' =>
          if with_index then
            match get_index_ids (live n) t with
            | Ok ids => match dump_indexes full snap t ids d' with
                        | (d'', Ok _) => dump_tables full snap live (S n) with_index tables' d''
                        | r => r
                        end
            | Err e => (d', Err e)
            | Panic => (d', Panic)
            | Diverge => (d', Diverge)
            end
          else dump_tables full snap live (S n) with_index tables' d'
      end
  end.

(** /repo/version.go:12 BOND_DB_DATA_VERSION. *)
Definition data_version : N := 1.

(** /repo/bond.go:378-439 Dump into a directory that exists or not. *)
Definition dump (full : kv -> bool) (snap : kv) (live : nat -> kv) (exists_dir with_index : bool) (tables : list byte) : tree * res unit :=
  if exists_dir then ([], Err EOther)
  else dump_tables full snap live 0 with_index tables [([str "VERSION"], NFile (be_bytes 4 data_version))].

(** ** Restore *)

(** strings.Contains(l, sub); /repo/bond.go:476, 486. *)
Fixpoint contains (sub l : bytes) : bool :=
  has_prefix sub l || match l with [] => false | _ :: l' => contains sub l' end.

(** The full path of a file of the dump: [root] is the path given to Restore; filepath.Walk at /repo/bond.go:466. Simplified:
    [root] is in the form that filepath.Join leaves alone. *)
Fixpoint full_path (root : bytes) (p : list bytes) : bytes :=
  match p with [] => root | c :: p' => full_path (root ++ str "/" ++ c) p' end.

(** /repo/bond.go:473-493: is the file ingested? *)
Definition picked (tables : list byte) (with_index : bool) (path : bytes) : bool :=
  existsb (fun t => contains (table_dir t) path) tables && (negb (contains (str "index") path) || with_index).

(** The walk, /repo/bond.go:465-494: the sst files to ingest. Their order does not matter to Ingest. Files with the extension .sst
    are the sst files. *)
Fixpoint pick_ssts (root : bytes) (tables : list byte) (with_index : bool) (d : tree) : list kv :=
  match d with
  | [] => []
  | (p, NSst f) :: d' =>
      if picked tables with_index (full_path root p) then f :: pick_ssts root tables with_index d' else pick_ssts root tables with_index d'
  | _ :: d' => pick_ssts root tables with_index d'
  end.

(** Do the key ranges of two sst files overlap? pebble Ingest, used at /repo/bond.go:498. *)
Definition overlap (a b : kv) : bool :=
  match a, b with
  | (k, _) :: _, (l, _) :: _ => bleb k (fst (last b (l, []))) && bleb l (fst (last a (k, [])))
  | _, _ => false
  end.

Fixpoint overlapping (l : list kv) : bool :=
  match l with [] => false | f :: l' => existsb (overlap f) l' || overlapping l' end.

(** pebble Ingest, used at /repo/bond.go:498: empty files are skipped, overlapping files are refused, otherwise all pairs are set
    atomically, over what the database has. *)
Definition ingest (db : kv) (l : list kv) : kv * res unit :=
  if overlapping l then (db, Err EOther)
  else (apply_ops db (flat_map (map (fun e => BSet (fst e) (snd e))) l), Ok tt).

(** /repo/bond.go:441-499 Restore from the directory [root] with content [d]. *)
Definition restore (root : bytes) (d : tree) (db : kv) (tables : list byte) (with_index : bool) : kv * res unit :=
  match tree_get d [str "VERSION"] with
  | Some (NFile buf) =>
      if Nat.ltb (List.length buf) 4 then (db, Err EOther)
      else if negb (be_val (firstn 4 buf) =? data_version)%N then (db, Err EOther)
      else if forallb (fun t => match tree_get d [table_dir t] with Some _ => true | None => false end) tables
           then ingest db (pick_ssts root tables with_index d)
           else (db, Err EOther)
  | _ => (db, Err EOther)
  end.
