(** Dump of /repo/bond.go step by step: the goroutine of the call and one goroutine per directory, stopped anywhere. *)

From Coq Require Import List NArith Bool Arith Strings.String Strings.Byte.
From Verif.Model Require Import Bytes Go Keys Pebble Bloom Backup.
Import ListNotations.
Local Open Scope list_scope.

(** A goroutine that runs iteratorToSST, /repo/bond.go:525-558: its directory, the files it has closed, the pairs written to the file that
    is open, if one is, the pairs that the iterator still has, and whether it has returned. *)
Record writer := Writer { w_dir : bytes; w_files : list kv; w_open : option kv; w_left : kv; w_done : bool }.

(** The goroutine as it is started at /repo/bond.go:407-411 and 431-435; the iterator was opened before, on the snapshot. *)
Definition start_writer (dir : bytes) (items : kv) : writer := Writer dir [] None items false.

(** One step of iteratorToSST: create a file (/repo/bond.go:529, 550), write a pair and close the file if it has become large (:540-546),
    or close the last file (:557). The steps succeed. *)
Definition writer_step (full : kv -> bool) (w : writer) : writer :=
  if w_done w then w
  else match w_open w with
       | None => Writer (w_dir w) (w_files w) (Some []) (w_left w) false
       | Some cur =>
           match w_left w with
           | [] => Writer (w_dir w) (w_files w ++ [cur]) None [] true
           | e :: more =>
               let cur := cur ++ [e] in
               if full cur then Writer (w_dir w) (w_files w ++ [cur]) None more false
               else Writer (w_dir w) (w_files w) (Some cur) more false
           end
       end.

(** Where the call is: before os.Mkdir of /repo/bond.go:379, writing VERSION (:384-386), at the top of the loop over the tables (:393, [n]
    tables done), before getIndexIDS (:417), in the loop over the indexes (:418), in grp.Wait (:438), or returned. *)
Inductive dpc :=
| MStart (tables : list byte)
| MVersion (tables : list byte)
| MTables (n : nat) (tables : list byte)
| MIds (n : nat) (t : byte) (tables : list byte)
| MIndexes (n : nat) (t : byte) (ids : list byte) (tables : list byte)
| MWait
| MEnd (r : res unit).

(** What is in the directory and who works on it; /repo/bond.go:378-439. [ds_version]: the content of VERSION, if the file exists. *)
Record dstate := DState { ds_version : option bytes; ds_writers : list writer; ds_main : dpc }.

(** The directory of a goroutine as it is on disk: the closed files are sst files; one that was not closed has no footer and is not. Its
    content is left out. /repo/bond.go:395, 420, 525-558. *)
Definition writer_tree (w : writer) : tree :=
  ([w_dir w], NDir) :: sst_files (w_dir w) 1 (w_files w) ++
  match w_open w with
  | Some _ => [([w_dir w; sst_name (1 + N.of_nat (List.length (w_files w)))], NFile [])]
  | None => []
  end.

(** The dump directory as it is on disk; /repo/bond.go:378-439. *)
Definition tree_of (st : dstate) : tree :=
  match ds_version st with Some v => [([str "VERSION"], NFile v)] | None => [] end ++ flat_map writer_tree (ds_writers st).

(** os.Mkdir of a table's or index's directory and the start of its goroutine; /repo/bond.go:395-411, 420-435. *)
Definition mkdir_step (st : dstate) (dir : bytes) (items : kv) (next : dpc) : dstate :=
  match tree_get (tree_of st) [dir] with
  | Some _ => DState (ds_version st) (ds_writers st) (MEnd (Err EOther))
  | None => DState (ds_version st) (ds_writers st ++ [start_writer dir items]) next
  end.

(** One step of the call, /repo/bond.go:378-439. [exists_dir]: os.Mkdir of the dump directory fails; [live n] is the database when
    getIndexIDS runs for the n-th table. VERSION is created and then written byte by byte. *)
Definition main_step (snap : kv) (live : nat -> kv) (exists_dir with_index : bool) (st : dstate) : dstate :=
  let go := DState (ds_version st) (ds_writers st) in
  match ds_main st with
  | MStart tables => if exists_dir then go (MEnd (Err EOther)) else go (MVersion tables)
  | MVersion tables =>
      match ds_version st with
      | None => DState (Some []) (ds_writers st) (MVersion tables)
      | Some v =>
          if Nat.ltb (List.length v) 4 then DState (Some (firstn (S (List.length v)) (be_bytes 4 data_version))) (ds_writers st) (MVersion tables)
          else go (MTables 0 tables)
      end
  | MTables n [] => go MWait
  | MTables n (t :: tables) =>
      mkdir_step st (table_dir t) (kv_range snap (fst (row_bounds t)) (snd (row_bounds t))) (if with_index then MIds n t tables else MTables (S n) tables)
  | MIds n t tables =>
      match get_index_ids (live n) t with
      | Ok ids => go (MIndexes n t ids tables)
      | Err e => go (MEnd (Err e))
      | Panic => go (MEnd Panic)
      | Diverge => go (MEnd Diverge)
      end
  | MIndexes n t [] tables => go (MTables (S n) tables)
  | MIndexes n t (i :: ids) tables =>
      mkdir_step st (index_dir t i) (kv_range snap (fst (index_bounds t i)) (snd (index_bounds t i))) (MIndexes n t ids tables)
  | MWait => if forallb w_done (ds_writers st) then go (MEnd (Ok tt)) else st
  | MEnd _ => st
  end.

(** The scheduler picks the call or the i-th goroutine; goroutines run on after the call has returned with an error. /repo/bond.go:391, 407,
    431. *)
Inductive dwho := DMain | DWriter (i : nat).

(** One step of the system; /repo/bond.go:378-439, 525-558. *)
Definition dump_step (full : kv -> bool) (snap : kv) (live : nat -> kv) (exists_dir with_index : bool) (st : dstate) (c : dwho) : dstate :=
  match c with
  | DMain => main_step snap live exists_dir with_index st
  | DWriter i =>
      match nth_error (ds_writers st) i with
      | None => st
      | Some w => DState (ds_version st) (firstn i (ds_writers st) ++ writer_step full w :: skipn (S i) (ds_writers st)) (ds_main st)
      end
  end.

(** Dump under a schedule; it is interrupted (the process is killed) where the schedule ends. /repo/bond.go:378-439. *)
Definition run_dump (full : kv -> bool) (snap : kv) (live : nat -> kv) (exists_dir with_index : bool) (tables : list byte) (sched : list dwho) : dstate :=
  fold_left (dump_step full snap live exists_dir with_index) sched (DState None [] (MStart tables)).

(** filepath.Ext(path) == ".sst", /repo/bond.go:470. *)
Definition ends_sst (p : list bytes) : bool := has_prefix (rev (str ".sst")) (rev (last p [])).

(** Is a file among the picked that has the extension .sst and is no sst file? pebble refuses to open it; /repo/bond.go:466-498. *)
Definition picks_broken (root : bytes) (tables : list byte) (with_index : bool) (d : tree) : bool :=
  existsb (fun e => match snd e with NFile _ => ends_sst (fst e) && picked tables with_index (full_path root (fst e)) | _ => false end) d.

(** /repo/bond.go:441-499 Restore from a directory that may have unfinished files: the checks come first, then Ingest opens all files before
    it changes anything. *)
Definition restore_disk (root : bytes) (d : tree) (db : kv) (tables : list byte) (with_index : bool) : kv * res unit :=
  match restore root d db tables with_index with
  | (db', Ok r) => if picks_broken root tables with_index d then (db, Err EOther) else (db', Ok r)
  | r => r
  end.
