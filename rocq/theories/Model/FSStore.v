(** The file store of filters: /repo/filters/filter_fs_storer.go. *)

From Coq Require Import List NArith Bool.
From Verif.Model Require Import Bytes Go Pebble Bloom.
Import ListNotations.

(** The files of the storer's directory by name, /repo/filters/filter_fs_storer.go:14-17. Simplified: no subdirectories, no
    limits on name length, and the directory itself always exists. *)
Definition files := kv.

(** The characters kept by the regular expression, /repo/filters/filter_fs_storer.go:20: A-Z a-z 0-9 _ and dot. *)
Definition name_char (b : byte) : bool :=
  let n := b2n b in
  ((65 <=? n) && (n <=? 90) || (97 <=? n) && (n <=? 122) || (48 <=? n) && (n <=? 57) || (n =? 95) || (n =? 46))%N.

(** /repo/filters/filter_fs_storer.go:57-62 prepareFilePath, below the root: every other byte is dropped (every byte of a
    multi-byte or invalid UTF-8 sequence is one of those). *)
Definition file_name (k : bytes) : bytes := filter name_char k.

(** The names that path.Join makes into the directory itself or its parent; /repo/filters/filter_fs_storer.go:57-62. *)
Definition dir_name (n : bytes) : bool := beqb n [] || beqb n [x2e] || beqb n [x2e; x2e].

(** /repo/filters/filter_fs_storer.go:23-31 Get: reading a directory is an error. *)
Definition fs_get (d : files) (k : bytes) : option bytes :=
  if dir_name (file_name k) then None else kv_get d (file_name k).

(** /repo/filters/filter_fs_storer.go:33-41 Set; writing to a directory is an error ([false]). *)
Definition fs_set (d : files) (k v : bytes) : files * bool :=
  if dir_name (file_name k) then (d, false) else (kv_set d (file_name k) v, true).

(** os.WriteFile truncates and then writes, /repo/filters/filter_fs_storer.go:36: what an interruption after [j] bytes leaves. *)
Definition fs_torn (d : files) (k v : bytes) (j : nat) : files := fst (fs_set d k (firstn j v)).

(** /repo/filters/filter_fs_storer.go:43-55 DeleteRange: [hi] is not used. The walk starts with the directory ".", which is
    removed as well if its name is not below the start: an error if there are files. Simplified: an empty directory stays. *)
Definition fs_del_range (d : files) (lo hi : bytes) : files * bool :=
  if bleb (file_name lo) [x2e] then (d, false)
  else (filter (fun e => bltb (fst e) (file_name lo)) d, true).

(** As a FilterStorer, /repo/filters/filter_fs_storer.go:64. *)
Definition fs_storer : storer files := Storer fs_get (fun d k v => fst (fs_set d k v)) fs_del_range fs_torn.
