(** What a version record means. *)

From Coq Require Import List NArith.
From Verif.Model Require Import Bytes Go Backup Version.
Import ListNotations.

(** The bytes are a decimal numeral of [v], perhaps with zeros in front. *)
Definition records (s : bytes) (v : N) : Prop := exists zeros, s = repeat x30 zeros ++ dec v.

(** The directory records format version [v], or none yet. *)
Definition recorded (d : disk) (v : N) : Prop := exists s, d_file d = Some s /\ records s v.

(** Directories that can exist: the file is in the directory "bond". *)
Definition disk_ok (d : disk) : Prop := d_file d <> None -> d_bond d = true.

(** A directory that a crash during a call can leave: the one before it or the one after any of its steps. *)
Definition crashed (d : disk) (call : list disk * res unit) (d' : disk) : Prop := In d' (d :: fst call).
